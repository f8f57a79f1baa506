(** Model of buffered_dispatcher.hpp when byte getters, byte putters and
    callbacks may throw: which members have been modified when the exception
    leaves the member function.  No handler exists in the library (no [try] in
    /repo/include), so that an exception always reaches the caller.

    Objects destroyed by the stack unwinding (tuples on the stack) have no
    effect.  Serialization itself does not throw.

    No proofs in this file. *)

From Coq Require Import List ZArith Bool Arith.
From Verif Require Import Base CInt IntModel TypeLevel Serial TupleModel Rpc Buffered.
Import ListNotations.
Open Scope nat_scope.

(** How a member function of buffered_dispatcher.hpp (109-203) ends: it
    returns, or an exception leaves it. *)
Inductive outcome (A : Type) : Type :=
| Returned (a : A)
| Thrown.
Arguments Returned {A} a.
Arguments Thrown {A}.

(** Byte getters and putters which may throw.
    buffered_dispatcher.hpp 113, 115. *)
Definition esource (X : Type) : Type := X -> res (X * outcome Z).
(** The same for byte putters: buffered_dispatcher.hpp 168. *)
Definition edestination (X : Type) : Type := Z -> X -> res (X * outcome unit).

(** Those which do not.
    buffered_dispatcher.hpp 113, 115. *)
Definition esource_of {X : Type} (src : source X) : esource X :=
  fun x => '(x', b) <- src x;; Ok (x', Returned b).

(** Whether the callback of an index throws, and the world it leaves.
    buffered_dispatcher.hpp 266 (through tuple.hpp 184). *)
Definition throwing (X : Type) : Type := nat -> list val -> X -> option X.

Section Exceptions.
  Variable p : platform.
  (** The greatest [std::size_t]: [--m_load_count] wraps. *)
  Variable size_max : nat.
  Context {X : Type}.
  Variable throws : throwing X.

  (** action.hpp 53-69 and 122-141, as far as the callback: reading the
      arguments has no effect but on the frame. *)
  Definition thrown_by (i : nat) (a : action (frame X)) (w : frame X) : res (option X) :=
    match (match a with Storage o => o | NoStorage c => Some c end) with
    | None => Ok None
    | Some c =>
        let ts := sig_params (f_sig (m_func c)) in
        '(w1, st) <- read_tuple p (m_e c) (m_m c) ts ibuf_source w;;
        '(_, r) <- invoke p (tuple_at (m_e c) (m_m c) ts 0) (fun args w => (w, throws i args (fr_world w))) st w1;;
        Ok r
    end.

  (** buffered_dispatcher.hpp 260-272: if the callback throws, the last three
      assignments are not executed. *)
  Definition call_e (b : buffered X) (x : X) : res (buffered X * X * outcome unit) :=
    let d := b_dispatcher b in
    '(w1, index) <- get_index p (framed_dispatcher d) ibuf_source (mk_frame (b_bufs b) 0 0 x);;
    a <- action_at (framed_dispatcher d) index;;
    t <- thrown_by index a w1;;
    match t with
    | Some x' =>
        Ok (mk_buffered d (b_is_index_loaded b) (b_load_count b) (b_ibuf_next b) 0 0 (b_bufs b), x', Thrown)
    | None =>
        w2 <- run p a ibuf_source obuf_destination w1;;
        Ok (mk_buffered d false (index_length d) 0 0 (fr_bottom w2) (fr_bufs w2), fr_world w2, Returned tt)
    end.

  (** [call(); return packet_status::RESOLVED_PACKET;]
      buffered_dispatcher.hpp 137-138, 147-148. *)
  Definition resolve (b : buffered X) (x : X) : res (buffered X * X * outcome packet_status) :=
    '(b', x', o) <- call_e b x;;
    Ok (b', x', match o with Returned _ => Returned RESOLVED_PACKET | Thrown => Thrown end).

  (** buffered_dispatcher.hpp 130-158 *)
  Definition put_e (byte : Z) (b : buffered X) (x : X) : res (buffered X * X * outcome packet_status) :=
    let d := b_dispatcher b in
    m <- store (ibuf (b_bufs b)) (b_ibuf_next b) byte;;
    let bufs := set_ibuf m (b_bufs b) in
    let next := S (b_ibuf_next b) in
    let count := match b_load_count b with 0 => size_max | S c => c end in
    let b1 := mk_buffered d (b_is_index_loaded b) count next (b_obuf_next b) (b_obuf_bottom b) bufs in
    if 0 <? count then Ok (b1, x, Returned LOADING_PACKET)
    else if b_is_index_loaded b then resolve b1 x
    else
      '(w, index) <- get_index p (framed_dispatcher d) ibuf_source (mk_frame bufs 0 0 x);;
      if index <? d_size d then
        a <- action_at d index;;
        n <- input_size a;;
        let b2 := mk_buffered d true n next (b_obuf_next b) (b_obuf_bottom b) bufs in
        if n =? 0 then resolve b2 x
        else Ok (b2, x, Returned LOADING_PACKET)
      else
        Ok (mk_buffered d false (index_length d) 0 (b_obuf_next b) (b_obuf_bottom b) bufs,
            x, Returned DROPPED_PACKET).

  (** The loop of 112-113 *)
  Fixpoint read_index_e (fuel : nat) (src : esource X) (b : buffered X) (x : X) (s : packet_status)
      : res (buffered X * X * outcome packet_status) :=
    if negb (b_is_index_loaded b) && is_loading s then
      match fuel with
      | 0 => Fault OutOfFuel
      | S fuel' =>
          '(x1, o) <- src x;;
          match o with
          | Thrown => Ok (b, x1, Thrown)
          | Returned byte =>
              '(b', x2, o') <- put_e byte b x1;;
              match o' with
              | Thrown => Ok (b', x2, Thrown)
              | Returned s' => read_index_e fuel' src b' x2 s'
              end
          end
      end
    else Ok (b, x, Returned s).

  (** The loop of 114-115 *)
  Fixpoint read_payload_e (fuel : nat) (src : esource X) (b : buffered X) (x : X) (s : packet_status)
      : res (buffered X * X * outcome packet_status) :=
    if b_is_index_loaded b then
      match fuel with
      | 0 => Fault OutOfFuel
      | S fuel' =>
          '(x1, o) <- src x;;
          match o with
          | Thrown => Ok (b, x1, Thrown)
          | Returned byte =>
              '(b', x2, o') <- put_e byte b x1;;
              match o' with
              | Thrown => Ok (b', x2, Thrown)
              | Returned s' => read_payload_e fuel' src b' x2 s'
              end
          end
      end
    else Ok (b, x, Returned s).

  (** buffered_dispatcher.hpp 109-117.  A byte which does not end the packet is
      stored one position further than the previous one: both loops end or
      leave the input buffer within the size of the buffer, see
      [read_index_e_fuel] and [read_payload_e_fuel]. *)
  Definition read_from_e (src : esource X) (b : buffered X) (x : X)
      : res (buffered X * X * outcome packet_status) :=
    let fuel := S (length (ibuf (b_bufs b))) in
    '(b1, x1, o) <- read_index_e fuel src b x LOADING_PACKET;;
    match o with
    | Thrown => Ok (b1, x1, Thrown)
    | Returned s => read_payload_e fuel src b1 x1 s
    end.

  (** The loop of 167-168: [get] has moved [m_obuf_next] when [dest] throws. *)
  Fixpoint write_loop_e {Y : Type} (fuel : nat) (dest : edestination Y) (b : buffered X) (y : Y)
      : res (buffered X * Y * outcome unit) :=
    if is_loaded b then
      match fuel with
      | 0 => Fault OutOfFuel
      | S fuel' =>
          '(b', byte) <- get_byte b;;
          '(y', o) <- dest byte y;;
          match o with
          | Thrown => Ok (b', y', Thrown)
          | Returned _ => write_loop_e fuel' dest b' y'
          end
      end
    else Ok (b, y, Returned tt).

  (** buffered_dispatcher.hpp 165-169 *)
  Definition write_to_e {Y : Type} (dest : edestination Y) (b : buffered X) (y : Y)
      : res (buffered X * Y * outcome unit) :=
    write_loop_e (S (length (obuf (b_bufs b)))) dest b y.
End Exceptions.
