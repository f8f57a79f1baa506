(** Model of a program which receives bytes while the response is sent from
    interrupt handlers.  No proofs in this file.

    [put] and [call] (buffered_dispatcher.hpp 130-158, 260-272) are cut at each
    access to [m_obuf_next], [m_obuf_bottom] and the output buffer.  Between two
    such accesses (the input buffer of a [single_buffered_dispatcher] being its
    output buffer too) interrupts may take place, whose handlers send the next byte
    of the response if there is one ([if (dis.is_loaded()) send(dis.get());]); a
    handler is not interrupted.  The other accesses of [put] are to what [get]
    and [is_loaded] do not use, so that the place of an interrupt among them is
    immaterial.  As in Interrupts.v it is assumed that the compiler performs the
    accesses which the source tells, each of them at once.  The bytes sent are
    recorded apart from the world of the callbacks. *)

From Coq Require Import List ZArith Bool Arith.
From Verif Require Import Base CInt IntModel TypeLevel Serial TupleModel Rpc Buffered ReEntrant.
Import ListNotations.
Open Scope nat_scope.

(** The dispatcher, the local variable [ibuf_ptr] of [call], the world of the
    callbacks, the interrupts to come (for each moment at which some may take
    place, how many of them do) and the bytes sent.
    buffered_dispatcher.hpp 261, 280-282. *)
Record sending (X : Type) : Type := mk_sending {
  sn_b : buffered X;
  sn_ptr : nat;
  sn_x : X;
  sn_irqs : list nat;
  sn_sent : list Z
}.
Arguments mk_sending {X} sn_b sn_ptr sn_x sn_irqs sn_sent.
Arguments sn_b {X} s.
Arguments sn_ptr {X} s.
Arguments sn_x {X} s.
Arguments sn_irqs {X} s.
Arguments sn_sent {X} s.

Section Sending.
  Variable p : platform.
  (** In [obuf_begin()[m_obuf_bottom++] = byte] (267), whether the byte is
      stored before [m_obuf_bottom] is incremented: the standard leaves it
      open. *)
  Variable store_first : bool.
  Context {X : Type}.

  Definition with_b (b : buffered X) (w : sending X) : sending X :=
    mk_sending b (sn_ptr w) (sn_x w) (sn_irqs w) (sn_sent w).

  (** The handlers: buffered_dispatcher.hpp 97 and 179, not interrupted. *)
  Fixpoint send_bytes (n : nat) (w : sending X) : res (sending X) :=
    match n with
    | 0 => Ok w
    | S n' =>
        if is_loaded (sn_b w) then
          '(b, byte) <- get_byte (sn_b w);;
          send_bytes n' (mk_sending b (sn_ptr w) (sn_x w) (sn_irqs w) (sn_sent w ++ [byte]))
        else send_bytes n' w
    end.

  (** A moment between two accesses.
      (Between two accesses of buffered_dispatcher.hpp 130-158, 260-272.) *)
  Definition moment (w : sending X) : res (sending X) :=
    match sn_irqs w with
    | [] => Ok w
    | n :: irqs => send_bytes n (mk_sending (sn_b w) (sn_ptr w) (sn_x w) irqs (sn_sent w))
    end.

  (** [m_obuf_bottom = n], [m_obuf_next = n], a store in the output buffer
      (buffered_dispatcher.hpp 261, 262, 267.) *)
  Definition set_bottom (n : nat) (w : sending X) : sending X :=
    with_b (with_output (sn_b w) (b_obuf_next (sn_b w)) n (b_bufs (sn_b w))) w.
  (** The same for [m_obuf_next] (same lines). *)
  Definition set_next (n : nat) (w : sending X) : sending X :=
    with_b (with_output (sn_b w) n (b_obuf_bottom (sn_b w)) (b_bufs (sn_b w))) w.
  (** The same for the output buffer (buffered_dispatcher.hpp 267). *)
  Definition set_out (m : list Z) (w : sending X) : sending X :=
    with_b (with_output (sn_b w) (b_obuf_next (sn_b w)) (b_obuf_bottom (sn_b w)) (set_obuf m (b_bufs (sn_b w)))) w.

  (** [[&]() { return *ibuf_ptr++; }] (266) *)
  Definition sending_source : source (sending X) :=
    iterator_source (fun w => ibuf (b_bufs (sn_b w))) sn_ptr
      (fun n w => mk_sending (sn_b w) n (sn_x w) (sn_irqs w) (sn_sent w)).

  (** [[&](byte_t byte) { derived().obuf_begin()[m_obuf_bottom++] = byte; }] (267) *)
  Definition sending_destination : destination (sending X) :=
    fun byte w =>
      let i := b_obuf_bottom (sn_b w) in
      if store_first then
        m <- store (obuf (b_bufs (sn_b w))) i byte;;
        w1 <- moment (set_out m w);;
        moment (set_bottom (S i) w1)
      else
        w1 <- moment (set_bottom (S i) w);;
        m <- store (obuf (b_bufs (sn_b w1))) i byte;;
        moment (set_out m w1).

  (** A callback acts on its world only.
      (buffered_dispatcher.hpp 266.) *)
  Definition sending_func (f : func X) : func (sending X) :=
    mk_func (f_sig f) (fun args w =>
      let (x, r) := f_call f args (sn_x w) in
      (mk_sending (sn_b w) (sn_ptr w) x (sn_irqs w) (sn_sent w), r)).
  (** The same for the object held by an action (action.hpp 102-117). *)
  Definition sending_model (a : model X) : model (sending X) :=
    mk_model (m_e a) (m_m a) (sending_func (m_func a)).
  (** The same for an action (action.hpp 151-237). *)
  Definition sending_action (a : action X) : action (sending X) :=
    match a with
    | Storage o => Storage (option_map sending_model o)
    | NoStorage a => NoStorage (sending_model a)
    end.

  (** buffered_dispatcher.hpp 260-272 *)
  Definition call_s (w : sending X) : res (sending X) :=
    w1 <- moment (set_bottom 0 w);;
    w2 <- moment (set_next 0 w1);;
    let d := b_dispatcher (sn_b w2) in
    '(fr, index) <- get_index p (framed_dispatcher d) ibuf_source (mk_frame (b_bufs (sn_b w2)) 0 0 (sn_x w2));;
    a <- action_at d index;;
    w3 <- run p (sending_action a) sending_source sending_destination
            (mk_sending (sn_b w2) (fr_iptr fr) (sn_x w2) (sn_irqs w2) (sn_sent w2));;
    let b := sn_b w3 in
    Ok (with_b (mk_buffered (b_dispatcher b) false (index_length (b_dispatcher b)) 0
                  (b_obuf_next b) (b_obuf_bottom b) (b_bufs b)) w3).

  (** buffered_dispatcher.hpp 130-158.  [--m_load_count] is checked, as in
      Buffered.v. *)
  Definition put_s (byte : Z) (w0 : sending X) : res (sending X * packet_status) :=
    w1 <- moment w0;;
    let b0 := sn_b w1 in
    m <- store (ibuf (b_bufs b0)) (b_ibuf_next b0) byte;;
    w <- moment (with_b (mk_buffered (b_dispatcher b0) (b_is_index_loaded b0) (b_load_count b0) (S (b_ibuf_next b0))
                           (b_obuf_next b0) (b_obuf_bottom b0) (set_ibuf m (b_bufs b0))) w1);;
    let b := sn_b w in
    let d := b_dispatcher b in
    let bufs := b_bufs b in
    let next := b_ibuf_next b in
    match b_load_count b with
    | 0 => Fault CounterUnderflow
    | S count =>
        let b1 := mk_buffered d (b_is_index_loaded b) count next (b_obuf_next b) (b_obuf_bottom b) bufs in
        if 0 <? count then Ok (with_b b1 w, LOADING_PACKET)
        else if b_is_index_loaded b then
          w2 <- call_s (with_b b1 w);;
          Ok (w2, RESOLVED_PACKET)
        else
          '(_, index) <- get_index p (framed_dispatcher d) ibuf_source (mk_frame bufs 0 0 (sn_x w));;
          if index <? d_size d then
            a <- action_at d index;;
            n <- input_size a;;
            let b2 := mk_buffered d true n next (b_obuf_next b) (b_obuf_bottom b) bufs in
            if n =? 0 then
              w2 <- call_s (with_b b2 w);;
              Ok (w2, RESOLVED_PACKET)
            else Ok (with_b b2 w, LOADING_PACKET)
          else
            Ok (with_b (mk_buffered d false (index_length d) 0 (b_obuf_next b) (b_obuf_bottom b) bufs) w,
                DROPPED_PACKET)
    end.

  (** A program which puts the bytes it receives, each with the interrupts taken
      during that [put]; what [put] returned.
      buffered_dispatcher.hpp 130-158. *)
  Fixpoint puts_s (bytes : list (Z * list nat)) (w : sending X) : res (sending X * list packet_status) :=
    match bytes with
    | [] => Ok (w, [])
    | (byte, irqs) :: bytes' =>
        '(w1, s) <- put_s byte (mk_sending (sn_b w) (sn_ptr w) (sn_x w) irqs (sn_sent w));;
        '(w2, ss) <- puts_s bytes' w1;;
        Ok (w2, s :: ss)
    end.
End Sending.
