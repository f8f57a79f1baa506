(** Model of callbacks which use the buffered dispatcher they are called by.
    No proofs in this file.

    In Buffered.v a callback acts on the world only.  Here it is a script,
    which may also call [put], [get], [is_loaded], [replace], [read_from],
    [write_to] and [operator()] on the dispatcher; the getters and putters it
    gives to the last three act on the world only.  The lifetime of what a functor holds is not modelled here (see
    Lifetimes.v): a functor
    which replaces itself is destroyed, and must not use its own members
    afterwards. *)

From Coq Require Import List ZArith Bool Arith.
From Verif Require Import Base CInt IntModel TypeLevel Serial TupleModel Rpc Buffered.
Import ListNotations.
Open Scope nat_scope.

(** The body of a callback, step by step.
    The member functions are those of buffered_dispatcher.hpp 97, 109-117, 130,
    165-169, 179, 182-217. *)
Inductive script (X : Type) : Type :=
| SReturn (v : val)
| SWorld (f : X -> X * script X)
| SPut (byte : Z) (k : packet_status -> script X)
| SGet (k : Z -> script X)
| SIsLoaded (k : bool -> script X)
| SReplace (i : nat) (r : replacement X) (k : script X)
| SReadFrom (src : source X) (k : packet_status -> script X)
| SWriteTo (dest : destination X) (k : script X)
| SProcess (src : source X) (dest : destination X) (k : packet_status -> script X).
Arguments SReturn {X} v.
Arguments SWorld {X} f.
Arguments SPut {X} byte k.
Arguments SGet {X} k.
Arguments SIsLoaded {X} k.
Arguments SReplace {X} i r k.
Arguments SReadFrom {X} src k.
Arguments SWriteTo {X} dest k.
Arguments SProcess {X} src dest k.

(** What the callback [f], called through the action of index [i], does.
    It is called at buffered_dispatcher.hpp 266 (through tuple.hpp 184). *)
Definition behaviour (X : Type) : Type := nat -> func X -> list val -> script X.

(** What [call] (buffered_dispatcher.hpp 260-272) works on: the dispatcher, the
    local variable [ibuf_ptr] and the world. *)
Record nested (X : Type) : Type := mk_nested {
  ne_b : buffered X;
  ne_ptr : nat;
  ne_x : X
}.
Arguments mk_nested {X} ne_b ne_ptr ne_x.
Arguments ne_b {X} n.
Arguments ne_ptr {X} n.
Arguments ne_x {X} n.

(** The members [m_obuf_next], [m_obuf_bottom] and the buffers changed.
    buffered_dispatcher.hpp 179, 261-262, 267. *)
Definition with_output {X : Type} (b : buffered X) (next bottom : nat) (bufs : buffers) : buffered X :=
  mk_buffered (b_dispatcher b) (b_is_index_loaded b) (b_load_count b) (b_ibuf_next b) next bottom bufs.

(** [[&]() { return *ibuf_ptr++; }] (266) *)
Definition nested_source {X : Type} : source (nested X) :=
  iterator_source (fun w => ibuf (b_bufs (ne_b w))) ne_ptr
    (fun n w => mk_nested (ne_b w) n (ne_x w)).

(** [[&](byte_t byte) { derived().obuf_begin()[m_obuf_bottom++] = byte; }] (267) *)
Definition nested_destination {X : Type} : destination (nested X) :=
  fun byte w =>
    let b := ne_b w in
    m <- store (obuf (b_bufs b)) (b_obuf_bottom b) byte;;
    Ok (mk_nested (with_output b (b_obuf_next b) (S (b_obuf_bottom b)) (set_obuf m (b_bufs b))) (ne_ptr w) (ne_x w)).

Section ReEntrant.
  Variable p : platform.
  (** The greatest [std::size_t]: [--m_load_count] wraps. *)
  Variable size_max : nat.
  Context {X : Type}.
  Variable does : behaviour X.

  (** [call] as a member function which returns nothing
      buffered_dispatcher.hpp 260. *)
  Definition calling : Type := buffered X -> X -> res (buffered X * X).

  (** buffered_dispatcher.hpp 130-158 *)
  Definition put_with (call : calling) (byte : Z) (b : buffered X) (x : X) : res (buffered X * X * packet_status) :=
    let d := b_dispatcher b in
    m <- store (ibuf (b_bufs b)) (b_ibuf_next b) byte;;
    let bufs := set_ibuf m (b_bufs b) in
    let next := S (b_ibuf_next b) in
    let count := match b_load_count b with 0 => size_max | S c => c end in
    let b1 := mk_buffered d (b_is_index_loaded b) count next (b_obuf_next b) (b_obuf_bottom b) bufs in
    if 0 <? count then Ok (b1, x, LOADING_PACKET)
    else if b_is_index_loaded b then
      '(b2, x') <- call b1 x;;
      Ok (b2, x', RESOLVED_PACKET)
    else
      '(w, index) <- get_index p (framed_dispatcher d) ibuf_source (mk_frame bufs 0 0 x);;
      if index <? d_size d then
        a <- action_at d index;;
        n <- input_size a;;
        let b2 := mk_buffered d true n next (b_obuf_next b) (b_obuf_bottom b) bufs in
        if n =? 0 then
          '(b3, x') <- call b2 x;;
          Ok (b3, x', RESOLVED_PACKET)
        else Ok (b2, x, LOADING_PACKET)
      else
        Ok (mk_buffered d false (index_length d) 0 (b_obuf_next b) (b_obuf_bottom b) bufs,
            x, DROPPED_PACKET).

  (** The loop of 112-113 *)
  Fixpoint read_index_with (call : calling) (fuel : nat) (src : source X) (b : buffered X) (x : X) (s : packet_status)
      : res (buffered X * X * packet_status) :=
    if negb (b_is_index_loaded b) && is_loading s then
      match fuel with
      | 0 => Fault OutOfFuel
      | S fuel' =>
          '(x1, byte) <- src x;;
          '(b', x2, s') <- put_with call byte b x1;;
          read_index_with call fuel' src b' x2 s'
      end
    else Ok (b, x, s).

  (** The loop of 114-115 *)
  Fixpoint read_payload_with (call : calling) (fuel : nat) (src : source X) (b : buffered X) (x : X) (s : packet_status)
      : res (buffered X * X * packet_status) :=
    if b_is_index_loaded b then
      match fuel with
      | 0 => Fault OutOfFuel
      | S fuel' =>
          '(x1, byte) <- src x;;
          '(b', x2, s') <- put_with call byte b x1;;
          read_payload_with call fuel' src b' x2 s'
      end
    else Ok (b, x, s).

  (** buffered_dispatcher.hpp 109-117.  Each turn of a loop writes to the input
      buffer: those which are given are enough, see C60_refines. *)
  Definition read_from_with (call : calling) (src : source X) (b : buffered X) (x : X)
      : res (buffered X * X * packet_status) :=
    let fuel := S (length (ibuf (b_bufs b))) in
    '(b1, x1, s1) <- read_index_with call fuel src b x LOADING_PACKET;;
    read_payload_with call fuel src b1 x1 s1.

  (** buffered_dispatcher.hpp 197-203 *)
  Definition process_with (call : calling) (src : source X) (dest : destination X) (b : buffered X) (x : X)
      : res (buffered X * X * packet_status) :=
    '(b1, x1, s) <- read_from_with call src b x;;
    match s with
    | RESOLVED_PACKET =>
        '(b2, x2) <- write_to dest b1 x1;;
        Ok (b2, x2, s)
    | _ => Ok (b1, x1, s)
    end.

  (** A script run by a callback.  A replacement which does not compile is
      [TypeMismatch].
      buffered_dispatcher.hpp 97, 109-117, 130, 165-169, 179, 182-217. *)
  Fixpoint play (call : calling) (s : script X) (b : buffered X) (x : X) : res (buffered X * X * val) :=
    match s with
    | SReturn v => Ok (b, x, v)
    | SWorld f => let (x', s') := f x in play call s' b x'
    | SPut byte k =>
        '(b', x', st) <- put_with call byte b x;;
        play call (k st) b' x'
    | SGet k =>
        '(b', byte) <- get_byte b;;
        play call (k byte) b' x
    | SIsLoaded k => play call (k (is_loaded b)) b x
    | SReplace i r k =>
        match replace_buffered b i r with
        | Some (Ok b') => play call k b' x
        | Some (Fault f) => Fault f
        | None => Fault TypeMismatch
        end
    | SReadFrom src k =>
        '(b', x', st) <- read_from_with call src b x;;
        play call (k st) b' x'
    | SWriteTo dest k =>
        '(b', x') <- write_to dest b x;;
        play call k b' x'
    | SProcess src dest k =>
        '(b', x', st) <- process_with call src dest b x;;
        play call (k st) b' x'
    end.

  (** The callback [f] of the action of index [i].  When the script has a fault
      it is reported by [nested_fault] beforehand.
      tuple.hpp 184, called by buffered_dispatcher.hpp 266. *)
  Definition nested_func (call : calling) (i : nat) (f : func X) : func (nested X) :=
    mk_func (f_sig f) (fun args w =>
      match play call (does i f args) (ne_b w) (ne_x w) with
      | Ok (b', x', v) => (mk_nested b' (ne_ptr w) x', v)
      | Fault _ => (w, VInt 0)
      end).
  (** The same for the object held by an action (action.hpp 102-117). *)
  Definition nested_model (call : calling) (i : nat) (a : model X) : model (nested X) :=
    mk_model (m_e a) (m_m a) (nested_func call i (m_func a)).
  (** The same for an action (action.hpp 151-237). *)
  Definition nested_action (call : calling) (i : nat) (a : action X) : action (nested X) :=
    match a with
    | Storage o => Storage (option_map (nested_model call i) o)
    | NoStorage a => NoStorage (nested_model call i a)
    end.

  (** action.hpp 53-69 and 122-141, as far as the callback: its fault.  Reading
      the arguments has no effect but on [ibuf_ptr]. *)
  Definition nested_fault (call : calling) (i : nat) (a : action X) (w : nested X) : res (option fault) :=
    match (match a with Storage o => o | NoStorage c => Some c end) with
    | None => Ok None
    | Some c =>
        let ts := sig_params (f_sig (m_func c)) in
        '(w1, st) <- read_tuple p (m_e c) (m_m c) ts nested_source w;;
        '(_, r) <- invoke p (tuple_at (m_e c) (m_m c) ts 0)
                     (fun args w => (w, match play call (does i (m_func c) args) (ne_b w) (ne_x w) with
                                        | Ok _ => None
                                        | Fault f => Some f
                                        end)) st w1;;
        Ok r
    end.

  (** buffered_dispatcher.hpp 260-272.  [depth] bounds the number of [call]s
      running at the same time: one is enough, see C60_depth. *)
  Fixpoint call_r (depth : nat) (b : buffered X) (x : X) : res (buffered X * X) :=
    match depth with
    | 0 => Fault OutOfFuel
    | S depth' =>
        let d := b_dispatcher b in
        '(w1, index) <- get_index p (framed_dispatcher d) ibuf_source (mk_frame (b_bufs b) 0 0 x);;
        a <- action_at d index;;
        let w := mk_nested (with_output b 0 0 (b_bufs b)) (fr_iptr w1) x in
        e <- nested_fault (call_r depth') index a w;;
        match e with
        | Some f => Fault f
        | None =>
            w2 <- run p (nested_action (call_r depth') index a) nested_source nested_destination w;;
            let b2 := ne_b w2 in
            Ok (mk_buffered (b_dispatcher b2) false (index_length (b_dispatcher b2)) 0
                  (b_obuf_next b2) (b_obuf_bottom b2) (b_bufs b2), ne_x w2)
        end
    end.

  (** buffered_dispatcher.hpp 130-158 with callbacks which use the
      dispatcher. *)
  Definition put_r (depth : nat) (byte : Z) (b : buffered X) (x : X) : res (buffered X * X * packet_status) :=
    put_with (call_r depth) byte b x.

  (** Use of the dispatcher from outside: [Some byte] is [put(byte)], [None] is
      [get()]; what they return.
      buffered_dispatcher.hpp 130-158, 179. *)
  Fixpoint run_r (depth : nat) (ops : list (option Z)) (b : buffered X) (x : X)
      : res (buffered X * X * list (packet_status + Z)) :=
    match ops with
    | [] => Ok (b, x, [])
    | Some byte :: ops' =>
        '(b1, x1, s) <- put_r depth byte b x;;
        '(b2, x2, vs) <- run_r depth ops' b1 x1;;
        Ok (b2, x2, inl s :: vs)
    | None :: ops' =>
        '(b1, byte) <- get_byte b;;
        '(b2, x2, vs) <- run_r depth ops' b1 x;;
        Ok (b2, x2, inr byte :: vs)
    end.
End ReEntrant.
