(** Model of buffered_dispatcher.hpp.  No proofs in this file.

    The world [X] is what byte getters, byte putters and callbacks act on.  The
    members of the dispatcher are not part of it: a callback which uses the
    dispatcher it is called by is the subject of ReEntrant.v. *)

From Coq Require Import List ZArith Bool Arith.
From Verif Require Import Base CInt IntModel TypeLevel Serial TupleModel Rpc.
Import ListNotations.
Open Scope nat_scope.

(** buffered_dispatcher.hpp 46 *)
Inductive packet_status : Type := LOADING_PACKET | DROPPED_PACKET | RESOLVED_PACKET.

(** The buffers: [m_buf] of [single_buffered_dispatcher] (320) or [m_ibuf] and
    [m_obuf] of [double_buffered_dispatcher] (380). *)
Inductive buffers : Type :=
| Single (buf : list Z)
| Double (ibuf obuf : list Z).

(** [ibuf_begin] (299, 357) and [obuf_begin] (300, 358): the memory they point
    to, before and after a store. *)
Definition ibuf (b : buffers) : list Z :=
  match b with Single m => m | Double i _ => i end.
(** [obuf_begin] (300, 358): the memory it points to. *)
Definition obuf (b : buffers) : list Z :=
  match b with Single m => m | Double _ o => o end.
(** [ibuf_begin()[...] = ...] (131): the buffers once the memory
    [ibuf_begin] (299, 357) points to is [m]. *)
Definition set_ibuf (m : list Z) (b : buffers) : buffers :=
  match b with Single _ => Single m | Double _ o => Double m o end.
(** [obuf_begin()[...] = ...] (267): the buffers once the memory
    [obuf_begin] (300, 358) points to is [m]. *)
Definition set_obuf (m : list Z) (b : buffers) : buffers :=
  match b with Single _ => Single m | Double i _ => Double i m end.

(** What [call] works on: the buffers, the local variable [ibuf_ptr], the
    member [m_obuf_bottom] and the world.
    buffered_dispatcher.hpp 261-267. *)
Record frame (X : Type) : Type := mk_frame {
  fr_bufs : buffers;
  fr_iptr : nat;
  fr_bottom : nat;
  fr_world : X
}.
Arguments mk_frame {X} fr_bufs fr_iptr fr_bottom fr_world.
Arguments fr_bufs {X} f.
Arguments fr_iptr {X} f.
Arguments fr_bottom {X} f.
Arguments fr_world {X} f.

(** [[&]() { return *ibuf_ptr++; }] (141, 265, 266) *)
Definition ibuf_source {X : Type} : source (frame X) :=
  iterator_source (fun w => ibuf (fr_bufs w)) fr_iptr
    (fun n w => mk_frame (fr_bufs w) n (fr_bottom w) (fr_world w)).

(** [[&](byte_t byte) { derived().obuf_begin()[m_obuf_bottom++] = byte; }] (267) *)
Definition obuf_destination {X : Type} : destination (frame X) :=
  iterator_destination (fun w => obuf (fr_bufs w))
    (fun m w => mk_frame (set_obuf m (fr_bufs w)) (fr_iptr w) (fr_bottom w) (fr_world w))
    fr_bottom (fun n w => mk_frame (fr_bufs w) (fr_iptr w) n (fr_world w)).

(** A callback seen from a frame: it acts on the world only.
    The call is that of tuple.hpp 184 through buffered_dispatcher.hpp 266. *)
Definition framed {X : Type} (f : func X) : func (frame X) :=
  mk_func (f_sig f) (fun args w =>
    let (x, r) := f_call f args (fr_world w) in
    (mk_frame (fr_bufs w) (fr_iptr w) (fr_bottom w) x, r)).
(** The same for the object held by an action (action.hpp 102-117). *)
Definition framed_model {X : Type} (a : model X) : model (frame X) :=
  mk_model (m_e a) (m_m a) (framed (m_func a)).
(** The same for an action (action.hpp 151-237). *)
Definition framed_action {X : Type} (a : action X) : action (frame X) :=
  match a with
  | Storage o => Storage (option_map framed_model o)
  | NoStorage a => NoStorage (framed_model a)
  end.
(** The same for all the actions of [m_dispatcher] (buffered_dispatcher.hpp
    280; dispatcher.hpp 199). *)
Definition framed_dispatcher {X : Type} (d : dispatcher X) : dispatcher (frame X) :=
  mk_dispatcher
    (mk_keyring (kr_e (d_keyring d)) (kr_m (d_keyring d))
       (map (fun nf => (fst nf, framed (snd nf))) (kr_funcs (d_keyring d))))
    (d_features d) (map framed_action (d_actions d)).

(** buffered_dispatcher.hpp 28-32, 35-36.  [None]: does not compile. *)
Definition needed_input_buffer_size {X : Type} (kr : keyring X) : option nat :=
  match max17 (map_parameters_size (kr_signatures kr)) with
  | Some n => Some (n + kr_index_size kr)
  | None => None
  end.
(** buffered_dispatcher.hpp 35-36: computed from the parameters, not from
    the return types. *)
Definition needed_output_buffer_size {X : Type} (kr : keyring X) : option nat :=
  max17 (map_parameters_size (kr_signatures kr)).

(** The members of [buffered_dispatcher] (280-282) and of the derived class. *)
Record buffered (X : Type) : Type := mk_buffered {
  b_dispatcher : dispatcher X;
  b_is_index_loaded : bool;
  b_load_count : nat;
  b_ibuf_next : nat;
  b_obuf_next : nat;
  b_obuf_bottom : nat;
  b_bufs : buffers
}.
Arguments mk_buffered {X} b_dispatcher b_is_index_loaded b_load_count b_ibuf_next b_obuf_next b_obuf_bottom b_bufs.
Arguments b_dispatcher {X} b.
Arguments b_is_index_loaded {X} b.
Arguments b_load_count {X} b.
Arguments b_ibuf_next {X} b.
Arguments b_obuf_next {X} b.
Arguments b_obuf_bottom {X} b.
Arguments b_bufs {X} b.

(** [sizeof(index_t)]
    buffered_dispatcher.hpp 93, 153, 270. *)
Definition index_length {X : Type} (d : dispatcher X) : nat := kr_index_size (d_keyring d).

(** buffered_dispatcher.hpp 92-93 *)
Definition init_buffered {X : Type} (d : dispatcher X) (bufs : buffers) : buffered X :=
  mk_buffered d false (index_length d) 0 0 0 bufs.

(** buffered_dispatcher.hpp 306-307, 313-317, 320, 335-340.  [garbage] is the
    content of the memory the object is constructed in: the buffer is not
    initialised.  A buffer of size 0 is a (GNU) array of size 0. *)
Definition make_single {X : Type} (kr : keyring X) (ft : action_features) (garbage : list Z)
    : option (buffered X) :=
  match needed_input_buffer_size kr, needed_output_buffer_size kr with
  | Some i, Some o =>
      match max17 [i; o] with
      | Some n => Some (init_buffered (make_dispatcher kr ft) (Single (firstn n (garbage ++ repeat 0%Z n))))
      | None => None
      end
  | _, _ => None
  end.

(** buffered_dispatcher.hpp 364-377, 380, 395-400 *)
Definition make_double {X : Type} (kr : keyring X) (ft : action_features) (garbage garbage' : list Z)
    : option (buffered X) :=
  match needed_input_buffer_size kr, needed_output_buffer_size kr with
  | Some i, Some o =>
      Some (init_buffered (make_dispatcher kr ft)
              (Double (firstn i (garbage ++ repeat 0%Z i)) (firstn o (garbage' ++ repeat 0%Z o))))
  | _, _ => None
  end.

Section Buffered.
  Variable p : platform.
  Context {X : Type}.

  (** buffered_dispatcher.hpp 97 *)
  Definition is_loaded (b : buffered X) : bool := negb (b_obuf_next b =? b_obuf_bottom b).

  (** buffered_dispatcher.hpp 260-272.  [call] starts with [m_obuf_bottom = 0;
      m_obuf_next = 0;] and ends by resetting the input. *)
  Definition call_loaded (b : buffered X) (x : X) : res (buffered X * X) :=
    let d := b_dispatcher b in
    '(w1, index) <- get_index p (framed_dispatcher d) ibuf_source (mk_frame (b_bufs b) 0 0 x);;
    a <- action_at (framed_dispatcher d) index;;
    w2 <- run p a ibuf_source obuf_destination w1;;
    Ok (mk_buffered d false (index_length d) 0 0 (fr_bottom w2) (fr_bufs w2), fr_world w2).

  (** buffered_dispatcher.hpp 130-158.  [--m_load_count] is checked. *)
  Definition put (byte : Z) (b : buffered X) (x : X) : res (buffered X * X * packet_status) :=
    let d := b_dispatcher b in
    m <- store (ibuf (b_bufs b)) (b_ibuf_next b) byte;;
    let bufs := set_ibuf m (b_bufs b) in
    let next := S (b_ibuf_next b) in
    match b_load_count b with
    | 0 => Fault CounterUnderflow
    | S count =>
        let b1 := mk_buffered d (b_is_index_loaded b) count next (b_obuf_next b) (b_obuf_bottom b) bufs in
        if 0 <? count then Ok (b1, x, LOADING_PACKET)
        else if b_is_index_loaded b then
          '(b2, x') <- call_loaded b1 x;;
          Ok (b2, x', RESOLVED_PACKET)
        else
          '(w, index) <- get_index p (framed_dispatcher d) ibuf_source (mk_frame bufs 0 0 x);;
          if index <? d_size d then
            a <- action_at d index;;
            n <- input_size a;;
            let b2 := mk_buffered d true n next (b_obuf_next b) (b_obuf_bottom b) bufs in
            if n =? 0 then
              '(b3, x') <- call_loaded b2 x;;
              Ok (b3, x', RESOLVED_PACKET)
            else Ok (b2, x, LOADING_PACKET)
          else
            Ok (mk_buffered d false (index_length d) 0 (b_obuf_next b) (b_obuf_bottom b) bufs,
                x, DROPPED_PACKET)
    end.

  (** The comparison [status == packet_status::LOADING_PACKET] of
      buffered_dispatcher.hpp 112. *)
  Definition is_loading (s : packet_status) : bool :=
    match s with LOADING_PACKET => true | _ => false end.

  (** The loop of 112-113 *)
  Fixpoint read_index (fuel : nat) (src : source X) (b : buffered X) (x : X) (s : packet_status)
      : res (buffered X * X * packet_status) :=
    if negb (b_is_index_loaded b) && is_loading s then
      match fuel with
      | 0 => Fault OutOfFuel
      | S fuel' =>
          '(x1, byte) <- src x;;
          '(b', x2, s') <- put byte b x1;;
          read_index fuel' src b' x2 s'
      end
    else Ok (b, x, s).

  (** The loop of 114-115 *)
  Fixpoint read_payload (fuel : nat) (src : source X) (b : buffered X) (x : X) (s : packet_status)
      : res (buffered X * X * packet_status) :=
    if b_is_index_loaded b then
      match fuel with
      | 0 => Fault OutOfFuel
      | S fuel' =>
          '(x1, byte) <- src x;;
          '(b', x2, s') <- put byte b x1;;
          read_payload fuel' src b' x2 s'
      end
    else Ok (b, x, s).

  (** buffered_dispatcher.hpp 109-117.  Both loops end within [S m_load_count]
      iterations, see [read_index_fuel] and [read_payload_fuel]. *)
  Definition read_from (src : source X) (b : buffered X) (x : X) : res (buffered X * X * packet_status) :=
    '(b1, x1, s1) <- read_index (S (b_load_count b)) src b x LOADING_PACKET;;
    read_payload (S (b_load_count b1)) src b1 x1 s1.

  (** buffered_dispatcher.hpp 179 *)
  Definition get_byte (b : buffered X) : res (buffered X * Z) :=
    if is_loaded b then
      byte <- load (obuf (b_bufs b)) (b_obuf_next b);;
      Ok (mk_buffered (b_dispatcher b) (b_is_index_loaded b) (b_load_count b) (b_ibuf_next b)
            (S (b_obuf_next b)) (b_obuf_bottom b) (b_bufs b), byte)
    else Ok (b, 0%Z).

  (** The loop of 167-168.  [Y] is the world of the byte putter. *)
  Fixpoint write_loop {Y : Type} (fuel : nat) (dest : destination Y) (b : buffered X) (y : Y)
      : res (buffered X * Y) :=
    if is_loaded b then
      match fuel with
      | 0 => Fault OutOfFuel
      | S fuel' =>
          '(b', byte) <- get_byte b;;
          y' <- dest byte y;;
          write_loop fuel' dest b' y'
      end
    else Ok (b, y).

  (** buffered_dispatcher.hpp 165-169.  The loop ends or leaves the buffer
      within the size of the buffer, see [write_loop_fuel]. *)
  Definition write_to {Y : Type} (dest : destination Y) (b : buffered X) (y : Y) : res (buffered X * Y) :=
    write_loop (S (length (obuf (b_bufs b)))) dest b y.

  (** buffered_dispatcher.hpp 197-203 *)
  Definition process (src : source X) (dest : destination X) (b : buffered X) (x : X)
      : res (buffered X * X * packet_status) :=
    '(b1, x1, s) <- read_from src b x;;
    match s with
    | RESOLVED_PACKET =>
        '(b2, x2) <- write_to dest b1 x1;;
        Ok (b2, x2, s)
    | _ => Ok (b1, x1, s)
    end.

  (** buffered_dispatcher.hpp 182-185, 208-210, 215-217 *)
  Definition replace_buffered (b : buffered X) (i : nat) (r : replacement X) : option (res (buffered X)) :=
    match replace (b_dispatcher b) i r with
    | Some (Ok d) =>
        Some (Ok (mk_buffered d (b_is_index_loaded b) (b_load_count b) (b_ibuf_next b)
                    (b_obuf_next b) (b_obuf_bottom b) (b_bufs b)))
    | Some (Fault f) => Some (Fault f)
    | None => None
    end.

  (** buffered_dispatcher.hpp 252-255: assignment through the reference *)
  Definition assign_buffered (b : buffered X) (i : nat) (a : action X) : res (buffered X) :=
    d <- assign_action (b_dispatcher b) i a;;
    Ok (mk_buffered d (b_is_index_loaded b) (b_load_count b) (b_ibuf_next b)
          (b_obuf_next b) (b_obuf_bottom b) (b_bufs b)).

  (** The byte putter made of an iterator on the local array of [reply]
      (immediate_writer.hpp 32-40): the array and the position. *)
  Definition array_destination : destination (list Z * nat) :=
    iterator_destination fst (fun m w => (m, snd w)) snd (fun n w => (fst w, n)).

  (** buffered_dispatcher.hpp 234-247, for a key whose only parameter is a byte
      array.  [None]: does not compile.  [garbage] is the content of the memory
      of the local variable [buf]. *)
  Definition reply (dest : destination X) (k : key) (garbage : list Z) (b : buffered X) (x : X)
      : option (res (buffered X * X * bool)) :=
    match sig_params (k_sig k) with
    | [TArr (TUns 1) n] =>
        Some (
          let buf_size := payload_length k - k_index_size k in
          if negb ((b_obuf_next b =? 0) && (b_obuf_bottom b <=? buf_size)) then Ok (b, x, false)
          else
            '(b1, w) <- write_to array_destination b (firstn n (garbage ++ repeat 0%Z n), 0);;
            x' <- key_write p k [VList (map VInt (fst w))] dest x;;
            Ok (b1, x', true))
    | _ => None
    end.
End Buffered.

(** ** Implicit move operations (no constructor or assignment is declared):
    member by member.  The moved-from [action]s are empty, the moved-from
    [no_storage_action]s and the other members are left as they are.
    action.hpp 199 ([std::unique_ptr]), 234-235 (a pointer and two sizes). *)
Definition moved_from_action {X : Type} (a : action X) : action X :=
  match a with
  | Storage _ => Storage None
  | NoStorage a => NoStorage a
  end.

(** dispatcher.hpp 65, 199: the elements of the array are moved one by one.
    The new object and the moved-from one. *)
Definition move_dispatcher {X : Type} (d : dispatcher X) : dispatcher X * dispatcher X :=
  (mk_dispatcher (d_keyring d) (d_features d) (d_actions d),
   mk_dispatcher (d_keyring d) (d_features d) (map moved_from_action (d_actions d))).

(** The new object and the moved-from one.
    buffered_dispatcher.hpp 280-282, 320, 380. *)
Definition move_buffered {X : Type} (b : buffered X) : buffered X * buffered X :=
  let (d, d') := move_dispatcher (b_dispatcher b) in
  (mk_buffered d (b_is_index_loaded b) (b_load_count b) (b_ibuf_next b) (b_obuf_next b) (b_obuf_bottom b) (b_bufs b),
   mk_buffered d' (b_is_index_loaded b) (b_load_count b) (b_ibuf_next b) (b_obuf_next b) (b_obuf_bottom b) (b_bufs b)).
