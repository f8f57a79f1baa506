(** Model of the member functions of a buffered dispatcher when two threads use it.
    No proofs in this file.

    [put], [call], [get], [is_loaded] and [replace] (buffered_dispatcher.hpp 97,
    130-158, 179, 182-217, 260-272) are programs made of accesses to places: the
    members, the bytes of the buffers, the actions.  The threads perform their
    accesses one at a time, in any order which respects the order of each
    thread.  [read_from] and [write_to] (109-117, 165-169) are sequences of [put]
    and [get] and are not modelled here.

    An action reads all its arguments, calls, then writes the bytes of the result
    (C29): [run_p] does so.  Decoding and encoding only access local variables.  An
    action is one place although it is a pointer with the object behind it, and so
    is what the callbacks act on. *)

From Coq Require Import List ZArith Bool Arith.
From Verif Require Import Base CInt IntModel TypeLevel Serial TupleModel Rpc Buffered.
Import ListNotations.
Open Scope nat_scope.

(** The places.  [PByte 0] are the bytes [ibuf_begin()] points to, [PByte 1] those
    [obuf_begin()] points to when there are two buffers.
    (buffered_dispatcher.hpp 280-282, 299-300, 320, 357-358, 380; dispatcher.hpp
    65, 199; what callbacks act on.) *)
Inductive place : Type :=
| PIsIndexLoaded
| PLoadCount
| PIbufNext
| PObufNext
| PObufBottom
| PByte (array i : nat)
| PAction (i : nat)
| PWorld.

(** What the standard leaves open: in [buf[n++] = byte] (131, 267) whether the byte
    is stored before [n] is, which side of [!=] is read first (97), and whether the
    byte is read before [m_obuf_next] is incremented (179). *)
Record order : Type := mk_order {
  byte_stored_first : bool;
  next_read_first : bool;
  byte_read_first : bool
}.

Section Threads.
  Context {X : Type}.

  (** The type of what is at a place.  (buffered_dispatcher.hpp 281-282,
      320, 380; dispatcher.hpp 65.) *)
  Definition cell (l : place) : Type :=
    match l with
    | PIsIndexLoaded => bool
    | PLoadCount | PIbufNext | PObufNext | PObufBottom => nat
    | PByte _ _ => Z
    | PAction _ => action X
    | PWorld => X
    end.

  (** The object and the world the threads share. *)
  Definition shared : Type := (buffered X * X)%type.

  (** The content of a place.  [None]: outside of the arrays, undefined
      behaviour.  (buffered_dispatcher.hpp 280-282, 320, 380; dispatcher.hpp 193-196.) *)
  Definition look (l : place) (s : shared) : option (cell l) :=
    let (b, x) := s in
    match l return option (cell l) with
    | PIsIndexLoaded => Some (b_is_index_loaded b)
    | PLoadCount => Some (b_load_count b)
    | PIbufNext => Some (b_ibuf_next b)
    | PObufNext => Some (b_obuf_next b)
    | PObufBottom => Some (b_obuf_bottom b)
    | PByte a i =>
        match a, b_bufs b with
        | 0, Single m | 0, Double m _ | 1, Double _ m => nth_error m i
        | _, _ => None
        end
    | PAction i => nth_error (d_actions (b_dispatcher b)) i
    | PWorld => Some x
    end.

  (** A store in an array of bytes: [None] outside of it.  (buffered_dispatcher.hpp
      131, 267.) *)
  Definition stored (m : list Z) (i : nat) (v : Z) : option (list Z) :=
    if i <? length m then Some (set_nth m i v) else None.

  (** The same members, another one being changed.  (buffered_dispatcher.hpp
      280-282.) *)
  Definition change (l : place) (v : cell l) (s : shared) : option shared :=
    let (b, x) := s in
    let 'mk_buffered d il lc inx onx ob bufs := b in
    match l return cell l -> option shared with
    | PIsIndexLoaded => fun v => Some (mk_buffered d v lc inx onx ob bufs, x)
    | PLoadCount => fun v => Some (mk_buffered d il v inx onx ob bufs, x)
    | PIbufNext => fun v => Some (mk_buffered d il lc v onx ob bufs, x)
    | PObufNext => fun v => Some (mk_buffered d il lc inx v ob bufs, x)
    | PObufBottom => fun v => Some (mk_buffered d il lc inx onx v bufs, x)
    | PByte a i => fun v =>
        match a, bufs with
        | 0, Single m =>
            option_map (fun m' => (mk_buffered d il lc inx onx ob (Single m'), x)) (stored m i v)
        | 0, Double m o =>
            option_map (fun m' => (mk_buffered d il lc inx onx ob (Double m' o), x)) (stored m i v)
        | 1, Double m o =>
            option_map (fun o' => (mk_buffered d il lc inx onx ob (Double m o'), x)) (stored o i v)
        | _, _ => None
        end
    | PAction i => fun v =>
        if i <? length (d_actions d) then
          Some (mk_buffered (mk_dispatcher (d_keyring d) (d_features d) (set_nth (d_actions d) i v))
                  il lc inx onx ob bufs, x)
        else None
    | PWorld => fun v => Some (mk_buffered d il lc inx onx ob bufs, v)
    end v.

  (** Programs: loads, stores, calls of callbacks ([tuple.hpp] 184), and the end,
      normal or not. *)
  Inductive prog (A : Type) : Type :=
  | Done (a : A)
  | Stop (f : fault)
  | Load (l : place) (k : cell l -> prog A)
  | Store (l : place) (v : cell l) (k : prog A)
  | Call (f : func X) (args : list val) (k : val -> prog A).
  Arguments Done {A} a.
  Arguments Stop {A} f.
  Arguments Load {A} l k.
  Arguments Store {A} l v k.
  Arguments Call {A} f args k.

  (** Sequence of two programs ([;] of C++). *)
  Fixpoint seq {A B : Type} (q : prog A) (k : A -> prog B) : prog B :=
    match q with
    | Done a => k a
    | Stop f => Stop f
    | Load l c => Load l (fun v => seq (c v) k)
    | Store l v c => Store l v (seq c k)
    | Call f args c => Call f args (fun r => seq (c r) k)
    end.

  (** A computation on local variables ([res] of Base.v). *)
  Definition local {A : Type} (r : res A) : prog A :=
    match r with Ok a => Done a | Fault f => Stop f end.

  (** ** Executions *)

  (** A place and whether it is written. *)
  Definition access : Type := (place * bool)%type.

  (** The access a program is about to perform. *)
  Definition next {A : Type} (q : prog A) : option access :=
    match q with
    | Done _ | Stop _ => None
    | Load l _ => Some (l, false)
    | Store l _ _ => Some (l, true)
    | Call _ _ _ => Some (PWorld, true)
    end.

  (** It performs it.  [None]: the program has ended. *)
  Definition advance {A : Type} (q : prog A) (s : shared) : option (prog A * shared) :=
    match q with
    | Done _ | Stop _ => None
    | Load l k =>
        match look l s with
        | Some v => Some (k v, s)
        | None => Some (Stop OutOfBounds, s)
        end
    | Store l v k =>
        match change l v s with
        | Some s' => Some (k, s')
        | None => Some (Stop OutOfBounds, s)
        end
    | Call f args k =>
        let (x, r) := f_call f args (snd s) in
        Some (k r, (fst s, x))
    end.

  (** A program alone, from the beginning to the end: its accesses, its result and
      what it leaves. *)
  Fixpoint alone {A : Type} (q : prog A) (s : shared) : list access * res A * shared :=
    match q with
    | Done a => ([], Ok a, s)
    | Stop f => ([], Fault f, s)
    | Load l k =>
        match look l s with
        | Some v => let '(t, r, s') := alone (k v) s in ((l, false) :: t, r, s')
        | None => ([(l, false)], Fault OutOfBounds, s)
        end
    | Store l v k =>
        match change l v s with
        | Some s1 => let '(t, r, s') := alone k s1 in ((l, true) :: t, r, s')
        | None => ([(l, true)], Fault OutOfBounds, s)
        end
    | Call f args k =>
        let (x, v) := f_call f args (snd s) in
        let '(t, r, s') := alone (k v) (fst s, x) in ((PWorld, true) :: t, r, s')
    end.

  (** Two threads: the state of each, what they share. *)
  Definition two (A B : Type) : Type := (prog A * prog B * shared)%type.

  (** One of the threads performs its next access. *)
  Inductive moves {A B : Type} : two A B -> two A B -> Prop :=
  | Moves_left : forall q q' r s s', advance q s = Some (q', s') -> moves (q, r, s) (q', r, s')
  | Moves_right : forall q r r' s s', advance r s = Some (r', s') -> moves (q, r, s) (q, r', s').

  (** Any number of accesses, in any order. *)
  Inductive evolves {A B : Type} (c : two A B) : two A B -> Prop :=
  | Evolves_none : evolves c c
  | Evolves_more : forall d d', evolves c d -> moves d d' -> evolves c d'.

  (** ** The member functions *)

  Variable p : platform.
  Variable ord : order.
  (** The keyring and whether there are two buffers are known from the type of the
      dispatcher (buffered_dispatcher.hpp 80-83, 291-292, 347-348). *)
  Variable kr : keyring X.
  Variable ft : action_features.
  Variable dbl : bool.

  (** [obuf_begin()] (300, 358). *)
  Definition out_array : nat := if dbl then 1 else 0.

  (** [derived().ibuf_begin()[m_ibuf_next++] = byte] (131). *)
  Definition store_in (byte : Z) : prog unit :=
    Load PIbufNext (fun n =>
      if byte_stored_first ord then Store (PByte 0 n) byte (Store PIbufNext (S n) (Done tt))
      else Store PIbufNext (S n) (Store (PByte 0 n) byte (Done tt))).

  (** [derived().obuf_begin()[m_obuf_bottom++] = byte] (267). *)
  Definition store_out (byte : Z) : prog unit :=
    Load PObufBottom (fun n =>
      if byte_stored_first ord then Store (PByte out_array n) byte (Store PObufBottom (S n) (Done tt))
      else Store PObufBottom (S n) (Store (PByte out_array n) byte (Done tt))).

  (** [*ibuf_ptr++] called [n] times (141, 265, 266). *)
  Fixpoint fetch_p (n i : nat) : prog (list Z) :=
    match n with
    | 0 => Done []
    | S n' => Load (PByte 0 i) (fun b => seq (fetch_p n' (S i)) (fun bs => Done (b :: bs)))
    end.

  (** The bytes a tuple is filled with, already fetched (action.hpp 55-57, 64-66;
      dispatcher.hpp 143-146). *)
  Definition fetched : source (list Z) :=
    fun bs => match bs with [] => Fault NoInput | b :: bs' => Ok (bs', b) end.

  (** dispatcher.hpp 141-149 *)
  Definition decode_index (bs : list Z) : res nat :=
    let t := TUns (kr_index_size kr) in
    '(_, st) <- read_tuple p (kr_e kr) (kr_m kr) [t] fetched bs;;
    v <- TupleModel.get p (tuple_at (kr_e kr) (kr_m kr) [t] 0) 0 st;;
    match v with
    | VInt z => Ok (Z.to_nat z)
    | VList _ => Fault TypeMismatch
    end.

  (** buffered_dispatcher.hpp 140-141, 264-265, 276-278 *)
  Definition index_p : prog nat :=
    seq (fetch_p (kr_index_size kr) 0) (fun bs => local (decode_index bs)).

  (** [input_args] filled and its elements (action.hpp 54-58, 63-68). *)
  Definition decode_args (e : endianess) (m : signed_mode) (ts : list ty) (bs : list Z) : res (list val) :=
    '(_, st) <- read_tuple p e m ts fetched bs;;
    '(_, args) <- invoke p (tuple_at e m ts 0) (fun args u => (u, args)) st tt;;
    Ok args.

  (** The bytes of the result (action.hpp 38, 137-138). *)
  Definition encode_result (e : endianess) (m : signed_mode) (t : ty) (r : val) : res (list Z) :=
    st <- construct p e m [t] [r] (indet_bytes p (tuple_size [t]));;
    content (tuple_at e m [t] 0) st.

  (** The byte putter called on each byte (267). *)
  Fixpoint emit_p (bs : list Z) : prog unit :=
    match bs with
    | [] => Done tt
    | b :: bs' => seq (store_out b) (fun _ => emit_p bs')
    end.

  (** action.hpp 53-69, 122-141, 174-179, 221-223; an empty action does
      nothing.  The arguments start after the index. *)
  Definition run_p (a : action X) : prog unit :=
    match a with
    | Storage None => Done tt
    | Storage (Some c) | NoStorage c =>
        let f := m_func c in
        let ts := sig_params (f_sig f) in
        seq (fetch_p (tuple_size ts) (kr_index_size kr)) (fun bs =>
        seq (local (decode_args (m_e c) (m_m c) ts bs)) (fun args =>
        Call f args (fun r =>
          match sig_ret (f_sig f) with
          | None => Done tt
          | Some t => seq (local (encode_result (m_e c) (m_m c) t r)) emit_p
          end)))
    end.

  (** buffered_dispatcher.hpp 260-272 *)
  Definition call_p : prog packet_status :=
    Store PObufBottom 0 (Store PObufNext 0 (
    seq index_p (fun index =>
    Load (PAction index) (fun a =>
    seq (run_p a) (fun _ =>
    Store PIsIndexLoaded false (Store PLoadCount (kr_index_size kr) (Store PIbufNext 0 (
    Done RESOLVED_PACKET)))))))).

  (** buffered_dispatcher.hpp 130-158.  [--m_load_count] is checked, as in
      Buffered.v. *)
  Definition put_p (byte : Z) : prog packet_status :=
    seq (store_in byte) (fun _ =>
    Load PLoadCount (fun count =>
    match count with
    | 0 => Stop CounterUnderflow
    | S count =>
        Store PLoadCount count (
        if 0 <? count then Done LOADING_PACKET
        else Load PIsIndexLoaded (fun loaded =>
          if loaded : bool then call_p
          else
            seq index_p (fun index =>
            if index <? kr_size kr then
              Load (PAction index) (fun a =>
              seq (local (input_size a)) (fun n =>
              Store PLoadCount n (Store PIsIndexLoaded true (
              Load PLoadCount (fun n' =>
              if n' =? 0 then call_p else Done LOADING_PACKET)))))
            else
              Store PLoadCount (kr_index_size kr) (Store PIbufNext 0 (Done DROPPED_PACKET)))))
    end)).

  (** buffered_dispatcher.hpp 97 *)
  Definition is_loaded_p : prog bool :=
    if next_read_first ord then
      Load PObufNext (fun n => Load PObufBottom (fun o => Done (negb (n =? o))))
    else
      Load PObufBottom (fun o => Load PObufNext (fun n => Done (negb (n =? o)))).

  (** buffered_dispatcher.hpp 179 *)
  Definition get_p : prog Z :=
    seq is_loaded_p (fun loaded =>
    if loaded : bool then
      Load PObufNext (fun n =>
      if byte_read_first ord then
        Load (PByte out_array n) (fun byte => Store PObufNext (S n) (Done byte))
      else
        Store PObufNext (S n) (Load (PByte out_array n) (fun byte => Done byte)))
    else Done 0%Z).

  (** The action which [replace] stores (dispatcher.hpp 154-187). *)
  Definition new_action (r : replacement X) : action X :=
    match r with
    | ByUnevaluated f => make_action ft (kr_e kr) (kr_m kr) f
    | ByFunctor f => Storage (Some (mk_model (kr_e kr) (kr_m kr) f))
    end.

  (** buffered_dispatcher.hpp 182-217, for the replacements which compile. *)
  Definition replace_p (i : nat) (r : replacement X) : prog unit :=
    Store (PAction i) (new_action r) (Done tt).
End Threads.
Arguments prog : clear implicits.
Arguments shared : clear implicits.
Arguments two : clear implicits.
Arguments Done {X A} a.
Arguments Stop {X A} f.
Arguments Load {X A} l k.
Arguments Store {X A} l v k.
Arguments Call {X A} f args k.
