(** Model of detail/io/, detail/serialized_message.hpp, action.hpp, key.hpp,
    keyring.hpp and dispatcher.hpp.  No proofs in this file.

    Byte getters, byte putters and callbacks are arbitrary functions over an
    arbitrary world [X]: the order of their effects is part of the model. *)

From Coq Require Import List ZArith Bool Arith.
From Verif Require Import Base CInt IntModel TypeLevel Serial TupleModel.
Import ListNotations.
Open Scope nat_scope.

(** A byte getter: [byte_t()] (action.hpp 28). *)
Definition source (X : Type) : Type := X -> res (X * Z).

(** A byte putter: [void(byte_t)] (action.hpp 31). *)
Definition destination (X : Type) : Type := Z -> X -> res X.

(** A callback together with its signature.  The value returned by a [void]
    callback is not looked at.
    signature.hpp 100-128 deduces the signature; the call is at tuple.hpp
    184. *)
Record func (X : Type) : Type := mk_func {
  f_sig : signature;
  f_call : list val -> X -> X * val
}.
Arguments mk_func {X} f_sig f_call.
Arguments f_sig {X} f.
Arguments f_call {X} f.

(** ** Iterators as byte getters and putters

    detail/io/immediate_process.hpp 46-57, 72-93; immediate_reader.hpp 31-39;
    immediate_writer.hpp 32-40: the iterator is copied, then dereferenced and
    incremented at each byte.  [acc] gives access to the memory region and to
    the position of the copy. *)
Definition iterator_source {X : Type} (mem : X -> list Z) (pos : X -> nat) (set_pos : nat -> X -> X)
    : source X :=
  fun x => b <- load (mem x) (pos x);; Ok (set_pos (S (pos x)) x, b).

(** immediate_process.hpp 53-57, 84-93; immediate_writer.hpp 32-40: [*it++ =
    byte]. *)
Definition iterator_destination {X : Type} (mem : X -> list Z) (set_mem : list Z -> X -> X)
    (pos : X -> nat) (set_pos : nat -> X -> X) : destination X :=
  fun b x => m <- store (mem x) (pos x) b;; Ok (set_pos (S (pos x)) (set_mem m x)).

Section Rpc.
  Variable p : platform.
  Context {X : Type}.

  (** [for (auto byte : t) dest(byte);]
      action.hpp 39-40, 139-140; serialized_message.hpp 34-35. *)
  Fixpoint put_each (dest : destination X) (bs : list Z) (x : X) : res X :=
    match bs with
    | [] => Ok x
    | b :: bs' =>
        x' <- dest b x;;
        put_each dest bs' x'
    end.

  (** [tuple<E, S, Ts...> t; for (auto &byte : t) byte = src();]: the
      default-constructed tuple (tuple.hpp 313) is overwritten byte by byte.
      The result is the storage of the tuple. *)
  Definition read_tuple (e : endianess) (m : signed_mode) (ts : list ty) (src : source X) (x : X)
      : res (X * list Z) :=
    st <- default_construct p e m ts (indet_bytes p (tuple_size ts));;
    fill_tuple src (tuple_at e m ts 0) x st.

  (** [make_tuple(E, S, args...)] then [for (auto byte : t) dest(byte);]
      action.hpp 38-40, 138-140; key.hpp 110 with serialized_message.hpp
      31-36. *)
  Definition write_tuple (e : endianess) (m : signed_mode) (ts : list ty) (args : list val)
      (dest : destination X) (x : X) : res X :=
    st <- construct p e m ts args (indet_bytes p (tuple_size ts));;
    bs <- content (tuple_at e m ts 0) st;;
    put_each dest bs x.

  (** action.hpp 34-41 *)
  Definition insert (e : endianess) (m : signed_mode) (dest : destination X) (t : ty) (v : val) (x : X)
      : res X :=
    write_tuple e m [t] [v] dest x.

  (** action.hpp 53-59 ([void]) and 62-69, on [input_tuple<E, S, F>]
      (input_tuple.hpp 13-24). *)
  Definition call (e : endianess) (m : signed_mode) (f : func X) (src : source X) (dest : destination X)
      (x : X) : res X :=
    let ts := sig_params (f_sig f) in
    match sig_ret (f_sig f) with
    | None =>
        '(x1, st) <- read_tuple e m ts src x;;
        '(x2, _) <- invoke p (tuple_at e m ts 0) (f_call f) st x1;;
        Ok x2
    | Some t =>
        '(x1, st) <- read_tuple e m ts src x;;
        '(x2, r) <- invoke p (tuple_at e m ts 0) (f_call f) st x1;;
        insert e m dest t r x2
    end.

  (** action.hpp 122-128 ([void]) and 133-141 *)
  Definition static_wrapper (e : endianess) (m : signed_mode) (f : func X) (src : source X)
      (dest : destination X) (x : X) : res X :=
    let ts := sig_params (f_sig f) in
    match sig_ret (f_sig f) with
    | None =>
        '(x1, st) <- read_tuple e m ts src x;;
        '(x2, _) <- invoke p (tuple_at e m ts 0) (f_call f) st x1;;
        Ok x2
    | Some t =>
        '(x1, st) <- read_tuple e m ts src x;;
        '(x2, r) <- invoke p (tuple_at e m ts 0) (f_call f) st x1;;
        rt <- construct p e m [t] [r] (indet_bytes p (tuple_size [t]));;
        bs <- content (tuple_at e m [t] 0) rt;;
        put_each dest bs x2
    end.

  (** A callback and its format: [action_model<F, E, S>] (action.hpp 102-117)
      or the parameters of a [no_storage_action] (212-217). *)
  Record model : Type := mk_model {
    m_e : endianess;
    m_m : signed_mode;
    m_func : func X
  }.

  (** [action] (action.hpp 151-200), whose [std::unique_ptr] may be null, or
      [no_storage_action] (207-237). *)
  Inductive action : Type :=
  | Storage (o : option model)
  | NoStorage (a : model).

  (** action.hpp 174-179 (through 113) and 221-223 *)
  Definition run (a : action) (src : source X) (dest : destination X) (x : X) : res X :=
    match a with
    | Storage None => Ok x
    | Storage (Some a) => call (m_e a) (m_m a) (m_func a) src dest x
    | NoStorage a => static_wrapper (m_e a) (m_m a) (m_func a) src dest x
    end.

  (** action.hpp 185-188: [operator()(input)].  [no_storage_action] has no such
      overload. *)
  Definition run_input_only (a : action) (src : source X) (x : X) : res X :=
    match a with
    | Storage _ => run a src (fun _ x => Ok x) x
    | NoStorage _ => Fault TypeMismatch
    end.

  (** [flatten_tuple_t<E, S, R>] (flatten_tuple.hpp 20-37).  Returned tuples are
      not modelled: [insert] requires [not_tuple]. *)
  Definition flatten_tuple (r : option ty) : list ty :=
    match r with
    | None => []
    | Some t => [t]
    end.

  (** action.hpp 109, 192; 216, 226 *)
  Definition input_size (a : action) : res nat :=
    match a with
    | Storage None => Fault NullDeref
    | Storage (Some a) => Ok (tuple_size (sig_params (f_sig (m_func a))))
    | NoStorage a => Ok (parameters_size (f_sig (m_func a)))
    end.

  (** action.hpp 110, 196; 217, 229 *)
  Definition output_size (a : action) : res nat :=
    match a with
    | Storage None => Fault NullDeref
    | Storage (Some a) => Ok (tuple_size (flatten_tuple (sig_ret (f_sig (m_func a)))))
    | NoStorage a => Ok (return_type_size (f_sig (m_func a)))
    end.

  (** ** key.hpp *)

  (** key.hpp 65-72: the template arguments.  [k_index_size] is
      [sizeof(Index_T)]. *)
  Record key : Type := mk_key {
    k_index_size : nat;
    k_index : nat;
    k_sig : signature;
    k_e : endianess;
    k_m : signed_mode
  }.

  (** key.hpp 96 *)
  Definition payload_length (k : key) : nat := k_index_size k + parameters_size (k_sig k).

  (** key.hpp 108-111 and serialized_message.hpp 19, 31-36:
      [k(args...).write_to(dest)]. *)
  Definition key_write (k : key) (args : list val) (dest : destination X) (x : X) : res X :=
    write_tuple (k_e k) (k_m k) (TUns (k_index_size k) :: sig_params (k_sig k))
      (VInt (Z.of_nat (k_index k)) :: args) dest x.

  (** key.hpp 121-131.  [None]: returns [void]. *)
  Definition key_read (k : key) (src : source X) (x : X) : res (X * option val) :=
    match sig_ret (k_sig k) with
    | None => Ok (x, None)
    | Some t =>
        '(x', st) <- read_tuple (k_e k) (k_m k) [t] src x;;
        v <- get p (tuple_at (k_e k) (k_m k) [t] 0) 0 st;;
        Ok (x', Some v)
    end.

  (** policy.hpp: [action_features].
      policy.hpp 10. *)
  Inductive action_features : Type := ANY | WEAK_REFERENCE.

  (** dispatcher.hpp 30-48 *)
  Definition make_action (ft : action_features) (e : endianess) (m : signed_mode) (f : func X) : action :=
    match ft with
    | WEAK_REFERENCE => NoStorage (mk_model e m f)
    | ANY => Storage (Some (mk_model e m f))
    end.

  (** key.hpp 138-157: [with_hook(ftor)] is [ANY], [with_hook(unevaluated)] and
      [with_hook<Ftor>()] are [WEAK_REFERENCE]. *)
  Definition with_hook (ft : action_features) (k : key) (f : func X) : action :=
    match ft with
    | ANY => Storage (Some (mk_model (k_e k) (k_m k) f))
    | WEAK_REFERENCE => NoStorage (mk_model (k_e k) (k_m k) f)
    end.

  (** ** keyring.hpp *)

  (** keyring.hpp 40-41: the format and the callbacks.  [unevaluated<F, Ftor>]
      is identified by a name (the address of the function). *)
  Record keyring : Type := mk_keyring {
    kr_e : endianess;
    kr_m : signed_mode;
    kr_funcs : list (nat * func X)
  }.

  (** keyring.hpp 52: [sizeof(index_t)] *)
  Definition kr_index_size (kr : keyring) : nat := smallest_unsigned (Z.of_nat (length (kr_funcs kr))).

  (** keyring.hpp 64: conversion of the count to [index_t] *)
  Definition kr_size (kr : keyring) : nat :=
    Z.to_nat (Z.of_nat (length (kr_funcs kr)) mod 2 ^ (8 * Z.of_nat (kr_index_size kr))).

  (** keyring.hpp 49 *)
  Definition kr_signatures (kr : keyring) : list signature := map (fun nf => f_sig (snd nf)) (kr_funcs kr).

  (** keyring.hpp 56-61, 85-97.  [None]: does not compile.  [f] is the callback
      designated by [name]. *)
  Definition kr_get (kr : keyring) (name : nat) (f : func X) : option key :=
    match find17 Nat.eqb (map fst (kr_funcs kr)) name with
    | Some i => Some (mk_key (kr_index_size kr) i (f_sig f) (kr_e kr) (kr_m kr))
    | None => None
    end.

  (** ** dispatcher.hpp *)

  (** dispatcher.hpp 79-108, 199: the keyring and the stored actions *)
  Record dispatcher : Type := mk_dispatcher {
    d_keyring : keyring;
    d_features : action_features;
    d_actions : list action
  }.

  (** dispatcher.hpp 59-66, 105-108 *)
  Definition make_dispatcher (kr : keyring) (ft : action_features) : dispatcher :=
    mk_dispatcher kr ft (map (fun nf => make_action ft (kr_e kr) (kr_m kr) (snd nf)) (kr_funcs kr)).

  (** dispatcher.hpp 96 *)
  Definition d_size (d : dispatcher) : nat := kr_size (d_keyring d).

  (** dispatcher.hpp 141-149 *)
  Definition get_index (d : dispatcher) (src : source X) (x : X) : res (X * nat) :=
    let e := kr_e (d_keyring d) in
    let m := kr_m (d_keyring d) in
    let t := TUns (kr_index_size (d_keyring d)) in
    '(x', st) <- read_tuple e m [t] src x;;
    v <- get p (tuple_at e m [t] 0) 0 st;;
    match v with
    | VInt z => Ok (x', Z.to_nat z)
    | VList _ => Fault TypeMismatch
    end.

  (** dispatcher.hpp 193-196: [m_actions.content[index]], not checked *)
  Definition action_at (d : dispatcher) (i : nat) : res action :=
    match nth_error (d_actions d) i with
    | Some a => Ok a
    | None => Fault OutOfBounds
    end.

  (** dispatcher.hpp 119-127 *)
  Definition dispatch (d : dispatcher) (src : source X) (dest : destination X) (x : X) : res (X * nat) :=
    '(x1, i) <- get_index d src x;;
    if i <? d_size d then
      a <- action_at d i;;
      x2 <- run a src dest x1;;
      Ok (x2, i)
    else Ok (x1, i).

  (** dispatcher.hpp 132-136.  The pointer is the position in [content]. *)
  Definition get_action (d : dispatcher) (src : source X) (x : X) : res (X * option nat) :=
    '(x1, i) <- get_index d src x;;
    Ok (x1, if i <? d_size d then Some i else None).

  (** Element [i] of the array [content] (dispatcher.hpp 59-66) is
      overwritten; used by [assign_action]. *)
  Fixpoint set_nth {A : Type} (l : list A) (i : nat) (a : A) : list A :=
    match l, i with
    | [], _ => []
    | _ :: l', 0 => a :: l'
    | b :: l', S i' => b :: set_nth l' i' a
    end.

  (** [d[i] = a] through the reference returned by [operator[]].
      dispatcher.hpp 160, 186, 193-196. *)
  Definition assign_action (d : dispatcher) (i : nat) (a : action) : res dispatcher :=
    if i <? length (d_actions d) then
      Ok (mk_dispatcher (d_keyring d) (d_features d) (set_nth (d_actions d) i a))
    else Fault OutOfBounds.

  (** [std::is_same] on signatures.
      dispatcher.hpp 157, 170, 183. *)
  Definition option_ty_eqb (a b : option ty) : bool :=
    match a, b with
    | None, None => true
    | Some t, Some u => ty_eqb t u
    | _, _ => false
    end.
  (** dispatcher.hpp 157, 170, 183. *)
  Definition sig_eqb (a b : signature) : bool :=
    tys_eqb (sig_params a) (sig_params b) && option_ty_eqb (sig_ret a) (sig_ret b).

  (** dispatcher.hpp 154-187, the three overloads.  The last one exists only
      for [ANY].  [None]: does not compile. *)
  Inductive replacement : Type := ByUnevaluated (f : func X) | ByFunctor (f : func X).

  (** dispatcher.hpp 154-187. *)
  Definition replace (d : dispatcher) (i : nat) (r : replacement) : option (res dispatcher) :=
    let kr := d_keyring d in
    let f := match r with ByUnevaluated f | ByFunctor f => f end in
    match at17 (kr_signatures kr) i with
    | None => None
    | Some s =>
        if (i <? d_size d) && sig_eqb s (f_sig f) then
          match r, d_features d with
          | ByUnevaluated f, ft => Some (assign_action d i (make_action ft (kr_e kr) (kr_m kr) f))
          | ByFunctor f, ANY => Some (assign_action d i (Storage (Some (mk_model (kr_e kr) (kr_m kr) f))))
          | ByFunctor _, WEAK_REFERENCE => None
          end
        else None
    end.
End Rpc.

Arguments mk_model {X} m_e m_m m_func.
Arguments m_e {X} m.
Arguments m_m {X} m.
Arguments m_func {X} m.
Arguments Storage {X} o.
Arguments NoStorage {X} a.
Arguments mk_keyring {X} kr_e kr_m kr_funcs.
Arguments mk_dispatcher {X} d_keyring d_features d_actions.
Arguments ByUnevaluated {X} f.
Arguments ByFunctor {X} f.
Arguments action : clear implicits.
Arguments keyring : clear implicits.
Arguments dispatcher : clear implicits.
Arguments replacement : clear implicits.
Arguments model : clear implicits.

(** ** In-place processing: [d(buf, buf)] (immediate_process.hpp 25-39)

    Both iterators point to the same region. *)
Record in_place (Y : Type) : Type := mk_in_place {
  ip_mem : list Z;
  ip_in : nat;
  ip_out : nat;
  ip_world : Y
}.
Arguments mk_in_place {Y} ip_mem ip_in ip_out ip_world.
Arguments ip_mem {Y} i.
Arguments ip_in {Y} i.
Arguments ip_out {Y} i.
Arguments ip_world {Y} i.

(** immediate_process.hpp 46-57 applied to a pointer to the shared region. *)
Definition in_place_source {Y : Type} : source (in_place Y) :=
  iterator_source ip_mem ip_in (fun n w => mk_in_place (ip_mem w) n (ip_out w) (ip_world w)).

(** immediate_process.hpp 72-93 applied to a pointer to the shared region. *)
Definition in_place_destination {Y : Type} : destination (in_place Y) :=
  iterator_destination ip_mem (fun m w => mk_in_place m (ip_in w) (ip_out w) (ip_world w))
    ip_out (fun n w => mk_in_place (ip_mem w) (ip_in w) n (ip_world w)).
