(** Model of programs which declare tuples, views of slices of tuples and
    structured bindings.  No proofs in this file.

    In TupleModel.v a view reads and writes a memory which is always there.
    Here the tuples are variables of a program, which end with their scope, and
    the views are variables which may be copied, rebound and used later. *)

From Coq Require Import List ZArith Bool Arith.
From Verif Require Import Base CInt IntModel TypeLevel Serial TupleModel Functors.
Import ListNotations.
Open Scope nat_scope.

(** A variable of type [tuple<E, S, Ts...>]: its type and its member
    [m_storage] (tuple.hpp 398). *)
Record tuple_var : Type := mk_tuple_var {
  tv_e : endianess;
  tv_m : signed_mode;
  tv_ts : list ty;
  tv_bytes : list Z
}.

(** A variable of type [tuple_view<byte_t *, E, S, Ts...>]: the variable into
    the storage of which its iterators point (tuple.hpp 248), and their
    position there. *)
Record view_var : Type := mk_view_var {
  vv_on : nat;
  vv_view : view
}.

(** The variables of the program ([None]: not declared, or destroyed) and the
    variables introduced by its structured bindings.
    (tuple.hpp 225-249, 303-399.) *)
Record pstate : Type := mk_pstate {
  ps_tuples : nat -> option tuple_var;
  ps_views : nat -> option view_var;
  ps_names : nat -> option val
}.

(** A tuple or a view.
    (tuple.hpp 225, 303.) *)
Inductive place : Type :=
| TupleVar (o : nat)
| ViewVar (v : nat).

(** [auto [...] = s] or [auto &[...] = s].
    (tuple.hpp 430-450.) *)
Inductive binding : Type := ByValue | ByReference.

(** What a program does.  The number of each variable is its name.
    (tuple.hpp 118-151, 190-398.) *)
Inductive vop : Type :=
| NewTuple (o : nat) (e : endianess) (m : signed_mode) (ts : list ty) (args : list val)
                                      (* tuple<e, m, ts...> o{args...}; *)
| CopyTuple (o from : nat)            (* auto o = from; *)
| EndTuple (o : nat)                  (* o is destroyed *)
| ViewOf (v o i l : nat)              (* auto v = o.view<i, l>();  or make_view<i, l>(o) *)
| CopyView (v from : nat)             (* auto v = from; *)
| Assign_ (dst src : place)           (* dst = std::move(src); *)
| Read (s : place) (i : nat)          (* print s.get<i>()  or get<i>(s) *)
| Write (s : place) (i : nat) (x : val)   (* s.set<i>(x)  or set<i>(s, x) *)
| Bind (b : binding) (s : place) (xs : list nat)   (* auto [xs...] = s; *)
| ReadName (x : nat)                  (* print x *)
| AssignName (x : nat) (y : val).     (* x = y; *)

Section Views.
  Variable p : platform.

  (** The view on which the members of a place act, and the bytes there:
      [derived().src()] (tuple.hpp 131-151).  [None]: the storage is not there
      any more. *)
  Definition find_place (st : pstate) (s : place) : option (nat * view * list Z) :=
    match s with
    | TupleVar o =>
        match ps_tuples st o with
        | Some t => Some (o, tuple_at (tv_e t) (tv_m t) (tv_ts t) 0, tv_bytes t)
        | None => None
        end
    | ViewVar v =>
        match ps_views st v with
        | Some w =>
            match ps_tuples st (vv_on w) with
            | Some t => Some (vv_on w, vv_view w, tv_bytes t)
            | None => None
            end
        | None => None
        end
    end.

  (** The bytes of a tuple ([m_storage], tuple.hpp 398) change. *)
  Definition set_bytes (st : pstate) (o : nat) (bs : list Z) : pstate :=
    match ps_tuples st o with
    | Some t => mk_pstate (update (ps_tuples st) o (Some (mk_tuple_var (tv_e t) (tv_m t) (tv_ts t) bs)))
                  (ps_views st) (ps_names st)
    | None => st
    end.

  (** The names of a structured binding are variables of type
      [std::tuple_element<I, E>::type &&] bound to [e.get<I>()], where [e] is a
      copy of the object, or the object itself.  [std::tuple_size] is the number
      of the element types (tuple.hpp 431-434, 441-444) and
      [std::tuple_element] the type of what [get] returns (436-439, 446-449),
      which is not a reference: each name is that of a temporary object, which
      lives as long as the name.  They are initialised in order. *)
  Definition tuple_size_of (v : view) : nat := length (v_types v).

  (** The variables a structured binding introduces (initialised by [get],
      tuple.hpp 199-205). *)
  Fixpoint name_all (f : nat -> option val) (xs : list nat) (vals : list val) : nat -> option val :=
    match xs, vals with
    | x :: xs', y :: vals' => name_all (update f x (Some y)) xs' vals'
    | _, _ => f
    end.

  (** The copy [e]: the bytes of a tuple, the iterators of a view.
      (tuple.hpp 248, 398.) *)
  Definition bound_object (b : binding) (s : place) (v : view) (bs : list Z) : res (list Z) :=
    match b, s with
    | ByValue, TupleVar _ => load_range bs 0 (tuple_size (v_types v))
    | _, _ => Ok bs
    end.

  (** One operation.  [Fault]: does not compile.  [None]: undefined behaviour.
      Otherwise the values which are printed.

      Simplification: to copy a view whose storage is gone (the use of an
      invalid pointer value other than through it, implementation-defined in
      C++) copies its iterators.
      (tuple.hpp 118-151, 190-398.) *)
  Definition vstep (o : vop) (st : pstate) : res (option (pstate * list val)) :=
    match o with
    | NewTuple o e m ts args =>
        (* the storage is not initialised; its content before is immaterial *)
        bs <- construct p e m ts args (repeat 0%Z (tuple_size ts));;
        Ok (Some (mk_pstate (update (ps_tuples st) o (Some (mk_tuple_var e m ts bs))) (ps_views st) (ps_names st), []))
    | CopyTuple o from =>
        match ps_tuples st from with
        | Some t => Ok (Some (mk_pstate (update (ps_tuples st) o (Some t)) (ps_views st) (ps_names st), []))
        | None => Ok None
        end
    | EndTuple o => Ok (Some (mk_pstate (update (ps_tuples st) o None) (ps_views st) (ps_names st), []))
    | ViewOf v o i l =>
        match ps_tuples st o with
        | Some t =>
            match sub_view (tuple_at (tv_e t) (tv_m t) (tv_ts t) 0) i l with
            | Some w =>
                Ok (Some (mk_pstate (ps_tuples st) (update (ps_views st) v (Some (mk_view_var o w))) (ps_names st), []))
            | None => Fault TypeMismatch
            end
        | None => Ok None
        end
    | CopyView v from =>
        match ps_views st from with
        | Some w => Ok (Some (mk_pstate (ps_tuples st) (update (ps_views st) v (Some w)) (ps_names st), []))
        | None => Fault TypeMismatch
        end
    | Assign_ dst src =>
        match dst, src with
        | ViewVar v, ViewVar w =>
            match ps_views st v, ps_views st w with
            | Some a, Some b =>
                if same_object_type (View (vv_view a)) (View (vv_view b)) then
                  (* copy assignment of the iterators *)
                  Ok (Some (mk_pstate (ps_tuples st) (update (ps_views st) v (Some b)) (ps_names st), []))
                else
                  match find_place st dst, find_place st src with
                  | Some (o, d, bs), Some (_, s, bs') =>
                      xs <- get_each p s (make_index_sequence14 (length (v_types d))) bs';;
                      bs1 <- lay p d (make_index_sequence14 (length (v_types d))) xs bs;;
                      Ok (Some (set_bytes st o bs1, []))
                  | _, _ => Ok None
                  end
            | _, _ => Fault TypeMismatch
            end
        | _, _ =>
            match find_place st dst, find_place st src with
            | Some (o, d, bs), Some (_, s, bs') =>
                let both_tuples := match dst, src with TupleVar _, TupleVar _ => true | _, _ => false end in
                if both_tuples && same_object_type (Tuple d) (Tuple s) then
                  (* copy assignment of the storage *)
                  Ok (Some (set_bytes st o bs', []))
                else if negb (has_template_assignment (match dst with TupleVar _ => Tuple d | ViewVar _ => View d end))
                then Fault TypeMismatch
                else
                  (* tuple.hpp 118-122, 175-178 *)
                  xs <- get_each p s (make_index_sequence14 (length (v_types d))) bs';;
                  bs1 <- lay p d (make_index_sequence14 (length (v_types d))) xs bs;;
                  Ok (Some (set_bytes st o bs1, []))
            | _, _ => Ok None
            end
        end
    | Read s i =>
        match find_place st s with
        | Some (_, v, bs) => x <- get p v i bs;; Ok (Some (st, [x]))
        | None => Ok None
        end
    | Write s i x =>
        match find_place st s with
        | Some (o, v, bs) => bs' <- set p v i x bs;; Ok (Some (set_bytes st o bs', []))
        | None => Ok None
        end
    | Bind b s xs =>
        match find_place st s with
        | Some (_, v, bs) =>
            if length xs =? tuple_size_of v then
              bs' <- bound_object b s v bs;;
              vals <- get_each p v (seq 0 (tuple_size_of v)) bs';;
              Ok (Some (mk_pstate (ps_tuples st) (ps_views st) (name_all (ps_names st) xs vals), []))
            else Fault TypeMismatch
        | None => Ok None
        end
    | ReadName x =>
        match ps_names st x with
        | Some y => Ok (Some (st, [y]))
        | None => Fault TypeMismatch
        end
    | AssignName x y =>
        match ps_names st x with
        | Some _ => Ok (Some (mk_pstate (ps_tuples st) (ps_views st) (update (ps_names st) x (Some y)), []))
        | None => Fault TypeMismatch
        end
    end.

  (** A whole program.  [None]: undefined behaviour.
      (tuple.hpp 118-151, 190-398.) *)
  Fixpoint vexec (ops : list vop) (st : pstate) : res (option (pstate * list val)) :=
    match ops with
    | [] => Ok (Some (st, []))
    | o :: ops' =>
        r <- vstep o st;;
        match r with
        | None => Ok None
        | Some (st1, out) =>
            r' <- vexec ops' st1;;
            match r' with
            | None => Ok None
            | Some (st2, out') => Ok (Some (st2, out ++ out'))
            end
        end
    end.

  (** Before the first declaration (no counterpart in /repo; tuples:
      tuple.hpp 303). *)
  Definition vstart : pstate := mk_pstate (fun _ => None) (fun _ => None) (fun _ => None).
End Views.
