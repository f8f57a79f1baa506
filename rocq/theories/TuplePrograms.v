(** Programs which declare tuples, views and structured bindings (the operations of
    Views.v) as statements of Templates.v: what each of them calls is the body
    transcribed in Library.v, which runs that of Source.v on integers.  No proofs in
    this file.

    A tuple is a local variable which points to its storage (tuple.hpp 398), a view is
    two local variables, [m_begin] and [m_end] (248), a name of a structured binding is
    a local variable.  The end of a tuple is no statement: its destructor is trivial,
    its bytes stay where they are, and a program which uses them afterwards is
    undefined in C++ (Views.v) but not here.

    Not transcribed: the assignment to a tuple or a view of other element types, whose
    values are converted (see Convert.v). *)

From Coq Require Import List ZArith Bool Arith Ascii String.
From Verif Require Import Base CInt TypeLevel Serial TupleModel Rpc Templates Library.
From Verif Require Functors Views.
Import ListNotations.
Open Scope string_scope.
Open Scope list_scope.
Open Scope nat_scope.

(** The names of the variables (tuple.hpp 248, 398). *)
Fixpoint ticks (n : nat) : string :=
  match n with O => "" | S n' => String "'"%char (ticks n') end.
(** [m_storage] of the tuple [o] (tuple.hpp 398) *)
Definition storage_name (o : nat) : string := String "t"%char (ticks o).
(** [m_begin] of the view [v] (tuple.hpp 248) *)
Definition begin_name (v : nat) : string := String "b"%char (ticks v).
(** [m_end] of the view [v] (tuple.hpp 248) *)
Definition end_name (v : nat) : string := String "e"%char (ticks v).
(** A name of a structured binding (initialised by [get], tuple.hpp 131-138) *)
Definition binding_name (x : nat) : string := String "x"%char (ticks x).

(** The template arguments of a tuple or of a view (tuple.hpp 225, 303). *)
Definition template_args : Type := endianess * signed_mode * list ty.

(** What the compiler knows of the variables (tuple.hpp 225, 303). *)
Record types : Type := mk_types {
  of_tuples : nat -> option template_args;
  of_views : nat -> option template_args
}.

(** The same class template specialisation (tuple.hpp 225, 303). *)
Definition same_args (a b : template_args) : bool :=
  let '(e, m, ts) := a in
  let '(e', m', ts') := b in
  endianess_eqb e e' && signed_mode_eqb m m' && tys_eqb ts ts'.

(** [derived().src()] of a tuple (tuple.hpp 354-357, 406) or of a view (245), and its
    template arguments. *)
Definition place_src (g : types) (s : Views.place) : res (expr * template_args) :=
  match s with
  | Views.TupleVar o =>
      match of_tuples g o with
      | Some (e, m, ts) => Ok (begin_src (storage_name o) ts, (e, m, ts))
      | None => Fault TypeMismatch
      end
  | Views.ViewVar v =>
      match of_views g v with
      | Some a => Ok (Var (begin_name v), a)
      | None => Fault TypeMismatch
      end
  end.

(** The implicit copy of [m_storage] (tuple.hpp 398), one byte after the other, from
    byte [i] on. *)
Fixpoint copy_src (dst src : string) (i n : nat) : stmt :=
  match n with
  | O => Skip
  | S n' =>
      AssignAt (Plus (Var dst) (Constant (Ok i))) (Deref (Plus (Var src) (Constant (Ok i))));;;
      copy_src dst src (S i) n'
  end.

(** The implicit copy constructor of a tuple (tuple.hpp 303-399, 401-407). *)
Definition copy_construct_src (dst src : string) (ts : list ty) : stmt :=
  match ts with
  | [] => Skip
  | _ => DeclareBytes dst (tuple_size ts);;; copy_src dst src 0 (tuple_size ts)
  end.
(** The implicit assignment of [m_storage] (tuple.hpp 398). *)
Definition copy_assign_src (dst src : string) (ts : list ty) : stmt :=
  match ts with
  | [] => Skip
  | _ => copy_src dst src 0 (tuple_size ts)
  end.

(** tuple.hpp 175-178: [lay_tuple(is, t)], for the same element types.  [src] is
    [derived().src()], [t] is that of the other tuple. *)
Definition lay_tuple_src (e : endianess) (m : signed_mode) (e' : endianess) (m' : signed_mode) (ts : list ty) : stmt :=
  Expr (Call [("src", Var "src"); ("args", Pack (gets_src e' m' Pointer ts ts 0 (Var "t")))]
          (lay_src e m Pointer ts)).
(** tuple.hpp 118-122: [operator=(Tuple &&t)] *)
Definition operator_assign_src (e : endianess) (m : signed_mode) (e' : endianess) (m' : signed_mode) (ts : list ty) : stmt :=
  Expr (Call [("src", Var "src"); ("t", Var "t")] (lay_tuple_src e m e' m' ts)).

(** [auto v = o.view<I, L>();]: tuple.hpp 367-378 with [make_view_from_typelist] (71-74) and
    the constructor of the view (235), of a tuple with elements. *)
Definition view_var_src (v o : nat) (offset : res nat) (ts : list ty) : stmt :=
  Auto "src" (Plus (Var (storage_name o)) (Constant offset));;;
  Auto (begin_name v) (Var "src");;;
  Auto (end_name v) (Var "src");;;
  Assign (end_name v) (NextOf (Var (end_name v)) (Constant (Ok (tuple_size ts)))).

(** The names of a structured binding, initialised in order by [get] (tuple.hpp
    131-138) on the object [__e]: a copy of the tuple or of the view, or a reference
    to it. *)
Fixpoint names_src (e : endianess) (m : signed_mode) (ts l : list ty) (i : nat) (xs : list nat) : stmt :=
  match l, xs with
  | t :: l', x :: xs' =>
      Auto (binding_name x) (Call [("src", Var "__e")] (tuple_get_src e m Pointer ts i t));;;
      names_src e m ts l' (S i) xs'
  | _, _ => Skip
  end.

(** One operation, and what the compiler knows after it.  [Fault]: does not compile, or
    not transcribed.
    tuple.hpp 118-151, 190-398, 430-450. *)
Definition statement (g : types) (o : Views.vop) : res (stmt * types) :=
  match o with
  | Views.NewTuple o e m ts args =>
      Ok (tuple_src e m (storage_name o) ts (Some (map Literal args)),
          mk_types (fun n => if n =? o then Some (e, m, ts) else of_tuples g n) (of_views g))
  | Views.CopyTuple o from =>
      match of_tuples g from with
      | Some (e, m, ts) =>
          Ok (copy_construct_src (storage_name o) (storage_name from) ts,
              mk_types (fun n => if n =? o then of_tuples g from else of_tuples g n) (of_views g))
      | None => Fault TypeMismatch
      end
  | Views.EndTuple _ => Ok (Skip, g)
  | Views.ViewOf v o i l =>
      match of_tuples g o with
      | Some (e, m, []) => Fault TypeMismatch
      | Some (e, m, ts) =>
          match clip17 ts i l with
          | Some us =>
              Ok (view_var_src v o (element_offset ts i) us,
                  mk_types (of_tuples g) (fun n => if n =? v then Some (e, m, us) else of_views g n))
          | None => Fault TypeMismatch
          end
      | None => Fault TypeMismatch
      end
  | Views.CopyView v from =>
      match of_views g from with
      | Some a =>
          Ok (Auto (begin_name v) (Var (begin_name from));;; Auto (end_name v) (Var (end_name from)),
              mk_types (of_tuples g) (fun n => if n =? v then of_views g from else of_views g n))
      | None => Fault TypeMismatch
      end
  | Views.Assign_ dst src =>
      '(to, a) <- place_src g dst;;
      '(from, b) <- place_src g src;;
      let '(e, m, ts) := a in
      let '(e', m', ts') := b in
      let otherwise :=
        (* tuple.hpp 118-122: not in the class of tuples without elements *)
        match dst, ts with
        | Views.TupleVar _, [] => Fault TypeMismatch
        | _, _ =>
            if tys_eqb ts ts' then
              Ok (Expr (Call [("src", to); ("t", from)] (operator_assign_src e m e' m' ts)), g)
            else Fault TypeMismatch
        end in
      match dst, src with
      | Views.TupleVar o, Views.TupleVar q =>
          if same_args a b then Ok (copy_assign_src (storage_name o) (storage_name q) ts, g) else otherwise
      | Views.ViewVar v, Views.ViewVar w =>
          if same_args a b then
            Ok (Assign (begin_name v) (Var (begin_name w));;; Assign (end_name v) (Var (end_name w)), g)
          else otherwise
      | _, _ => otherwise
      end
  | Views.Read s i =>
      '(it, a) <- place_src g s;;
      let '(e, m, ts) := a in
      match nth_error ts i with
      | Some t => Ok (Expr (Functor [Call [("src", it)] (tuple_get_src e m Pointer ts i t)]), g)
      | None => Fault TypeMismatch
      end
  | Views.Write s i x =>
      '(it, a) <- place_src g s;;
      let '(e, m, ts) := a in
      match nth_error ts i with
      | Some t => Ok (Expr (Call [("src", it); ("value", Literal x)] (tuple_set_src e m Pointer ts i t)), g)
      | None => Fault TypeMismatch
      end
  | Views.Bind b s xs =>
      '(it, a) <- place_src g s;;
      let '(e, m, ts) := a in
      if List.length xs =? List.length ts then
        Ok (match b, s with
            | Views.ByValue, Views.TupleVar o => copy_construct_src "__e" (storage_name o) ts
            | _, _ => Auto "__e" it
            end;;;
            names_src e m ts ts 0 xs, g)
      else Fault TypeMismatch
  | Views.ReadName x => Ok (Expr (Functor [Var (binding_name x)]), g)
  | Views.AssignName x y => Ok (Assign (binding_name x) (Literal y), g)
  end.

(** The body of the program (tuple.hpp 118-151, 190-398). *)
Fixpoint program_src (g : types) (ops : list Views.vop) : res stmt :=
  match ops with
  | [] => Ok Skip
  | o :: ops' =>
      '(c, g') <- statement g o;;
      c' <- program_src g' ops';;
      Ok (c;;; c')
  end.

(** Before the first declaration (no counterpart in /repo; tuples: tuple.hpp 303). *)
Definition no_types : types := mk_types (fun _ => None) (fun _ => None).

Section Run.
  Variable p : platform.
  Variable sz : nat.
  Variable fuel : nat.

  (** What [Read] and [ReadName] do with a value: the world is what has been printed (no
      counterpart in /repo). *)
  Definition print (vs : list val) (out : list val) : list val * val := (out ++ vs, VList []).
  (** The program run, and the values it prints (calls of tuple.hpp 118-151,
      190-398). *)
  Definition run_tuple_program (ops : list Views.vop) : res (list val) :=
    body <- program_src no_types ops;;
    '(st, _) <- exec p sz fuel no_source no_destination print body (mk_state [] [] []);;
    Ok (st_world st).
End Run.
