(** Model of the implicit conversions between integer types: assignment between
    tuples of different element types, [set] and key arguments of another type
    than the element.  No proofs in this file.

    Only the conversions between integer types (and [bool]) are modelled; a
    value of any other type is accepted where its own type is expected.
    [TArr t n] stands for [std::array<T, n>] here: [get] returns
    a [std::array], to which no plain array can be bound, so that an assignment
    to a tuple holding plain arrays does not compile. *)

From Coq Require Import List ZArith Bool Arith.
From Verif Require Import Base CInt IntModel TypeLevel Serial TupleModel Rpc.
Import ListNotations.
Open Scope nat_scope.

(** Integer types.
    The types of serialization.hpp 59-68 (without floating point types). *)
Definition arith_ty (t : ty) : option cty :=
  match t with
  | TBool => Some CBool
  | TUns w => Some (CInt w false)
  | TSig w => Some (CInt w true)
  | TArr _ _ | TUser _ _ => None
  end.

(** An argument of type [u] can be given for a parameter [const T &]
    (tuple.hpp 145, 169, 317; key.hpp 109): copy-initialization, in which
    narrowing is allowed. *)
Definition converts (u t : ty) : bool :=
  match arith_ty u, arith_ty t with
  | Some _, Some _ => true
  | _, _ => ty_eqb u t
  end.

(** The temporary bound to the parameter.
    tuple.hpp 145; key.hpp 109. *)
Definition convert (t : ty) (x : val) : val :=
  match arith_ty t, x with
  | Some c, VInt z => VInt (conv c z)
  | _, _ => x
  end.

Section Convert.
  Variable p : platform.

  (** tuple.hpp 144-151 and 213-216: [t.set<I>(x)], [set<I>(t, x)] with [x] of
      type [u].  [None]: does not compile. *)
  Definition set_from (v : view) (i : nat) (u : ty) (x : val) (mem : list Z) : option (res (list Z)) :=
    match at17 (v_types v) i with
    | None => None
    | Some t => if converts u t then Some (set p v i (convert t x) mem) else None
    end.

  (** tuple.hpp 168-172: the arguments [args] have the types [us]. *)
  Fixpoint lay_from (v : view) (is : list nat) (us : list ty) (args : list val) (mem : list Z)
      : option (res (list Z)) :=
    match is, us, args with
    | [], [], [] => Some (Ok mem)
    | i :: is', u :: us', a :: args' =>
        match set_from v i u a mem with
        | None => None
        | Some (Fault f) => Some (Fault f)
        | Some (Ok mem') => lay_from v is' us' args' mem'
        end
    | _, _, _ => None
    end.

  (** The types of [t.get<Is>()...]; an index out of range does not compile
      (typelist.hpp, [at]).
      tuple.hpp 177. *)
  Fixpoint types_at (ts : list ty) (is : list nat) : option (list ty) :=
    match is with
    | [] => Some []
    | i :: is' =>
        match at17 ts i, types_at ts is' with
        | Some t, Some us => Some (t :: us)
        | _, _ => None
        end
    end.

  (** Whether [lay] accepts arguments of the types [us]: known at compile
      time.
      tuple.hpp 169, 171; key.hpp 109-110. *)
  Fixpoint all_convert (us ts : list ty) : bool :=
    match us, ts with
    | [], [] => true
    | u :: us', t :: ts' => converts u t && all_convert us' ts'
    | _, _ => false
    end.

  (** tuple.hpp 175-178: the indices are those of the destination. *)
  Definition lay_tuple_from (dst src : view) (mem : list Z) : option (res (list Z)) :=
    let is := make_index_sequence14 (length (v_types dst)) in
    match types_at (v_types src) is with
    | None => None
    | Some us =>
        if all_convert us (v_types dst) then
          match get_each p src is mem with
          | Fault f => Some (Fault f)
          | Ok xs => lay_from dst is us xs mem
          end
        else None
    end.

  (** tuple.hpp 118-122, as [assign] in TupleModel.v. *)
  Definition assign_from (c : category) (dst src : object) (mem : list Z)
      : option (res (object * list Z)) :=
    if same_object_type dst src then assign p c dst src mem
    else
      match c with
      | Temporary =>
          if has_template_assignment dst then
            match lay_tuple_from (object_view dst) (object_view src) mem with
            | None => None
            | Some r => Some (mem' <- r;; Ok (dst, mem'))
            end
          else None
      | Variable_ | Constant => None
      end.

  (** The parameters bound to arguments.
      key.hpp 109. *)
  Fixpoint convert_each (ts : list ty) (args : list val) : list val :=
    match ts, args with
    | t :: ts', a :: args' => convert t a :: convert_each ts' args'
    | _, _ => []
    end.

  (** key.hpp 108-111: [k(args...)] with arguments of the types [us]: converted
      when the parameters [const Args &...] are bound, before the packet is
      made. *)
  Definition key_write_from {X : Type} (k : key) (us : list ty) (args : list val) (dest : destination X) (x : X)
      : option (res X) :=
    if all_convert us (sig_params (k_sig k))
    then Some (key_write p k (convert_each (sig_params (k_sig k)) args) dest x)
    else None.
End Convert.
