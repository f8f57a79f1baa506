(** Model of the C++ types of the elements of tuples, of the parameters and of
    the results of callbacks, as far as compilation goes:
    detail/serialization.hpp 34-45, 59-93, 127-157 and 182-190,
    detail/type_traits/require.hpp 97-107 and 121-123, is_array.hpp,
    is_user_serializable.hpp, input_tuple.hpp, flatten_tuple.hpp, tuple.hpp
    38-93, 131-185, 313-317 and 409-418, key.hpp 67-128, action.hpp 33-41,
    52-70, 107-115 and 121-142.  Whether a program compiles is a boolean.  No proofs in this
    file. *)

From Coq Require Import List Bool Arith.

Import ListNotations.
Open Scope nat_scope.

(** Arithmetic types; widths in bytes.
    (require.hpp 96-104.) *)
Inductive arith : Type :=
| Abool
| Auns (w : nat)
| Asig (w : nat)
| Afloat (w : nat).

(** Object types without qualifiers.

    - [CArray t n] is [t[n]], [StdArray t n] is [std::array<t, n>], [n] not zero;
    - [Class d] is any type which is none of the above: class, enumeration,
      pointer...  [d] tells whether its objects can be default initialised;
    - [Extended t fs] is the type [t], of one of the four kinds above, for which
      [upd_extension] is specialised.  [fs] are the types of the parameters of
      [unserialize] and whether each is taken by value.  [unserialize] returns
      [t] and is neither overloaded nor a template, and [serialize] sets every
      field.
    (serialization.hpp 59-86, 127-149; tuple.hpp 86-93.) *)
Inductive element : Type :=
| Arith (a : arith)
| CArray (t : element) (n : nat)
| StdArray (t : element) (n : nat)
| Class (d : bool)
| Extended (t : element) (fs : list (bool * element)).

(** The type itself, whatever its extension.
    (serialization.hpp 81-86.) *)
Definition base (t : element) : element :=
  match t with Extended u _ => u | _ => t end.

(** ** Overloads of [read_as] and [write_as] for pointers

    In the order of their declaration: serialization.hpp 59, 63, 69, 81 and
    127, 131, 137, 144. *)
Inductive overload : Type := OUnsigned | OSigned | OArray | OUser.

(** require.hpp 97-107 and 121-123, is_array.hpp 13-20.  [std::is_signed] and
    [std::is_unsigned] concern the arithmetic types, floating point types
    included. *)
Definition viable (t : element) (o : overload) : bool :=
  match o with
  | OUnsigned => match base t with Arith Abool | Arith (Auns _) => true | _ => false end
  | OSigned => match base t with Arith (Asig _) | Arith (Afloat _) => true | _ => false end
  | OArray => match base t with CArray _ _ | StdArray _ _ => true | _ => false end
  | OUser => match t with Extended _ _ => true | _ => false end
  end.

(** Overload resolution: the candidates only differ by their constraints.
    [None]: no candidate, or an ambiguity.
    (serialization.hpp 59-86, 127-149.) *)
Definition select (visible : list overload) (t : element) : option overload :=
  match filter (viable t) visible with
  | [o] => Some o
  | _ => None
  end.

(** serialization.hpp 59, 63, 69, 81 and 127, 131, 137, 144. *)
Definition all_overloads : list overload := [OUnsigned; OSigned; OArray; OUser].

(** The names used in the body of a template are looked up where it is defined
    or, by compilers which do not comply, where it is instantiated (the argument
    of type [byte_t *] adds nothing by argument-dependent lookup).  The overload
    for user types is declared after the one for arrays.
    (serialization.hpp 77, 142 and 81, 144.) *)
Inductive lookup : Type := AtDefinition | AtInstantiation.

(** The overloads found at serialization.hpp 77 and 142. *)
Definition in_array (lk : lookup) : list overload :=
  match lk with
  | AtDefinition => [OUnsigned; OSigned; OArray]
  | AtInstantiation => all_overloads
  end.

(** serialization.hpp 182-190.  Given [nullptr], the overload of [write_as] for
    iterators (150) is a better match than the others whatever the type, and its
    body is not instantiated: only the declaration of [read_as] matters (87, or 59-82). *)
Definition is_serializable (t : element) : bool :=
  match select all_overloads t with Some _ => true | None => false end.

(** tuple.hpp 86-93, 64-67 and 53-61: whether the class [tuple<..., t, ...>] or
    [tuple_view<..., t, ...>] can be instantiated.  The size of a user type is
    that of the view of its fields. *)
Fixpoint declares (t : element) : bool :=
  is_serializable t
  && match t with
     | Extended _ fs => forallb (fun f => fst f && declares (snd f)) fs
     | _ => true
     end.

(** serialization.hpp 127-149: whether the body of the overload called for an
    object of type [t] compiles; [vis] are the overloads visible from the call. *)
Fixpoint write_ok (lk : lookup) (vis : list overload) (t : element) : bool :=
  match t with
  | Arith _ => match select vis t with Some _ => true | None => false end
  | CArray u _ | StdArray u _ =>
      match select vis t with Some _ => write_ok lk (in_array lk) u | None => false end
  | Class _ => false
  | Extended u fs =>
      match select vis t with
      | Some OUser =>
          forallb (fun f => fst f && declares (snd f) && write_ok lk all_overloads (snd f)) fs
      | Some _ => write_ok lk vis u
      | None => false
      end
  end.

(** Whether [t x;] compiles.
    (serialization.hpp 71; tuple.hpp 313.) *)
Fixpoint default_ok (t : element) : bool :=
  match t with
  | Arith _ => true
  | CArray u _ | StdArray u _ => default_ok u
  | Class d => d
  | Extended u _ => default_ok u
  end.

(** serialization.hpp 34-45 (array_t), 59-82: the type returned by [read_as<t>]. *)
Definition got (t : element) : element :=
  match t with
  | CArray u n => StdArray u n
  | _ => t
  end.

(** C arrays (serialization.hpp 77: they cannot be assigned to). *)
Definition is_c_array (t : element) : bool :=
  match base t with CArray _ _ => true | _ => false end.

(** serialization.hpp 59-86.  Lines 71 and 77: the array is default initialised,
    then its elements are assigned; no array can be assigned to, unless it is a
    [std::array]. *)
Fixpoint read_ok (lk : lookup) (vis : list overload) (t : element) : bool :=
  match t with
  | Arith _ => match select vis t with Some _ => true | None => false end
  | CArray u _ | StdArray u _ =>
      match select vis t with
      | Some _ => default_ok u && negb (is_c_array u) && read_ok lk (in_array lk) u
      | None => false
      end
  | Class _ => false
  | Extended u fs =>
      match select vis t with
      | Some OUser =>
          forallb (fun f => fst f && declares (snd f) && read_ok lk all_overloads (snd f)) fs
      | Some _ => read_ok lk vis u
      | None => false
      end
  end.

(** tuple.hpp 144-151 and 317, for an element of a tuple. *)
Definition set_compiles (lk : lookup) (t : element) : bool := declares t && write_ok lk all_overloads t.

(** tuple.hpp 131-138 *)
Definition get_compiles (lk : lookup) (t : element) : bool := declares t && read_ok lk all_overloads t.

(** tuple.hpp 313: the elements are value initialised, then serialized. *)
Definition default_compiles (lk : lookup) (t : element) : bool := set_compiles lk t && default_ok t.

(** ** invoke: tuple.hpp 38-48 and 160-185 *)

Definition arith_eqb (a b : arith) : bool :=
  match a, b with
  | Abool, Abool => true
  | Auns v, Auns w | Asig v, Asig w | Afloat v, Afloat w => v =? w
  | _, _ => false
  end.

(** Same type (tuple.hpp 38-48). *)
Fixpoint element_eqb (t u : element) : bool :=
  match t, u with
  | Arith a, Arith b => arith_eqb a b
  | CArray t' n, CArray u' k | StdArray t' n, StdArray u' k => element_eqb t' u' && (n =? k)
  | Class c, Class d => Bool.eqb c d
  | Extended t' fs, Extended u' gs =>
      element_eqb t' u'
      && (fix go fs gs :=
            match fs, gs with
            | [], [] => true
            | (a, f) :: fs', (b, g) :: gs' => Bool.eqb a b && element_eqb f g && go fs' gs'
            | _, _ => false
            end) fs gs
  | _, _ => false
  end.

(** The overloads of [normalize<Target>(x)], [x] being a temporary of type [t]:
    lines 38-41, then 42-48. *)
Definition normalize_array (target t : element) : bool :=
  match t with
  | StdArray u n => element_eqb target (CArray u n)
  | _ => false
  end.
(** tuple.hpp 42-48. *)
Definition normalize_other (target t : element) : bool :=
  is_serializable t && element_eqb (got t) target.

(** Whether [normalize<t>(get<I>())] compiles: exactly one of the overloads.
    (tuple.hpp 184.) *)
Definition normalizes (t : element) : bool :=
  xorb (normalize_array t (got t)) (normalize_other t (got t)).

(** What the functor is given, when [normalize<t>(get<I>())] compiles.
    (tuple.hpp 39 and 46: the type of the object the result refers to.) *)
Definition handed (t : element) : option element :=
  match normalize_array t (got t), normalize_other t (got t) with
  | true, false => match got t with StdArray u n => Some (CArray u n) | _ => None end
  | false, true => Some (got t)
  | _, _ => None
  end.

(** tuple.hpp 183-185. *)
Definition invoke_compiles (lk : lookup) (t : element) : bool := get_compiles lk t && normalizes t.

(** ** Callbacks *)

(** The type of a parameter or of a result.  A [const] parameter taken by value
    is a parameter taken by value.
    (key.hpp 67-68; action.hpp 158-160.) *)
Inductive passing : Type := ByValue | ByConst | ByRef | ByConstRef | ByRvalueRef.
(** A parameter or a result (same lines). *)
Definition passed : Type := (passing * element)%type.

(** Types which a function can be declared with: an array is only passed or
    returned by reference.
    (Language rule; key.hpp 67-68.) *)
Definition expressible (q : passed) : bool :=
  match fst q with ByValue | ByConst => negb (is_c_array (snd q)) | _ => true end.

(** Whether a parameter can be given a temporary (tuple.hpp 184). *)
Definition binds_temporary (q : passing) : bool :=
  match q with ByRef => false | _ => true end.

(** [None]: void.
    (key.hpp 67-68; action.hpp 158-160.) *)
Record callback : Type := mk_callback { cb_params : list passed; cb_ret : option passed }.

(** input_tuple.hpp 15-25, tuple.hpp 313 and 160-163: the tuple of the parameters
    without their qualifiers is made, then the callback is invoked. *)
Definition params_compile (lk : lookup) (c : callback) : bool :=
  forallb (fun q => default_compiles lk (snd q) && invoke_compiles lk (snd q) && binds_temporary (fst q)) (cb_params c).

(** tuple.hpp 86-89 *)
Definition unqualified (q : passing) : bool := match q with ByValue => true | _ => false end.

(** action.hpp 33-41, 52-70 and 107-111, flatten_tuple.hpp: [tuple<R>::size] is used, then a tuple is made from the
    result; its type is deduced by [make_tuple] (tuple.hpp 414-418). *)
Definition action_compiles (lk : lookup) (c : callback) : bool :=
  params_compile lk c
  && match cb_ret c with
     | None => true
     | Some (q, t) => unqualified q && declares t && set_compiles lk t
     end.

(** action.hpp 121-141: the type is deduced by [make_tuple]. *)
Definition no_storage_action_compiles (lk : lookup) (c : callback) : bool :=
  params_compile lk c
  && match cb_ret c with
     | None => true
     | Some (_, t) => set_compiles lk t
     end.

(** How an argument is given to a key.
    (key.hpp 109.) *)
Inductive argument : Type := Temporary | Modifiable | Constant.

(** key.hpp 109: the parameter is [const Args &]; [const] has no effect on a
    reference, and a reference to a reference is a reference. *)
Definition key_binds (q : passing) (a : argument) : bool :=
  match q, a with
  | ByValue, _ | ByConst, _ | ByConstRef, _ => true
  | ByRef, Modifiable | ByRvalueRef, Modifiable => true
  | _, _ => false
  end.

(** key.hpp 67-70 and 80: a class which has member functions returning an array
    is ill-formed. *)
Definition key_declares (c : callback) : bool :=
  match cb_ret c with Some (_, t) => negb (is_c_array t) | None => true end.

(** key.hpp 108-111, serialized_message.hpp 21 and 38: a tuple is made from the arguments. *)
Definition key_call_compiles (lk : lookup) (c : callback) (args : list argument) : bool :=
  key_declares c
  && (length args =? length (cb_params c))
  && forallb (fun x => set_compiles lk (snd (fst x)) && key_binds (fst (fst x)) (snd x)) (combine (cb_params c) args).

(** key.hpp 121-131 *)
Definition key_read_compiles (lk : lookup) (c : callback) : bool :=
  key_declares c
  && match cb_ret c with
     | None => true
     | Some (_, t) => default_compiles lk t && get_compiles lk t
     end.
