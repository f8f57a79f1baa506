(** Model of tuple.hpp.  No proofs in this file. *)

From Coq Require Import List ZArith Bool Arith.
From Verif Require Import Base CInt IntModel TypeLevel Serial.
Import ListNotations.
Open Scope nat_scope.

(** tuple.hpp 108: [size = sum<sizes_t>::value]. *)
Definition tuple_size (ts : list ty) : nat := sum17 (map serialization_size ts).

(** tuple.hpp 82-122, 225-249: the part shared by [tuple] and [tuple_view]: a
    format, a list of element types and the position of the first byte
    ([src()], [m_begin]) in a memory region. *)
Record view : Type := mk_view {
  v_kind : iterator_kind;
  v_e : endianess;
  v_m : signed_mode;
  v_types : list ty;
  v_begin : nat
}.

(** tuple.hpp 235, 241: [m_end] is [begin] advanced by [size]. *)
Definition v_end (v : view) : nat := v_begin v + tuple_size (v_types v).

Section TupleBase.
  Variable p : platform.

  (** tuple.hpp 131-138; the free function [get] (199-205) calls it. *)
  Definition get (v : view) (i : nat) (mem : list Z) : res val :=
    match at17 (v_types v) i with
    | None => Fault TypeMismatch
    | Some t =>
        o <- element_offset (v_types v) i;;
        read_at p (v_e v) (v_m v) (v_kind v) t mem (v_begin v + o)
    end.

  (** tuple.hpp 144-151; the free function [set] (213-216) calls it. *)
  Definition set (v : view) (i : nat) (x : val) (mem : list Z) : res (list Z) :=
    match at17 (v_types v) i with
    | None => Fault TypeMismatch
    | Some t =>
        o <- element_offset (v_types v) i;;
        write_at p (v_e v) (v_m v) (v_kind v) t x mem (v_begin v + o)
    end.

  (** tuple.hpp 168-172: [discard{0, (set<Is>(args), 0)...}]: in order. *)
  Fixpoint lay (v : view) (is : list nat) (args : list val) (mem : list Z) : res (list Z) :=
    match is, args with
    | [], [] => Ok mem
    | i :: is', a :: args' =>
        mem' <- set v i a mem;;
        lay v is' args' mem'
    | _, _ => Fault TypeMismatch
    end.

  (** The arguments [t.get<Is>()...] (tuple.hpp 177, 184).  C++ does not
      specify the order of their evaluation, which has no effect. *)
  Fixpoint get_each (v : view) (is : list nat) (mem : list Z) : res (list val) :=
    match is with
    | [] => Ok []
    | i :: is' =>
        x <- get v i mem;;
        xs <- get_each v is' mem;;
        Ok (x :: xs)
    end.

  (** tuple.hpp 175-178: the arguments of [lay] are all evaluated before the
      call.  The element types of both sides are the same (implicit conversions
      between element types: see Convert.v). *)
  Definition lay_tuple (dst src : view) (mem : list Z) : res (list Z) :=
    xs <- get_each src (make_index_sequence14 (length (v_types dst))) mem;;
    lay dst (make_index_sequence14 (length (v_types dst))) xs mem.

  (** tuple.hpp 160-163, 182-185.  The functor acts on an arbitrary world [X].
      [normalize] (38-48) turns [std::array] into a plain array of the same
      elements: the identity on values. *)
  Definition invoke {X A : Type} (v : view) (ftor : list val -> X -> X * A) (mem : list Z) (x : X)
      : res (X * A) :=
    args <- get_each v (make_index_sequence14 (length (v_types v))) mem;;
    Ok (ftor args x).

  (** ** tuple: owns [size] bytes of storage (tuple.hpp 398) *)

  (** The storage of a tuple seen as a memory region.
      tuple.hpp 328, 331, 354, 357: [src()] is [begin()] is [m_storage]. *)
  Definition tuple_at (e : endianess) (m : signed_mode) (ts : list ty) (begin : nat) : view :=
    mk_view Pointer e m ts begin.

  (** tuple.hpp 317, 324, 416-418: construct in the (uninitialised) storage
      [storage]. *)
  Definition construct (e : endianess) (m : signed_mode) (ts : list ty) (args : list val)
      (storage : list Z) : res (list Z) :=
    lay (tuple_at e m ts 0) (make_index_sequence14 (length ts)) args storage.

  (** [T{}].  Simplification: a value-initialised user object serializes to
      value-initialised fields.
      tuple.hpp 313. *)
  Fixpoint default_val (t : ty) : val :=
    match t with
    | TBool | TUns _ | TSig _ => VInt 0
    | TArr t' n => VList (repeat (default_val t') n)
    | TUser _ fs => VList (map default_val fs)
    end.

  (** tuple.hpp 313, 425-427 *)
  Definition default_construct (e : endianess) (m : signed_mode) (ts : list ty) (storage : list Z)
      : res (list Z) :=
    construct e m ts (map default_val ts) storage.

  (** tuple.hpp 328-337, 401-407: the bytes between [begin()] and [end()]. *)
  Definition content (v : view) (mem : list Z) : res (list Z) :=
    load_range mem (v_begin v) (v_end v - v_begin v).

  (** tuple.hpp 344-351: [operator[]], not checked. *)
  Definition byte_at (v : view) (i : nat) (mem : list Z) : res Z := load mem (v_begin v + i).

  (** [for (auto &byte : t) byte = src();] (documented reception loop, also in
      key.hpp 123-124, action.hpp 55-56): [k] bytes from position [pos] on.
      The source acts on an arbitrary world. *)
  Fixpoint fill {X : Type} (src : X -> res (X * Z)) (k pos : nat) (x : X) (mem : list Z)
      : res (X * list Z) :=
    match k with
    | 0 => Ok (x, mem)
    | S k' =>
        '(x', b) <- src x;;
        mem' <- store mem pos b;;
        fill src k' (S pos) x' mem'
    end.

  (** All the bytes between [begin()] and [end()] (tuple.hpp 328-337; loop
      of key.hpp 123-124, action.hpp 55-56). *)
  Definition fill_tuple {X : Type} (src : X -> res (X * Z)) (v : view) (x : X) (mem : list Z)
      : res (X * list Z) :=
    fill src (v_end v - v_begin v) (v_begin v) x mem.

  (** tuple.hpp 367-378, 382-395 and 277-294: [view<I, L>()].  [None]: does not
      compile.  The specialisation for no element (401-407) has no such member. *)
  Definition sub_view (v : view) (I L : nat) : option view :=
    match v_types v, clip17 (map serialization_size (v_types v)) 0 I, clip17 (v_types v) I L with
    | [], _, _ => None
    | _, Some sizes, Some ts =>
        Some (mk_view Pointer (v_e v) (v_m v) ts (v_begin v + sum17 sizes))
    | _, _, _ => None
    end.
End TupleBase.

(** ** Assignment *)

(** Type identity.
    Decides whether tuple.hpp 118 or the implicit assignment is used;
    [std::is_same] of dispatcher.hpp 157, 170, 183. *)
Fixpoint ty_eqb (a b : ty) : bool :=
  match a, b with
  | TBool, TBool => true
  | TUns v, TUns w => v =? w
  | TSig v, TSig w => v =? w
  | TArr t n, TArr u k => ty_eqb t u && (n =? k)
  | TUser s fs, TUser r gs =>
      (s =? r)
      && (fix go (l l' : list ty) : bool :=
            match l, l' with
            | [], [] => true
            | f :: l1, g :: l2 => ty_eqb f g && go l1 l2
            | _, _ => false
            end) fs gs
  | _, _ => false
  end.

(** Identity of the lists [Ts...] (tuple.hpp 81, 225, 303). *)
Fixpoint tys_eqb (l l' : list ty) : bool :=
  match l, l' with
  | [], [] => true
  | f :: l1, g :: l2 => ty_eqb f g && tys_eqb l1 l2
  | _, _ => false
  end.

(** Identity of the parameters [It] (tuple.hpp 225). *)
Definition iterator_kind_eqb (a b : iterator_kind) : bool :=
  match a, b with
  | Pointer, Pointer | Iterator, Iterator => true
  | _, _ => false
  end.

(** A [tuple] object, whose storage is at [v_begin], or a [tuple_view]
    object.
    tuple.hpp 225-249 and 303-407. *)
Inductive object : Type :=
| Tuple (v : view)
| View (v : view).

(** The [tuple_base] part (tuple.hpp 82) of either. *)
Definition object_view (o : object) : view :=
  match o with Tuple v | View v => v end.

(** How the right-hand side of an assignment is written: the name of a
    variable, of a constant, or a temporary (including [std::move(x)]).
    Decides how [Tuple] is deduced at tuple.hpp 118-119. *)
Inductive category : Type := Variable_ | Constant | Temporary.

(** Same C++ type: [tuple<E, S, Ts...>] or [tuple_view<It, E, S, Ts...>].
    tuple.hpp 225, 303. *)
Definition same_object_type (a b : object) : bool :=
  match a, b with
  | Tuple v, Tuple w | View v, View w =>
      iterator_kind_eqb (v_kind v) (v_kind w) && endianess_eqb (v_e v) (v_e w)
      && signed_mode_eqb (v_m v) (v_m w) && tys_eqb (v_types v) (v_types w)
  | _, _ => false
  end.

(** [using base_t::operator=] (tuple.hpp 231, 310).  It is not in the
    specialisation for no element (401-407), whose implicit assignment operators
    hide the one of the base class. *)
Definition has_template_assignment (o : object) : bool :=
  match o with
  | Tuple v => match v_types v with [] => false | _ => true end
  | View _ => true
  end.

(** [dst = src].  [None]: does not compile.

    - Same type: the implicitly defined copy / move assignment, preferred to
      the template [operator=] (tuple.hpp 118): copies the storage (398) of a
      tuple, the iterators (248) of a view.
    - Otherwise tuple.hpp 118-122: [template<typename Tuple, require_is_tuple<Tuple>>
      operator=(Tuple &&)].  For a variable or a constant of type [X], [Tuple]
      is deduced as [X &] or [const X &], for which [is_tuple]
      (is_tuple.hpp 23-28) is false: no viable overload.
    The element types of both sides are the same and [TArr] stands for
    [std::array] (see Convert.v for other cases).
    The result is the destination object and the memory. *)
Definition assign (p : platform) (c : category) (dst src : object) (mem : list Z)
    : option (res (object * list Z)) :=
  if same_object_type dst src then
    match dst with
    | Tuple v =>
        Some (bs <- load_range mem (v_begin (object_view src)) (tuple_size (v_types v));;
              mem' <- store_range mem (v_begin v) bs;;
              Ok (dst, mem'))
    | View v =>
        Some (Ok (View (mk_view (v_kind v) (v_e v) (v_m v) (v_types v) (v_begin (object_view src))), mem))
    end
  else
    match c with
    | Temporary =>
        if has_template_assignment dst then
          Some (mem' <- lay_tuple p (object_view dst) (object_view src) mem;; Ok (dst, mem'))
        else None
    | Variable_ | Constant => None
    end.
