(** The Python bindings: include/upd/python.hpp and py/unpadded/client.py.

    Modelled: what the bound methods do with their arguments, with the
    conversions of pybind11 between Python objects and C++ values.  Not
    modelled here: the generation of the module (names of the classes, regular
    expression of [demangle]: PyNames.v), the compilation of modules on import
    (hook.py: PyImport.v),
    the event loop ([await] is a function call), exceptions raised by Python
    callbacks (see Exceptions.v for a callback which throws).

    No proofs in this file. *)

From Coq Require Import List ZArith Bool Arith.
From Verif Require Import Base Spec Serial TypeLevel TupleModel SpecRpc Rpc Buffered.
Import ListNotations.
Open Scope Z_scope.

(** ** Python objects

    [PyInstance t v]: an instance of the class registered for the C++ user type
    [t], holding the C++ value [v].  [PyOther]: any other object, which
    converts to nothing and is not iterable.
    The objects given to and returned by the functions of python.hpp 77-103
    and 167-177. *)
Inductive pyval : Type :=
| PyNone
| PyBool (b : bool)
| PyInt (z : Z)
| PyBytes (bs : list Z)
| PyList (vs : list pyval)
| PyInstance (t : ty) (v : val)
| PyOther (n : nat).

(** [Undefined]: undefined behaviour of the C++ code.
    What python.hpp 77-103 and client.py 2-11 can raise (by pybind11 or by
    Python: no [throw] in these lines). *)
Inductive exception : Type := TypeError | CastError.
(** Outcome of a Python call (python.hpp 77-103; client.py 5-11). *)
Inductive pyres (A : Type) : Type :=
| Return (a : A)
| Raise (e : exception)
| Undefined (f : fault).
Arguments Return {A} a.
Arguments Raise {A} e.
Arguments Undefined {A} f.

(** ** Conversions of pybind11 (cast.h, stl.h)

    Integers are checked against the range of the C++ type; [bool]
    accepts booleans, [None] and integers; a list converts to [std::array] if the
    lengths agree.  [bytes] objects as arguments are not modelled: they convert
    or not to an array depending on the version of pybind11.  Two classes with
    the same size and the same fields are not distinguished. *)
Fixpoint to_cpp (t : ty) (v : pyval) : option val :=
  let int (lo hi : Z) (z : Z) := if (lo <=? z) && (z <? hi) then Some (VInt z) else None in
  match t, v with
  | TBool, PyBool b => Some (VInt (Z.b2z b))
  | TBool, PyInt z => Some (VInt (Z.b2z (negb (z =? 0))))
  | TBool, PyNone => Some (VInt 0)
  | TUns w, PyInt z => int 0 (2 ^ (8 * Z.of_nat w)) z
  | TUns w, PyBool b => int 0 (2 ^ (8 * Z.of_nat w)) (Z.b2z b)
  | TSig w, PyInt z => int (- 2 ^ (8 * Z.of_nat w - 1)) (2 ^ (8 * Z.of_nat w - 1)) z
  | TSig w, PyBool b => int (- 2 ^ (8 * Z.of_nat w - 1)) (2 ^ (8 * Z.of_nat w - 1)) (Z.b2z b)
  | TArr t n, PyList vs =>
      if Nat.eqb (length vs) n then
        option_map VList
          ((fix go (vs : list pyval) : option (list val) :=
              match vs with
              | [] => Some []
              | v :: vs' =>
                  match to_cpp t v, go vs' with
                  | Some c, Some cs => Some (c :: cs)
                  | _, _ => None
                  end
              end) vs)
      else None
  | TUser s fs, PyInstance u v => if ty_eqb (TUser s fs) u then Some v else None
  | _, _ => None
  end.

(** The arguments of a bound function, converted one by one (python.hpp 77,
    94). *)
Fixpoint to_cpp_list (ts : list ty) (vs : list pyval) : option (list val) :=
  match ts, vs with
  | [], [] => Some []
  | t :: ts', v :: vs' =>
      match to_cpp t v, to_cpp_list ts' vs' with
      | Some c, Some cs => Some (c :: cs)
      | _, _ => None
      end
  | _, _ => None
  end.

(** The conversion of a C++ value to a Python object (python.hpp 84-91,
    94-100): the inverse of [to_cpp]. *)
Fixpoint of_cpp (t : ty) (v : val) : pyval :=
  match t, v with
  | TBool, VInt z => PyBool (negb (z =? 0))
  | (TUns _ | TSig _), VInt z => PyInt z
  | TArr t _, VList vs => PyList (map (of_cpp t) vs)
  | TUser _ _, v => PyInstance t v
  | _, _ => PyNone
  end.

(** The arguments given to a Python callback (python.hpp 94-100). *)
Fixpoint of_cpp_list (ts : list ty) (vs : list val) : list pyval :=
  match ts, vs with
  | t :: ts', v :: vs' => of_cpp t v :: of_cpp_list ts' vs'
  | _, _ => []
  end.

(** ** Iterators of pybind11 (pytypes.h, class iterator)

    [value] is null until the iterator is advanced or dereferenced; it is null
    again once the iterator is exhausted. *)
Record pyiter : Type := mk_pyiter {
  it_rest : list pyval;
  it_value : option pyval
}.

(** [object.begin()]: [PyObject_GetIter].  [None]: not iterable.
    python.hpp 86. *)
Definition py_begin (v : pyval) : option pyiter :=
  match v with
  | PyBytes bs => Some (mk_pyiter (map PyInt bs) None)
  | PyList vs => Some (mk_pyiter vs None)
  | _ => None
  end.

(** [operator++]: [value = PyIter_Next(m_ptr)]
    python.hpp 88. *)
Definition py_advance (it : pyiter) : pyiter :=
  match it_rest it with
  | [] => mk_pyiter [] None
  | v :: vs => mk_pyiter vs (Some v)
  end.

(** [operator->]: the iterator is advanced if [value] is null.
    python.hpp 89. *)
Definition py_deref (it : pyiter) : pyiter * option pyval :=
  match it_value it with
  | Some v => (it, Some v)
  | None => let it' := py_advance it in (it', it_value it')
  end.

(** python.hpp 87-90: the byte getter of [decode].  Failing to cast is an
    exception, written [Fault NoInput].  Casting the null object left by an
    exhausted iterator is an exception too; some versions of pybind11
    dereference it while making the error message, which is not modelled. *)
Definition decode_source : source pyiter :=
  fun it =>
    let it1 := py_advance it in
    let (it2, v) := py_deref it1 in
    match v with
    | None => Fault NoInput
    | Some v =>
        match to_cpp (TUns 1) v with
        | Some (VInt z) => Ok (it2, z)
        | _ => Fault NoInput
        end
    end.

(** ** Keys: python.hpp 71-106 *)

Section Python.
  Variable p : platform.

  (** python.hpp 77-83.  [garbage]: the memory of the local array [buf], which
      has [payload_length] bytes. *)
  Definition py_encode (k : key) (args : list pyval) (garbage : list Z) : pyres pyval :=
    match to_cpp_list (sig_params (k_sig k)) args with
    | None => Raise TypeError
    | Some cargs =>
        let n := payload_length k in
        match key_write p k cargs array_destination (firstn n (garbage ++ repeat 0 n), O) with
        | Ok w => Return (PyBytes (fst w))
        | Fault f => Undefined f
        end
    end.

  (** python.hpp 84-91 *)
  Definition py_decode (k : key) (v : pyval) : pyres pyval :=
    match py_begin v with
    | None => Raise TypeError
    | Some it =>
        match key_read p k decode_source it with
        | Ok (_, Some r) =>
            Return (match sig_ret (k_sig k) with Some t => of_cpp t r | None => PyNone end)
        | Ok (_, None) => Return PyNone
        | Fault NoInput => Raise CastError
        | Fault f => Undefined f
        end
    end.

  (** python.hpp 92 *)
  Definition py_index (k : key) : pyval := PyInt (Z.of_nat (k_index k)).

  Context {S : Type}.

  (** A Python callback over the state [S].
      The parameter of python.hpp 93. *)
  Definition pyfunction : Type := list pyval -> S -> S * pyval.

  (** The lambda of python.hpp 94-100.  When the result does not convert to the
      return type an exception is raised: not modelled, any value is returned. *)
  Definition py_callback (sg : signature) (f : pyfunction) : func S :=
    mk_func sg (fun args s =>
      let (s', r) := f (of_cpp_list (sig_params sg) args) s in
      (s', match sig_ret sg with
           | None => VInt 0
           | Some t => match to_cpp t r with Some v => v | None => VInt 0 end
           end)).

  (** python.hpp 93-103 *)
  Definition py_make_action (k : key) (f : pyfunction) : action S :=
    Storage (Some (mk_model (k_e k) (k_m k) (py_callback (k_sig k) f))).

  (** ** Dispatchers: python.hpp 160-177 *)

  (** python.hpp 163, 166: [double_buffered_dispatcher] with [any_callback] *)
  Definition py_dispatcher (kr : keyring S) (g g' : list Z) : option (buffered S) := make_double kr ANY g g'.

  (** python.hpp 172-174.  The index, a [std::size_t], is converted to
      [index_t] by [operator[]] (buffered_dispatcher.hpp 252). *)
  Definition py_replace (b : buffered S) (k : key) (f : pyfunction) : res (buffered S) :=
    match py_index k with
    | PyInt z =>
        assign_buffered b (Z.to_nat (z mod 2 ^ (8 * Z.of_nat (index_length (b_dispatcher b))))) (py_make_action k f)
    | _ => Fault TypeMismatch
    end.

  (** ** client.py *)

  (** client.py 2-3: [NotImplemented] is not callable. *)
  Definition base_new_request (payload : pyval) (s : S) : pyres (S * pyval) := Raise TypeError.

  (** client.py 5-11.  [new_request] is the method of the derived class;
      [garbage] is that of [encode].  [type(response) == bytes] is false of
      instances of derived classes of [bytes]: they are [PyOther]. *)
  Definition py_call (new_request : pyval -> S -> pyres (S * pyval)) (k : key) (args : list pyval) (garbage : list Z)
      (s : S) : pyres (S * pyval) :=
    match py_encode k args garbage with
    | Return payload =>
        match new_request payload s with
        | Return (s', PyBytes bs) =>
            match py_decode k (PyBytes bs) with
            | Return v => Return (s', v)
            | Raise e => Raise e
            | Undefined f => Undefined f
            end
        | r => r
        end
    | Raise e => Raise e
    | Undefined f => Undefined f
    end.
End Python.
