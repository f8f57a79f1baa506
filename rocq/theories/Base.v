(** Common vocabulary: outcomes, bounds-checked byte memory, serialization
    formats, host platforms, serializable types and values.

    No proofs in this file. *)

From Coq Require Import List ZArith Bool.
Import ListNotations.
Open Scope Z_scope.

(** ** Outcomes

    Undefined behaviour (and the other ways an execution can go wrong) is a
    distinct outcome, never a default value.
    The faults are those the code of /repo could commit: out of bounds
    accesses at endianess.hpp 23-67 and dispatcher.hpp 193, overflow at
    signed_representation.hpp 17-59, shifts at endianess.hpp 23, 34, null
    dereferences at action.hpp 192-196, counters at buffered_dispatcher.hpp
    131-143. *)

Inductive fault : Type :=
| OutOfBounds      (* load or store outside of a byte region *)
| SignedOverflow   (* signed arithmetic leaving the range of its type *)
| BadShift         (* shift by at least the width of the promoted operand *)
| TrapRepr         (* object whose bytes represent no value of its type *)
| NullDeref        (* dereference of a null pointer *)
| NoInput          (* the byte source has nothing left *)
| CounterUnderflow (* decrement of an unsigned counter equal to zero *)
| OutOfFuel        (* a loop of the model ran out of fuel: proved impossible *)
| TypeMismatch.    (* ill-typed term: impossible in code which compiles *)

(** Outcome of a piece of code: a value or a fault.  No counterpart in
    /repo: C++ leaves these executions undefined. *)
Inductive res (A : Type) : Type :=
| Ok (a : A)
| Fault (f : fault).
Arguments Ok {A} a.
Arguments Fault {A} f.

(** Sequencing ([;] of C++): a fault ends the execution.  No counterpart in
    /repo. *)
Definition bind {A B : Type} (x : res A) (k : A -> res B) : res B :=
  match x with
  | Ok a => k a
  | Fault f => Fault f
  end.

Notation "x <- e ;; k" := (bind e (fun x => k))
  (at level 61, e at next level, right associativity).
Notation "' p <- e ;; k" := (bind e (fun p => k))
  (at level 61, p pattern, e at next level, right associativity).

(** ** Bytes and memory

    type.hpp: [using byte_t = unsigned char].  A byte is an integer of
    [0, 256); a memory region is the list of its bytes. *)

Definition is_byte (b : Z) : Prop := 0 <= b < 256.

(** [*(p + i)] as an rvalue.
    endianess.hpp 23, 34; serialization.hpp 91; immediate_process.hpp 48. *)
Definition load (mem : list Z) (i : nat) : res Z :=
  match nth_error mem i with
  | Some b => Ok b
  | None => Fault OutOfBounds
  end.

(** [*(p + i) = b].
    endianess.hpp 56, 61; serialization.hpp 156; immediate_process.hpp 55. *)
Fixpoint store (mem : list Z) (i : nat) (b : Z) : res (list Z) :=
  match mem, i with
  | [], _ => Fault OutOfBounds
  | _ :: mem', O => Ok (b :: mem')
  | a :: mem', S i' => mem'' <- store mem' i' b;; Ok (a :: mem'')
  end.

(** The bytes read by [memcpy(_, p + off, n)].
    endianess.hpp 43; also the copies of arrays of bytes of
    serialization.hpp 90-91. *)
Fixpoint load_range (mem : list Z) (off n : nat) : res (list Z) :=
  match n with
  | O => Ok []
  | S n' =>
      b <- load mem off;;
      bs <- load_range mem (S off) n';;
      Ok (b :: bs)
  end.

(** [memcpy(p + off, _, n)] where the source bytes are [bs].
    endianess.hpp 67; also the copies of arrays of bytes of
    serialization.hpp 155-156. *)
Fixpoint store_range (mem : list Z) (off : nat) (bs : list Z) : res (list Z) :=
  match bs with
  | [] => Ok mem
  | b :: bs' =>
      mem' <- store mem off b;;
      store_range mem' (S off) bs'
  end.

(** ** Formats: format.hpp 10-13 *)

Inductive endianess : Type := LITTLE | BIG.

(** format.hpp 13. *)
Inductive signed_mode : Type :=
| SIGNED_MAGNITUDE
| ONES_COMPLEMENT
| TWOS_COMPLEMENT
| OFFSET_BINARY.

(** [==] between two values of the enumeration of format.hpp 10 (used at
    endianess.hpp 17-69). *)
Definition endianess_eqb (a b : endianess) : bool :=
  match a, b with
  | LITTLE, LITTLE | BIG, BIG => true
  | _, _ => false
  end.

(** [==] between two values of the enumeration of format.hpp 13 (used at
    signed_representation.hpp 13-75). *)
Definition signed_mode_eqb (a b : signed_mode) : bool :=
  match a, b with
  | SIGNED_MAGNITUDE, SIGNED_MAGNITUDE
  | ONES_COMPLEMENT, ONES_COMPLEMENT
  | TWOS_COMPLEMENT, TWOS_COMPLEMENT
  | OFFSET_BINARY, OFFSET_BINARY => true
  | _, _ => false
  end.

(** ** Hosts

    The machine the code is compiled for, together with what the user declared
    about it through [UPD_PLATFORM_ENDIANESS] and [UPD_PLATFORM_SIGNED_MODE]
    (upd.hpp 15-33; [None] = macro not defined).

    Simplifications: [CHAR_BIT] = 8, [unsigned long long] has 8 bytes, the
    host represents signed integers in two's complement, integer types have
    neither padding bits nor mixed byte orders.  [p_indet i] is the
    indeterminate value of byte [i] of an uninitialised local object. *)
Record platform : Type := mk_platform {
  p_int_size : nat;
  p_endianess : endianess;
  p_decl_endianess : option endianess;
  p_decl_signed_mode : option signed_mode;
  p_indet : nat -> Z
}.

(** upd.hpp 17-22: [platform_info.endianess == E]; an undeclared endianess is
    an object whose [operator==] always yields [false]. *)
Definition native_endianess (p : platform) (e : endianess) : bool :=
  match p_decl_endianess p with
  | Some e' => endianess_eqb e' e
  | None => false
  end.

(** upd.hpp 25-32: [platform_info.signed_mode == S]. *)
Definition native_signed_mode (p : platform) (m : signed_mode) : bool :=
  match p_decl_signed_mode p with
  | Some m' => signed_mode_eqb m' m
  | None => false
  end.

(** Storage of [n] bytes which has not been initialised.
    signed_representation.hpp 70 ([unsigned long long retval;]),
    serialization.hpp 89, 152 ([byte_t buf[sizeof(T)]]), tuple.hpp 398
    ([m_storage]). *)
Definition indet_bytes (p : platform) (n : nat) : list Z :=
  map (p_indet p) (seq 0 n).

(** Possible hosts on which the two macros, if defined, tell the truth.
    What the comment of upd.hpp 11-14 asks of the user: the macros of
    upd.hpp 16-17, 25-26 equal what the compiler does. *)
Record wf_platform (p : platform) : Prop := {
  wf_int_size : (2 <= p_int_size p <= 8)%nat;
  wf_decl_endianess :
    p_decl_endianess p = None \/ p_decl_endianess p = Some (p_endianess p);
  wf_decl_signed_mode :
    p_decl_signed_mode p = None \/ p_decl_signed_mode p = Some TWOS_COMPLEMENT;
  wf_indet : forall i, is_byte (p_indet p i)
}.

(** ** Serializable types and values

    detail/serialization.hpp 59-86 and require.hpp 97-103: the types accepted
    by [read_as] / [write_as].

    - [TBool], [TUns w]: types with [std::is_unsigned] ([w] bytes);
    - [TSig w]: signed integers of [w] bytes (floating point types, which also
      satisfy [std::is_signed], are treated apart in FloatModel.v);
    - [TArr t n]: [T[n]] and [std::array<T, n>];
    - [TUser s fs]: a class type [T] with [sizeof(T) = s] for which
      [upd_extension<T>] is defined, [fs] being the parameter types of
      [upd_extension<T>::unserialize].  An object is identified with the list
      of the values of its fields: [serialize(x, view)] calls
      [view.set<I>(x_I)] for [I] = 0, 1, ... and [unserialize(x_0, x_1, ...)]
      rebuilds the object.  *)
Inductive ty : Type :=
| TBool
| TUns (w : nat)
| TSig (w : nat)
| TArr (t : ty) (n : nat)
| TUser (szof : nat) (fs : list ty).

(** Values of these types: an integer, or the list of the elements of an
    array or of the fields of an object (serialization.hpp 69-86, 137-149). *)
Inductive val : Type :=
| VInt (z : Z)
| VList (vs : list val).

(** C++ [sizeof].  [sizeof(std::array<T, n>)] is taken to be [n * sizeof(T)],
    and 1 when [n] is 0 (an empty class, as in the library of GCC; there is no
    [T[0]]). *)
Fixpoint sizeof (t : ty) : nat :=
  match t with
  | TBool => 1
  | TUns w => w
  | TSig w => w
  | TArr t n => match n with 0%nat => 1%nat | S _ => n * sizeof t end
  | TUser s _ => s
  end.
