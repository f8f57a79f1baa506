(** The fragment of C++ integer semantics the serialization code relies on:
    conversions, promotion, arithmetic and object representation.

    Operators take the type in which the operation is performed (after the
    usual arithmetic conversions, applied by hand at each use).  No proofs in
    this file. *)

From Coq Require Import List ZArith Bool.
From Verif Require Import Base.
Import ListNotations.
Open Scope Z_scope.

(** Arithmetic types: [bool] and integers of [w] bytes.
    The types [T] of endianess.hpp 17-72 and signed_representation.hpp
    13-78. *)
Inductive cty : Type :=
| CBool
| CInt (w : nat) (is_signed : bool).

(** [sizeof(T)] for these types (serialization.hpp 61, 65, 129, 135). *)
Definition csizeof (t : cty) : nat :=
  match t with
  | CBool => 1
  | CInt w _ => w
  end.

(** [unsigned long long]
    signed_representation.hpp 14, 49; serialization.hpp 65. *)
Definition ull : cty := CInt 8 false.

(** Number of bits of an integer of [w] bytes ([8 * sizeof(T)],
    signed_representation.hpp 15-16). *)
Definition bits (w : nat) : Z := 8 * Z.of_nat w.

(** Conversion of an integer value to a type ([static_cast], functional cast,
    assignment).  To [bool]: non-zero becomes [true].  To an unsigned type:
    modulo 2^bits.  To a signed type: modulo 2^bits too (implementation-defined
    before C++20, and what every mainstream compiler does). *)
Definition conv (t : cty) (z : Z) : Z :=
  match t with
  | CBool => if z =? 0 then 0 else 1
  | CInt w false => z mod 2 ^ bits w
  | CInt w true =>
      let r := z mod 2 ^ bits w in
      if r <? 2 ^ (bits w - 1) then r else r - 2 ^ bits w
  end.

(** Integral promotion: types narrower than [int] become [int].
    Applies to [T(raw_data[i]) << shift] and [x >> 8] (endianess.hpp 23, 34,
    55, 60) and to [-T(...)], [-value] (signed_representation.hpp 17, 22,
    27, 51, 55, 59). *)
Definition promote (p : platform) (t : cty) : cty :=
  match t with
  | CBool => CInt (p_int_size p) true
  | CInt w s => if (w <? p_int_size p)%nat then CInt (p_int_size p) true else CInt w s
  end.

(** Result of an arithmetic operation performed in type [t] (promoted):
    unsigned arithmetic wraps, signed arithmetic must not overflow.
    signed_representation.hpp 17, 22, 27, 32, 51, 55, 59, 64. *)
Definition arith (t : cty) (z : Z) : res Z :=
  match t with
  | CBool => Fault TypeMismatch
  | CInt w false => Ok (z mod 2 ^ bits w)
  | CInt w true =>
      if (- 2 ^ (bits w - 1) <=? z) && (z <? 2 ^ (bits w - 1))
      then Ok z else Fault SignedOverflow
  end.

(** [-a]
    signed_representation.hpp 17, 22, 27, 51, 55, 59. *)
Definition c_neg (t : cty) (a : Z) : res Z := arith t (- a).

(** [a + b], [a - b]
    signed_representation.hpp 27, 64. *)
Definition c_add (t : cty) (a b : Z) : res Z := arith t (a + b).
(** signed_representation.hpp 32, 59. *)
Definition c_sub (t : cty) (a b : Z) : res Z := arith t (a - b).

(** [~a]
    signed_representation.hpp 16, 22, 27, 55, 59. *)
Definition c_not (t : cty) (a : Z) : Z := conv t (Z.lnot a).

(** [a << s]: the shift count must be smaller than the width; for signed
    types the operand must be non-negative and the result representable.
    endianess.hpp 23, 34; signed_representation.hpp 15. *)
Definition c_shl (t : cty) (a : Z) (s : Z) : res Z :=
  if s <? bits (csizeof t) then
    match t with
    | CInt _ true => if a <? 0 then Fault SignedOverflow else arith t (Z.shiftl a s)
    | _ => arith t (Z.shiftl a s)
    end
  else Fault BadShift.

(** [a >> s]
    endianess.hpp 55, 60; signed_representation.hpp 16. *)
Definition c_shr (t : cty) (a : Z) (s : Z) : res Z :=
  if s <? bits (csizeof t) then Ok (Z.shiftr a s) else Fault BadShift.

(** [a & b], [a | b], [a ^ b] on operands of the same type.
    endianess.hpp 56, 61; signed_representation.hpp 17, 22, 27. *)
Definition c_and (a b : Z) : Z := Z.land a b.
(** endianess.hpp 23, 34; signed_representation.hpp 51. *)
Definition c_or (a b : Z) : Z := Z.lor a b.
(** signed_representation.hpp 16. *)
Definition c_xor (a b : Z) : Z := Z.lxor a b.

(** ** Object representation *)

(** Base 256 digits, least significant first.
    The object representation seen by the [memcpy] of endianess.hpp 43, 67
    and signed_representation.hpp 39, 71. *)
Fixpoint digits (w : nat) (z : Z) : list Z :=
  match w with
  | O => []
  | S w' => z mod 256 :: digits w' (z / 256)
  end.

(** The value of base 256 digits, least significant first (same lines). *)
Fixpoint undigits (bs : list Z) : Z :=
  match bs with
  | [] => 0
  | b :: bs' => b + 256 * undigits bs'
  end.

(** Bytes of an object of type [t] holding [z], in address order.  Negative
    values are represented in two's complement.
    endianess.hpp 67; signed_representation.hpp 39, 71. *)
Definition obj_bytes (p : platform) (t : cty) (z : Z) : list Z :=
  match p_endianess p with
  | LITTLE => digits (csizeof t) z
  | BIG => rev (digits (csizeof t) z)
  end.

(** Value of an object of type [t] made of the given bytes.  A [bool] whose
    byte is neither 0 nor 1 has no value.
    endianess.hpp 43-45; signed_representation.hpp 39-40, 71-73. *)
Definition obj_value (p : platform) (t : cty) (bs : list Z) : res Z :=
  let u := match p_endianess p with
           | LITTLE => undigits bs
           | BIG => undigits (rev bs)
           end in
  match t with
  | CBool => if (u =? 0) || (u =? 1) then Ok u else Fault TrapRepr
  | CInt _ _ => Ok (conv t u)
  end.

(** Bytes of an object after [memcpy(&object, src, n)], [src] being made of
    [n] bytes.
    endianess.hpp 43; signed_representation.hpp 71. *)
Definition overwrite (obj src : list Z) : list Z := src ++ skipn (length src) obj.
