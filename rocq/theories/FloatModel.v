(** Floating point types: [std::is_signed] is true of them, so that they go
    through the overloads meant for signed integers.

    The values are those of [Coq.Floats.SpecFloat] (IEEE 754, one NaN).  Not
    modelled: payloads of NaNs, rounding modes other than to nearest,
    evaluation in a wider format (FLT_EVAL_METHOD).

    No proofs in this file. *)

From Coq Require Import List ZArith Bool SpecFloat.
From Verif Require Import Base CInt IntModel.
Import ListNotations.
Open Scope Z_scope.

(** [sizeof(T)], number of bits of the significand, exponent of infinity.
    The types [T] for which [std::is_signed] of require.hpp 103 is true
    without being integers. *)
Record float_type : Type := mk_float { fl_size : nat; fl_prec : Z; fl_emax : Z }.

(** [float], [double] of most hosts.
    [float] (same lines). *)
Definition binary32 : float_type := mk_float 4 24 128.
(** [double] (same lines). *)
Definition binary64 : float_type := mk_float 8 53 1024.
(** [long double] of x86-64 hosts: 80 bits in 16 bytes.
    (Same lines.) *)
Definition x87_extended : float_type := mk_float 16 64 16384.

(** ** Object representation (IEEE 754, 3.4): sign, exponent, fraction.  The
    bytes are in the same order as those of integers.
    Number of bits of the fraction; seen by the [memcpy] of
    signed_representation.hpp 39, 71. *)
Definition fl_fraction (T : float_type) : Z := fl_prec T - 1.
(** Number of bits of the exponent (same lines). *)
Definition fl_exponent (T : float_type) : Z := bits (fl_size T) - fl_prec T.
(** The sign bit (same lines). *)
Definition fl_sign (T : float_type) (s : bool) : Z := if s then 2 ^ (bits (fl_size T) - 1) else 0.

(** The bits of a value, as copied by signed_representation.hpp 71. *)
Definition float_bits (T : float_type) (f : spec_float) : Z :=
  let unit := 2 ^ fl_fraction T in
  let special := (2 ^ fl_exponent T - 1) * unit in
  match f with
  | S754_zero s => fl_sign T s
  | S754_infinity s => fl_sign T s + special
  | S754_nan => special + unit / 2
  | S754_finite s m e =>
      fl_sign T s
      + (if Zpos m <? unit then Zpos m
         else (e - emin (fl_prec T) (fl_emax T) + 1) * unit + (Zpos m - unit))
  end.

(** The value of bits, as copied by signed_representation.hpp 39. *)
Definition bits_float (T : float_type) (z : Z) : spec_float :=
  let unit := 2 ^ fl_fraction T in
  let s := fl_sign T true <=? z in
  let r := z mod fl_sign T true in
  let x := r / unit in
  let frac := r mod unit in
  if x =? 2 ^ fl_exponent T - 1 then (if frac =? 0 then S754_infinity s else S754_nan)
  else if x =? 0 then
    match frac with Zpos m => S754_finite s m (emin (fl_prec T) (fl_emax T)) | _ => S754_zero s end
  else S754_finite s (Z.to_pos (frac + unit)) (x + emin (fl_prec T) (fl_emax T) - 1).

(** ** Conversions *)

(** [None]: infinite or NaN.
    The integer part, used by the casts of signed_representation.hpp 51, 55,
    64. *)
Definition truncate (f : spec_float) : option Z :=
  match f with
  | S754_zero _ => Some 0
  | S754_finite s m e =>
      let a := if 0 <=? e then Zpos m * 2 ^ e else Zpos m / 2 ^ (- e) in
      Some (if s then - a else a)
  | _ => None
  end.

(** [static_cast<unsigned long long>(f)].  Undefined if the truncated value does
    not fit: written [SignedOverflow].
    signed_representation.hpp 51, 55, 64. *)
Definition float_to_ull (f : spec_float) : res Z :=
  match truncate f with
  | Some z => if (0 <=? z) && (z <? 2 ^ bits 8) then Ok z else Fault SignedOverflow
  | None => Fault SignedOverflow
  end.

(** [T(z)], [z] being an integer.
    signed_representation.hpp 17, 22, 27, 32, 64. *)
Definition int_to_float (T : float_type) (z : Z) : spec_float :=
  binary_normalize (fl_prec T) (fl_emax T) z 0 false.

(** ** Acceptance: require.hpp 97-103

    [std::is_signed], [std::is_unsigned]: whether [T(-1) < T(0)]. *)
Definition float_is_signed (T : float_type) : bool := SFltb (int_to_float T (-1)) (int_to_float T 0).
(** require.hpp 99. *)
Definition float_is_unsigned (T : float_type) : bool := SFltb (int_to_float T 0) (int_to_float T (-1)).

(** serialization.hpp 182-190: an overload of [write_as] and one of [read_as]
    exist; their bodies are not instantiated by the check. *)
Definition float_is_serializable (T : float_type) : bool := float_is_signed T || float_is_unsigned T.

(** ** signed_representation.hpp, [T] being a floating point type

    [None]: does not compile ([~] of a floating point value, or a shift by more
    than the width of [unsigned long long] in a constant expression). *)

(** Lines 47-65 *)
Definition float_to_signed_mode_impl (T : float_type) (m : signed_mode) (f : spec_float) : option (res Z) :=
  let w := fl_size T in
  let nonnegative := SFleb (S754_zero false) f in
  match m with
  | SIGNED_MAGNITUDE =>
      if (8 <? w)%nat then None
      else Some (if nonnegative then float_to_ull f
                 else z <- float_to_ull (SFopp f);; Ok (c_or z (sign_mask w)))
  | ONES_COMPLEMENT =>
      Some (if nonnegative then float_to_ull f
            else z <- float_to_ull (SFopp f);; Ok (c_not ull z))
  | TWOS_COMPLEMENT => None
  | OFFSET_BINARY =>
      if (8 <? w)%nat then None
      else Some (float_to_ull (SFadd (fl_prec T) (fl_emax T) f (int_to_float T (sign_mask w))))
  end.

(** Lines 67-78.  The [memcpy] of line 71 writes [sizeof value] bytes in an
    [unsigned long long]. *)
Definition float_to_signed_mode (p : platform) (T : float_type) (m : signed_mode) (f : spec_float) : option (res Z) :=
  if native_signed_mode p m then
    Some (if (8 <? fl_size T)%nat then Fault OutOfBounds
          else obj_value p ull (overwrite (indet_bytes p 8) (obj_bytes p (CInt (fl_size T) false) (float_bits T f))))
  else float_to_signed_mode_impl T m f.

(** Lines 12-33 *)
Definition float_from_signed_mode_impl (T : float_type) (m : signed_mode) (value : Z) : option (res spec_float) :=
  let w := fl_size T in
  let negative := negb (c_and value (sign_mask w) =? 0) in
  if (8 <? w)%nat then None
  else
    Some (Ok (match m with
      | SIGNED_MAGNITUDE =>
          if negative then SFopp (int_to_float T (c_and value (magnitude_mask w))) else int_to_float T value
      | ONES_COMPLEMENT =>
          if negative then SFopp (int_to_float T (c_not ull value)) else int_to_float T value
      | TWOS_COMPLEMENT =>
          if negative then SFopp (int_to_float T ((c_not ull value + 1) mod 2 ^ bits 8)) else int_to_float T value
      | OFFSET_BINARY => int_to_float T ((value - sign_mask w) mod 2 ^ bits 8)
      end)).

(** Lines 35-45.  The [memcpy] of line 39 reads [sizeof retval] bytes of an
    [unsigned long long]. *)
Definition float_from_signed_mode (p : platform) (T : float_type) (m : signed_mode) (value : Z)
    : option (res spec_float) :=
  if native_signed_mode p m then
    Some (if (8 <? fl_size T)%nat then Fault OutOfBounds
          else z <- obj_value p (CInt (fl_size T) false) (firstn (fl_size T) (obj_bytes p ull value));;
               Ok (bits_float T z))
  else float_from_signed_mode_impl T m value.

(** ** serialization.hpp 63-68 and 131-136 *)

(** serialization.hpp 131-136. *)
Definition write_float (p : platform) (T : float_type) (e : endianess) (m : signed_mode) (f : spec_float)
    (mem : list Z) (off : nat) : option (res (list Z)) :=
  match float_to_signed_mode p T m f with
  | Some r => Some (tmp <- r;; to_endianess p ull e mem off tmp (fl_size T))
  | None => None
  end.

(** serialization.hpp 63-68. *)
Definition read_float (p : platform) (T : float_type) (e : endianess) (m : signed_mode) (mem : list Z) (off : nat)
    : option (res spec_float) :=
  match float_from_signed_mode p T m 0 with
  | None => None
  | Some _ =>
      Some (tmp <- from_endianess p ull e mem off (fl_size T);;
            match float_from_signed_mode p T m tmp with
            | Some r => r
            | None => Fault TypeMismatch
            end)
  end.
