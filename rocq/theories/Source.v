(** Transcription of detail/endianess.hpp, detail/signed_representation.hpp and of the
    overloads for integers of serialization.hpp 59-68, 127-136, line by line.  No
    proofs in this file. *)

From Coq Require Import List ZArith String.
From Verif Require Import Base CInt Cpp.
Import ListNotations.
Open Scope string_scope.
Open Scope list_scope.
Open Scope Z_scope.

(** Literals: [8], [0], [1], [0xff] have the type [int]. *)
Definition int (z : Z) : expr := Lit Int z.

(** [x++], [x += e] *)
Definition increment (x : string) : stmt := Assign x (Bin Add (Var x) (int 1)).
(** The same. *)
Definition add_to (x : string) (e : expr) : stmt := Assign x (Bin Add (Var x) e).

(** ** detail/endianess.hpp *)

(** Lines 18 and 29, 41, 48: [(const byte_t *raw_data, std::size_t n)] *)
Definition from_params : list param := [ToBytes "raw_data"; Object Size "n"].

(** Lines 17-27 (LITTLE), 28-37 (BIG) *)
Definition from_endianess_impl_src (T : cty) (e : endianess) : stmt :=
  match e with
  | LITTLE =>
      Auto "retval" (Cast (Param T) (int 0));;;
      Define Size "shift" (int 0);;;
      Define Size "i" (int 0);;;
      For (Bin Lt (Var "i") (Var "n")) (increment "i";;; add_to "shift" (int 8))
        (Assign "retval" (Cast (Param T)
           (Bin BitOr (Var "retval") (Bin Shl (Cast (Param T) (At "raw_data" (Var "i"))) (Var "shift")))));;;
      Return (Var "retval")
  | BIG =>
      Auto "retval" (Cast (Param T) (int 0));;;
      Define Unsigned "shift" (int 0);;;
      Define Size "i" (int 0);;;
      For (Bin Lt (Var "i") (Var "n")) (increment "i";;; add_to "shift" (int 8))
        (Assign "retval" (Cast (Param T)
           (Bin BitOr (Var "retval")
              (Bin Shl (Cast (Param T) (At "raw_data" (Bin Sub (Bin Sub (Var "n") (Var "i")) (int 1)))) (Var "shift")))));;;
      Return (Var "retval")
  end.

(** Lines 40-46, 47-50 *)
Definition from_endianess_src (p : platform) (T : cty) (e : endianess) : stmt :=
  if native_endianess p e then
    Auto "retval" (Cast (Param T) (int 0));;;
    CopyFrom "retval" "raw_data" (Var "n");;;
    Return (Var "retval")
  else
    ReturnCall (Param T) from_params (from_endianess_impl_src T e) [Pointer "raw_data"; Value (Var "n")].

(** Lines 54, 59: [(byte_t *raw_data, T x, std::size_t n)]; lines 66, 70: [const T &x] *)
Definition to_params (T : cty) : list param := [ToBytes "raw_data"; Object (Param T) "x"; Object Size "n"].

(** Lines 53-57 (LITTLE), 58-62 (BIG) *)
Definition to_endianess_impl_src (T : cty) (e : endianess) : stmt :=
  match e with
  | LITTLE =>
      Define Size "i" (int 0);;;
      For (Bin Lt (Var "i") (Var "n")) (increment "i";;; Assign "x" (Cast (Param T) (Bin Shr (Var "x") (int 8))))
        (AssignAt "raw_data" (Var "i") (Bin BitAnd (Var "x") (int 255)))
  | BIG =>
      Define Size "i" (int 0);;;
      For (Bin Lt (Var "i") (Var "n")) (increment "i";;; Assign "x" (Cast (Param T) (Bin Shr (Var "x") (int 8))))
        (AssignAt "raw_data" (Bin Sub (Bin Sub (Var "n") (Var "i")) (int 1)) (Bin BitAnd (Var "x") (int 255)))
  end.

(** Lines 65-68, 69-72 *)
Definition to_endianess_src (p : platform) (T : cty) (e : endianess) : stmt :=
  if native_endianess p e then
    CopyTo "raw_data" "x" (Var "n")
  else
    Call None None (to_params T) (to_endianess_impl_src T e) [Pointer "raw_data"; Value (Var "x"); Value (Var "n")].

(** ** detail/signed_representation.hpp *)

(** Lines 14, 20, 25, 30, 37, 43: [(unsigned long long value)] *)
Definition value_params : list param := [Object UnsignedLongLong "value"].

(** Lines 15, 21, 26, 50 (and 31, 63 where the name is [offset]):
    [0b10000000ull << 8 * (sizeof(T) - 1)] *)
Definition mask_src (T : cty) : expr :=
  Bin Shl (Lit UnsignedLongLong 128) (Bin Mul (int 8) (Bin Sub (SizeofType (Param T)) (int 1))).

(** Lines 13-33 *)
Definition from_signed_mode_impl_src (T : cty) (m : signed_mode) : stmt :=
  let value := Var "value" in
  let to_T := Cast (Param T) in
  match m with
  | SIGNED_MAGNITUDE =>
      Auto "sign_mask" (mask_src T);;;
      Auto "magnitude_mask"
        (Bin BitXor
           (Bin Shr (Un BitNot (Lit UnsignedLongLong 0))
              (Bin Mul (int 8) (Bin Sub (SizeofVar "value") (SizeofType (Param T)))))
           (Var "sign_mask"));;;
      Return (Cond (Bin BitAnd value (Var "sign_mask"))
                (to_T (Un Neg (to_T (Bin BitAnd value (Var "magnitude_mask"))))) (to_T value))
  | ONES_COMPLEMENT =>
      Auto "sign_mask" (mask_src T);;;
      Return (Cond (Bin BitAnd value (Var "sign_mask")) (to_T (Un Neg (to_T (Un BitNot value)))) (to_T value))
  | TWOS_COMPLEMENT =>
      Auto "sign_mask" (mask_src T);;;
      Return (Cond (Bin BitAnd value (Var "sign_mask"))
                (to_T (Un Neg (to_T (Bin Add (Un BitNot value) (int 1))))) (to_T value))
  | OFFSET_BINARY =>
      Auto "offset" (mask_src T);;;
      Return (to_T (Bin Sub value (Var "offset")))
  end.

(** Lines 36-41, 42-45 *)
Definition from_signed_mode_src (p : platform) (T : cty) (m : signed_mode) : stmt :=
  if native_signed_mode p m then
    Declare (Param T) "retval";;;
    Copy "retval" "value" (SizeofVar "retval");;;
    Return (Var "retval")
  else
    ReturnCall (Param T) value_params (from_signed_mode_impl_src T m) [Value (Var "value")].

(** Lines 49, 54, 58, 62, 69, 76: [(T value)] *)
Definition signed_params (T : cty) : list param := [Object (Param T) "value"].

(** Lines 48-65 *)
Definition to_signed_mode_impl_src (T : cty) (m : signed_mode) : stmt :=
  let value := Var "value" in
  let to_ull := Cast UnsignedLongLong in
  match m with
  | SIGNED_MAGNITUDE =>
      Auto "sign_mask" (mask_src T);;;
      Return (Cond (Bin Ge value (int 0)) (to_ull value) (Bin BitOr (to_ull (Un Neg value)) (Var "sign_mask")))
  | ONES_COMPLEMENT =>
      Return (Cond (Bin Ge value (int 0)) (to_ull value) (Un BitNot (to_ull (Un Neg value))))
  | TWOS_COMPLEMENT =>
      Return (Cond (Bin Ge value (int 0)) (to_ull value) (to_ull (Un BitNot (Bin Sub (Un Neg value) (int 1)))))
  | OFFSET_BINARY =>
      Auto "offset" (mask_src T);;;
      Return (to_ull (Bin Add value (Var "offset")))
  end.

(** Lines 68-74, 75-78 *)
Definition to_signed_mode_src (p : platform) (T : cty) (m : signed_mode) : stmt :=
  if native_signed_mode p m then
    Declare UnsignedLongLong "retval";;;
    Copy "retval" "value" (SizeofVar "value");;;
    Return (Var "retval")
  else
    ReturnCall UnsignedLongLong (signed_params T) (to_signed_mode_impl_src T m) [Value (Var "value")].

(** ** serialization.hpp *)

(** Lines 60, 64: [(const byte_t *sequence)] *)
Definition read_params : list param := [ToBytes "sequence"].

(** Lines 59-62 *)
Definition read_unsigned_src (p : platform) (T : cty) (e : endianess) : stmt :=
  ReturnCall (Param T) from_params (from_endianess_src p T e) [Pointer "sequence"; Value (SizeofType (Param T))].

(** Lines 63-68 *)
Definition read_signed_src (p : platform) (T : cty) (e : endianess) (m : signed_mode) : stmt :=
  Call (Some "tmp") (Some UnsignedLongLong) from_params (from_endianess_src p ull e)
    [Pointer "sequence"; Value (SizeofType (Param T))];;;
  ReturnCall (Param T) value_params (from_signed_mode_src p T m) [Value (Var "tmp")].

(** Lines 128, 132: [(const T &x, byte_t *sequence)] *)
Definition write_params (T : cty) : list param := [Object (Param T) "x"; ToBytes "sequence"].

(** Lines 127-130 *)
Definition write_unsigned_src (p : platform) (T : cty) (e : endianess) : stmt :=
  Call None None (to_params T) (to_endianess_src p T e) [Pointer "sequence"; Value (Var "x"); Value (SizeofVar "x")].

(** Lines 131-136 *)
Definition write_signed_src (p : platform) (T : cty) (e : endianess) (m : signed_mode) : stmt :=
  Call (Some "tmp") (Some UnsignedLongLong) (signed_params T) (to_signed_mode_src p T m) [Value (Var "x")];;;
  Call None None (to_params ull) (to_endianess_src p ull e) [Pointer "sequence"; Value (Var "tmp"); Value (SizeofVar "x")].

(** A call from outside: the value returned, the bytes. *)
Definition run_read (p : platform) (size_size fuel : nat) (body : stmt) (mem : list Z) (off : nat) : res Z :=
  r <- exec p size_size fuel body (mk_state [] [("sequence", off)] mem);;
  match r with Returned _ v => Ok v | Next _ => Fault TypeMismatch end.
(** The same for [void]. *)
Definition run_write (p : platform) (size_size fuel : nat) (body : stmt) (T : cty) (z : Z) (mem : list Z) (off : nat)
    : res (list Z) :=
  r <- exec p size_size fuel body (mk_state [("x", object p T z)] [("sequence", off)] mem);;
  match r with Next s => Ok (bytes s) | Returned _ _ => Fault TypeMismatch end.
