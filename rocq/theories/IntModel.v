(** Model of detail/endianess.hpp and detail/signed_representation.hpp.

    No proofs in this file. *)

From Coq Require Import List ZArith Bool.
From Verif Require Import Base CInt.
Import ListNotations.
Open Scope Z_scope.

(** ** detail/endianess.hpp *)

(** Index of the byte accessed at iteration [i] out of [n]:
    [i] in the LITTLE overloads (lines 23, 56), [n - i - 1] in the BIG ones
    (lines 34, 61). *)
Definition byte_index (e : endianess) (n i : nat) : nat :=
  match e with
  | LITTLE => i
  | BIG => (n - i - 1)%nat
  end.

(** endianess.hpp 17-27 (LITTLE) and 28-37 (BIG): the loop of
    [from_endianess_impl<T, Endianess>(raw_data, n)], [k] iterations before
    the end.  [raw_data] is [mem + off].  The two overloads only differ by the
    index and by the type of [shift] (size_t / unsigned int, whose value never
    exceeds 64). *)
Fixpoint from_endianess_loop (p : platform) (T : cty) (e : endianess)
    (mem : list Z) (off n : nat) (k i : nat) (shift : Z) (retval : Z) : res Z :=
  match k with
  | O => Ok retval
  | S k' =>
      b <- load mem (off + byte_index e n i);;
      s <- c_shl (promote p T) (conv T b) shift;;
      from_endianess_loop p T e mem off n k' (S i) (shift + 8)
        (conv T (c_or retval s))
  end.

(** endianess.hpp 18-26 and 29-36: [retval] is [T(0)], [shift] is 0. *)
Definition from_endianess_impl (p : platform) (T : cty) (e : endianess)
    (mem : list Z) (off n : nat) : res Z :=
  from_endianess_loop p T e mem off n n 0 0 (conv T 0).

(** endianess.hpp 40-46 (native: [memcpy] into a zero-initialised [T]) and
    47-50 (portable).  Copying more than [sizeof(T)] bytes would be a buffer
    overflow. *)
Definition from_endianess (p : platform) (T : cty) (e : endianess)
    (mem : list Z) (off n : nat) : res Z :=
  if native_endianess p e then
    bs <- load_range mem off n;;
    if (csizeof T <? n)%nat then Fault OutOfBounds
    else obj_value p T (overwrite (obj_bytes p T (conv T 0)) bs)
  else from_endianess_impl p T e mem off n.

(** endianess.hpp 53-57 (LITTLE) and 58-62 (BIG): the loop of
    [to_endianess_impl<Endianess>(raw_data, x, n)]. *)
Fixpoint to_endianess_loop (p : platform) (T : cty) (e : endianess)
    (mem : list Z) (off n : nat) (k i : nat) (x : Z) : res (list Z) :=
  match k with
  | O => Ok mem
  | S k' =>
      mem' <- store mem (off + byte_index e n i) (conv (CInt 1 false) (c_and x 255));;
      x' <- c_shr (promote p T) x 8;;
      to_endianess_loop p T e mem' off n k' (S i) (conv T x')
  end.

(** endianess.hpp 65-68 (native: [memcpy] from [x]) and 69-72 (portable).
    Copying more than [sizeof(T)] bytes would read out of [x]. *)
Definition to_endianess (p : platform) (T : cty) (e : endianess)
    (mem : list Z) (off : nat) (x : Z) (n : nat) : res (list Z) :=
  if native_endianess p e then
    if (csizeof T <? n)%nat then Fault OutOfBounds
    else store_range mem off (firstn n (obj_bytes p T x))
  else to_endianess_loop p T e mem off n n 0 x.

(** ** detail/signed_representation.hpp

    [w] is [sizeof(T)], [T] being the signed integer type. *)

(** Lines 15, 21, 26, 50: [0b10000000ull << 8 * (sizeof(T) - 1)]; also the
    [offset] of lines 31, 63. *)
Definition sign_mask (w : nat) : Z :=
  Z.shiftl 128 (bits (w - 1)) mod 2 ^ bits 8.

(** Line 16: [(~0ull >> 8 * (sizeof(value) - sizeof(T))) ^ sign_mask]. *)
Definition magnitude_mask (w : nat) : Z :=
  c_xor (Z.shiftr (c_not ull 0) (bits (8 - w))) (sign_mask w).

(** Lines 13-33: the four overloads of [from_signed_mode_impl<T, Signed_Mode>].
    [value] is an [unsigned long long]; [-T(...)] is computed in the promoted
    type of [T]. *)
Definition from_signed_mode_impl (p : platform) (w : nat) (m : signed_mode)
    (value : Z) : res Z :=
  let T := CInt w true in
  match m with
  | SIGNED_MAGNITUDE =>
      if negb (c_and value (sign_mask w) =? 0) then
        r <- c_neg (promote p T) (conv T (c_and value (magnitude_mask w)));;
        Ok (conv T r)
      else Ok (conv T value)
  | ONES_COMPLEMENT =>
      if negb (c_and value (sign_mask w) =? 0) then
        r <- c_neg (promote p T) (conv T (c_not ull value));;
        Ok (conv T r)
      else Ok (conv T value)
  | TWOS_COMPLEMENT =>
      if negb (c_and value (sign_mask w) =? 0) then
        s <- c_add ull (c_not ull value) 1;;
        r <- c_neg (promote p T) (conv T s);;
        Ok (conv T r)
      else Ok (conv T value)
  | OFFSET_BINARY =>
      d <- c_sub ull value (sign_mask w);;
      Ok (conv T d)
  end.

(** Lines 36-41 (native: [memcpy] of the first [sizeof(T)] bytes of [value])
    and 42-45. *)
Definition from_signed_mode (p : platform) (w : nat) (m : signed_mode)
    (value : Z) : res Z :=
  if native_signed_mode p m then
    obj_value p (CInt w true) (firstn w (obj_bytes p ull value))
  else from_signed_mode_impl p w m value.

(** Lines 48-65: the four overloads of [to_signed_mode_impl<Signed_Mode>(T)].
    [-value] is computed in the promoted type of [T]; [value + offset] is
    computed in [unsigned long long]. *)
Definition to_signed_mode_impl (p : platform) (w : nat) (m : signed_mode)
    (value : Z) : res Z :=
  let T := CInt w true in
  match m with
  | SIGNED_MAGNITUDE =>
      if 0 <=? value then Ok (conv ull value)
      else
        n <- c_neg (promote p T) value;;
        Ok (c_or (conv ull n) (sign_mask w))
  | ONES_COMPLEMENT =>
      if 0 <=? value then Ok (conv ull value)
      else
        n <- c_neg (promote p T) value;;
        Ok (c_not ull (conv ull n))
  | TWOS_COMPLEMENT =>
      if 0 <=? value then Ok (conv ull value)
      else
        n <- c_neg (promote p T) value;;
        d <- c_sub (promote p T) n 1;;
        Ok (conv ull (c_not (promote p T) d))
  | OFFSET_BINARY =>
      c_add ull (conv ull value) (sign_mask w)
  end.

(** Lines 68-74 (native: [memcpy] of the bytes of [value] at the start of an
    uninitialised [unsigned long long]) and 75-78. *)
Definition to_signed_mode (p : platform) (w : nat) (m : signed_mode)
    (value : Z) : res Z :=
  if native_signed_mode p m then
    obj_value p ull (overwrite (indet_bytes p 8) (obj_bytes p (CInt w true) value))
  else to_signed_mode_impl p w m value.
