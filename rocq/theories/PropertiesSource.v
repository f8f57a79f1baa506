(** Property C97: the integer code as it is written, statement by statement, with the
    promotions and conversions of C++ inferred from the types of the operands. *)

From Coq Require Import List ZArith Bool Arith Lia ZifyBool ZifyNat.
From Verif Require Import Base CInt IntModel Spec Conditions TypeLevel Serial
  MemFacts IntProofs SignedProofs TypeLevelProofs SerialProofs CodecFacts Hosts PropertiesInt Cpp Source SourceProofs.
Import ListNotations.
Open Scope Z_scope.

(** Any host: [int] and [std::size_t] have from two to eight bytes. *)
Definition host_sizes (p : platform) (size_size : nat) : Prop :=
  (2 <= p_int_size p <= 8)%nat /\ (2 <= size_size <= 8)%nat.

(** The overload which is called for an integer type (serialization.hpp 59-68 and
    127-136). *)
Definition read_src (p : platform) (e : endianess) (m : signed_mode) (t : ty) : stmt :=
  match t with
  | TSig w => read_signed_src p (CInt w true) e m
  | TUns w => read_unsigned_src p (CInt w false) e
  | _ => read_unsigned_src p CBool e
  end.
Definition write_src (p : platform) (e : endianess) (m : signed_mode) (t : ty) : stmt :=
  match t with
  | TSig w => write_signed_src p (CInt w true) e m
  | TUns w => write_unsigned_src p (CInt w false) e
  | _ => write_unsigned_src p CBool e
  end.
Definition integer_cty (t : ty) : cty :=
  match t with TSig w => CInt w true | TUns w => CInt w false | _ => CBool end.

(** [bool] and the integer types. *)
Definition integer_ty (t : ty) : Prop :=
  match t with TBool => True | TUns w | TSig w => (1 <= w <= 8)%nat | _ => False end.

(** ** The statements do what the model says *)

(** Reading: the value, or the same fault. *)
Theorem C97_read : forall p size_size fuel e m t mem off,
  host_sizes p size_size -> (8 <= fuel)%nat -> integer_ty t ->
  read_as p e m t mem off
  = match run_read p size_size fuel (read_src p e m t) mem off with Ok z => Ok (VInt z) | Fault f => Fault f end.
Proof.
  intros p sz fuel e m t mem off [Hi Hs] Hf Ht. destruct t; cbn [integer_ty read_src read_as] in *; try contradiction.
  - rewrite read_unsigned_ok by (cbn; auto). change (csizeof CBool) with (sizeof TBool). destruct (from_endianess _ _ _ _ _ _); reflexivity.
  - rewrite read_unsigned_ok by (cbn; auto). cbn [csizeof sizeof]. destruct (from_endianess _ _ _ _ _ _); reflexivity.
  - rewrite read_signed_ok by (cbn; auto). cbn [csizeof sizeof]. destruct (from_endianess _ _ _ _ _ _); [|reflexivity].
    cbn [bind]. destruct (from_signed_mode _ _ _ _); reflexivity.
Qed.

(** Writing: the bytes, or the same fault. *)
Theorem C97_write : forall p size_size fuel e m t z mem off,
  host_sizes p size_size -> (8 <= fuel)%nat -> integer_ty t -> has_type t (VInt z) ->
  write_as p e m t (VInt z) mem off = run_write p size_size fuel (write_src p e m t) (integer_cty t) z mem off.
Proof.
  intros p sz fuel e m t z mem off [Hi Hs] Hf Ht Hz.
  destruct t; cbn [integer_ty write_src write_as has_type integer_cty] in *; try contradiction.
  - rewrite write_unsigned_ok; cbn [is_uns tmax]; auto. lia.
  - rewrite write_unsigned_ok; cbn [is_uns tmax]; auto. lia.
  - rewrite write_signed_ok; auto. apply conv_signed_range; lia.
Qed.

(** ** The statements meet the specification *)

(** Unsigned integers: the digits of the number, at the offset and nowhere else, and
    the number again. *)
Theorem C97_unsigned : forall p size_size fuel e m w z mem off,
  wf_platform p -> host_sizes p size_size -> (8 <= fuel)%nat -> (1 <= w <= 8)%nat -> 0 <= z < space w ->
  Forall is_byte mem -> (off + w <= length mem)%nat ->
  exists mem', run_write p size_size fuel (write_src p e m (TUns w)) (CInt w false) z mem off = Ok mem'
    /\ length mem' = length mem
    /\ (forall i, (i < w)%nat ->
          nth_error mem' (off + i) = Some ((z / 256 ^ Z.of_nat (digit_at e w i)) mod 256))
    /\ (forall j, (j < off \/ off + w <= j)%nat -> nth_error mem' j = nth_error mem j)
    /\ run_read p size_size fuel (read_src p e m (TUns w)) mem' off = Ok z.
Proof.
  intros p sz fuel e m w z mem off Hp Hh Hf Hw Hz Hb Hl.
  assert (U : unsigned_ty (TUns w)) by (right; eauto).
  assert (V : has_type (TUns w) (VInt z)) by (cbn; auto).
  destruct (C02_unsigned_wire_format p e m (TUns w) z mem off Hp U V Hl) as (mem' & H1 & H2 & H3 & H4).
  destruct (C01_unsigned_round_trip p e m (TUns w) (VInt z) mem off Hp U V Hb Hl) as (mem2 & R1 & R2).
  assert (mem2 = mem') by congruence. subst mem2.
  exists mem'. rewrite (C97_write p sz fuel) in H1 by auto. split; [exact H1|]. split; [exact H2|]. split; [exact H3|]. split; [exact H4|].
  rewrite (C97_read p sz fuel) in R2 by auto. destruct (run_read _ _ _ _ _ _); congruence.
Qed.

(** Signed integers: the code word of the number, on hosts where C03 and C04 hold. *)
Theorem C97_signed : forall p size_size fuel e m w z mem off,
  wf_platform p -> host_sizes p size_size -> (8 <= fuel)%nat -> (1 <= w <= 8)%nat -> sig_host_ok p e m w ->
  - half w < z < half w -> Forall is_byte mem -> (off + w <= length mem)%nat ->
  let mem' := splice mem off (wire_bytes e w (repr m w z)) in
  run_write p size_size fuel (write_src p e m (TSig w)) (CInt w true) z mem off = Ok mem'
  /\ run_read p size_size fuel (read_src p e m (TSig w)) mem' off = Ok z.
Proof.
  intros p sz fuel e m w z mem off Hp Hh Hf Hw Hs Hz Hb Hl mem'.
  pose proof (C04_signed_wire_format p e m w z mem off Hp Hw Hs Hz Hl) as H. fold mem' in H.
  destruct (C03_signed_round_trip p e m w z mem off Hp Hw Hs Hz Hb Hl) as (mem2 & R1 & R2).
  assert (mem2 = mem') by congruence. subst mem2. split.
  - rewrite (C97_write p sz fuel) in H by (cbn; auto; lia). exact H.
  - rewrite (C97_read p sz fuel) in R2 by auto. destruct (run_read _ _ _ _ _ _); congruence.
Qed.

Section InTime.
  Local Notation in_time r := (r <> Fault OutOfFuel).

  Lemma bind_in_time : forall A B (r : res A) (f : A -> res B), in_time r -> (forall x, in_time (f x)) -> in_time (bind r f).
  Proof. intros A B [x|g] f H1 H2; cbn; auto. congruence. Qed.
  Lemma load_in_time : forall mem i, in_time (load mem i).
  Proof. intros mem i. unfold load. destruct (nth_error mem i); discriminate. Qed.
  Lemma store_in_time : forall mem i b, in_time (store mem i b).
  Proof.
    induction mem as [|a mem IH]; intros i b; cbn [store]; [discriminate|]. destruct i; [discriminate|].
    apply bind_in_time; [apply IH|discriminate].
  Qed.
  Lemma load_range_in_time : forall n mem off, in_time (load_range mem off n).
  Proof.
    induction n as [|n IH]; intros mem off; cbn [load_range]; [discriminate|]. apply bind_in_time; [apply load_in_time|]. intros b.
    apply bind_in_time; [apply IH|discriminate].
  Qed.
  Lemma store_range_in_time : forall bs mem off, in_time (store_range mem off bs).
  Proof.
    induction bs as [|b bs IH]; intros mem off; cbn [store_range]; [discriminate|].
    apply bind_in_time; [apply store_in_time|]. intros. apply IH.
  Qed.
  Lemma arith_in_time : forall t z, in_time (arith t z).
  Proof. intros [|w [|]] z; cbn [arith]; try discriminate. destruct (_ && _); discriminate. Qed.
  Lemma obj_value_in_time : forall p t bs, in_time (obj_value p t bs).
  Proof. intros p [|w s] bs; unfold obj_value; cbv zeta; [|discriminate]. destruct (_ || _); discriminate. Qed.

  Lemma from_in_time : forall p T e mem off n, in_time (from_endianess p T e mem off n).
  Proof.
    intros p T e mem off n. unfold from_endianess. destruct (native_endianess p e).
    - apply bind_in_time; [apply load_range_in_time|]. intros bs. destruct (_ <? _)%nat; [discriminate|]. apply obj_value_in_time.
    - unfold from_endianess_impl. generalize n at 2. intros k. generalize (conv T 0). generalize 0. generalize 0%nat.
      induction k as [|k IH]; intros a b c; cbn [from_endianess_loop]; [discriminate|].
      apply bind_in_time; [apply load_in_time|]. intros x. apply bind_in_time.
      + unfold c_shl. destruct (_ <? _); [|discriminate]. destruct (promote p T) as [|w' [|]]; try apply arith_in_time.
        destruct (_ <? 0); [discriminate|apply arith_in_time].
      + intros. apply IH.
  Qed.

  Lemma to_in_time : forall p T e mem off x n, in_time (to_endianess p T e mem off x n).
  Proof.
    intros p T e mem off x n. unfold to_endianess. destruct (native_endianess p e).
    - destruct (_ <? _)%nat; [discriminate|]. apply store_range_in_time.
    - generalize n at 2. intros k. generalize 0%nat. revert mem x.
      induction k as [|k IH]; intros mem x i; cbn [to_endianess_loop]; [discriminate|].
      apply bind_in_time; [apply store_in_time|]. intros mem'. apply bind_in_time.
      + unfold c_shr. destruct (_ <? _); discriminate.
      + intros. apply IH.
  Qed.

  Lemma read_in_time : forall p e m t mem off, integer_ty t -> in_time (read_as p e m t mem off).
  Proof.
    intros p e m t mem off Ht. destruct t; cbn [integer_ty read_as] in *; try contradiction;
      (apply bind_in_time; [apply from_in_time|]; intros x); [discriminate|discriminate|].
    apply bind_in_time; [|discriminate]. unfold from_signed_mode. destruct (native_signed_mode p m); [apply obj_value_in_time|].
    unfold from_signed_mode_impl, c_neg, c_add, c_sub.
    destruct m; try (destruct (negb _); [|discriminate]); repeat (apply bind_in_time; [apply arith_in_time|intros]); discriminate.
  Qed.

  Lemma write_in_time : forall p e m t z mem off, integer_ty t -> in_time (write_as p e m t (VInt z) mem off).
  Proof.
    intros p e m t z mem off Ht. destruct t; cbn [integer_ty write_as] in *; try contradiction; try apply to_in_time.
    apply bind_in_time; [|intros; apply to_in_time]. unfold to_signed_mode. destruct (native_signed_mode p m); [apply obj_value_in_time|].
    unfold to_signed_mode_impl, c_neg, c_add, c_sub.
    destruct m; try (destruct (0 <=? z); [discriminate|]); repeat (apply bind_in_time; [apply arith_in_time|intros]); try discriminate; apply arith_in_time.
  Qed.
End InTime.

(** Every loop stops after at most eight turns; nothing depends on the size of
    [std::size_t]. *)
Theorem C97_loops : forall p size_size size_size' fuel fuel' e m t mem off,
  host_sizes p size_size -> host_sizes p size_size' -> (8 <= fuel)%nat -> (8 <= fuel')%nat -> integer_ty t ->
  run_read p size_size fuel (read_src p e m t) mem off = run_read p size_size' fuel' (read_src p e m t) mem off
  /\ run_read p size_size fuel (read_src p e m t) mem off <> Fault OutOfFuel
  /\ forall z, has_type t (VInt z) ->
       run_write p size_size fuel (write_src p e m t) (integer_cty t) z mem off
       = run_write p size_size' fuel' (write_src p e m t) (integer_cty t) z mem off
       /\ run_write p size_size fuel (write_src p e m t) (integer_cty t) z mem off <> Fault OutOfFuel.
Proof.
  intros p sz sz' fuel fuel' e m t mem off H H' Hf Hf' Ht.
  pose proof (C97_read p sz fuel e m t mem off H Hf Ht) as R.
  pose proof (C97_read p sz' fuel' e m t mem off H' Hf' Ht) as R'.
  split; [|split].
  - destruct (run_read p sz fuel _ _ _), (run_read p sz' fuel' _ _ _); congruence.
  - intros E. rewrite E in R. exact (read_in_time p e m t mem off Ht R).
  - intros z Hz. rewrite <- !C97_write by auto. split; [reflexivity|]. apply write_in_time. exact Ht.
Qed.

(** An AVR: [int] and [std::size_t] have two bytes; a [std::uint32_t] and the most
    negative [std::int16_t], which overflows. *)
Example C97_example :
  run_write avr_portable 2 8 (write_src avr_portable BIG TWOS_COMPLEMENT (TUns 4)) (CInt 4 false) 305419896 [9; 9; 9; 9; 9; 9] 1
    = Ok [9; 18; 52; 86; 120; 9]
  /\ run_read avr_portable 2 8 (read_src avr_portable BIG TWOS_COMPLEMENT (TUns 4)) [9; 18; 52; 86; 120; 9] 1 = Ok 305419896
  /\ run_write avr_portable 2 8 (write_src avr_portable LITTLE OFFSET_BINARY (TSig 2)) (CInt 2 true) (-2) [9; 9; 9] 1
    = Ok [9; 254; 127]
  /\ run_read avr_portable 2 8 (read_src avr_portable LITTLE OFFSET_BINARY (TSig 2)) [9; 254; 127] 1 = Ok (-2)
  /\ run_write avr_portable 2 8 (write_src avr_portable LITTLE TWOS_COMPLEMENT (TSig 2)) (CInt 2 true) (-32768) [9; 9; 9] 1
    = Fault SignedOverflow
  /\ run_write avr_portable 2 8 (write_src avr_portable LITTLE TWOS_COMPLEMENT (TUns 4)) (CInt 4 false) 7 [9; 9; 9] 1
    = Fault OutOfBounds
  /\ host_sizes avr_portable 2 /\ sig_host_ok avr_portable LITTLE OFFSET_BINARY 2.
Proof.
  do 6 (split; [vm_compute; reflexivity|]). unfold host_sizes, sig_host_ok. cbn. split; [lia|auto].
Qed.

(** Three turns are not enough for four bytes. *)
Example C97_example_fuel :
  run_read avr_portable 2 3 (read_src avr_portable BIG TWOS_COMPLEMENT (TUns 4)) [9; 18; 52; 86; 120; 9] 1 = Fault OutOfFuel.
Proof. vm_compute. reflexivity. Qed.

(** The rules of C++ the interpreter follows, beyond what these functions need: on a
    host with an [int] of four bytes, [-1 < 1u] is false, [-1 < 1] is true,
    [(unsigned char)200 * (unsigned char)200] is 40000,
    [(unsigned short)65535 * (unsigned short)65535] overflows, [0u - 1] is
    4294967295, [~(unsigned char)0] is -1, [(unsigned char)255 << 8] is 65280,
    [1 << 32] and [1 << -1] are undefined, [-1 >= 0u] is true, and
    [true ? -1 : 1u] is 4294967295. *)
Example C97_example_semantics :
  let value e := eval pc_native 8 (mk_state [] [] []) e in
  let char z := Lit (Param (CInt 1 false)) z in
  let short z := Lit (Param (CInt 2 false)) z in
  value (Bin Lt (Lit Int (-1)) (Lit Unsigned 1)) = Ok 0
  /\ value (Bin Lt (Lit Unsigned 1) (Lit Int (-1))) = Ok 1
  /\ value (Bin Lt (Lit Int (-1)) (Lit Int 1)) = Ok 1
  /\ value (Bin Ge (Lit Int (-1)) (Lit Unsigned 0)) = Ok 1
  /\ value (Bin Ge (Lit Unsigned 0) (Lit Int (-1))) = Ok 0
  /\ value (Bin Mul (char 200) (char 200)) = Ok 40000
  /\ value (Bin Mul (short 65535) (short 65535)) = Fault SignedOverflow
  /\ value (Bin Sub (Lit Unsigned 0) (Lit Int 1)) = Ok 4294967295
  /\ value (Un BitNot (char 0)) = Ok (-1)
  /\ value (Un Neg (Lit Unsigned 1)) = Ok 4294967295
  /\ value (Bin Shl (char 255) (Lit Int 8)) = Ok 65280
  /\ value (Bin Shl (Lit Int 1) (Lit Int 32)) = Fault BadShift
  /\ value (Bin Shl (Lit Int 1) (Lit Int (-1))) = Fault BadShift
  /\ value (Bin Shr (Lit Int 1) (Lit Int (-1))) = Fault BadShift
  /\ value (Bin BitAnd (Lit Int (-1)) (Lit Unsigned 4294967295)) = Ok 4294967295
  /\ value (Bin BitOr (Lit Int (-1)) (Lit Unsigned 0)) = Ok 4294967295
  /\ value (Bin BitXor (Lit Unsigned 1) (Lit Int (-1))) = Ok 4294967294
  /\ value (Cond (Lit Int 1) (Lit Int (-1)) (Lit Unsigned 1)) = Ok 4294967295
  /\ value (Cond (Lit Int 0) (Lit Unsigned 1) (Lit Int (-1))) = Ok 4294967295
  /\ value (Bin Lt (Cond (Lit Int 1) (char 1) (char 2)) (Lit Int (-1))) = Ok 0
  /\ value (SizeofType (Param (CInt 2 true))) = Ok 2.
Proof. cbv zeta. repeat (split; [vm_compute; reflexivity|]). vm_compute. reflexivity. Qed.

Print Assumptions C97_read.
Print Assumptions C97_write.
Print Assumptions C97_unsigned.
Print Assumptions C97_signed.
Print Assumptions C97_loops.
