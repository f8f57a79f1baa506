(** Property C52: types accepted by [is_serializable] and floating point values. *)

From Coq Require Import List ZArith Lia Bool Arith SpecFloat.
From Verif Require Import Base CInt Spec IntModel Conditions MemFacts IntProofs SignedProofs FloatModel Hosts.
Import ListNotations.
Open Scope Z_scope.

(** ** Object representation *)

(** IEEE 754 interchange formats. *)
Record ieee (T : float_type) : Prop := {
  ieee_prec : 2 <= fl_prec T;
  ieee_exponent : 2 <= fl_exponent T;
  ieee_emax : fl_emax T = 2 ^ (fl_exponent T - 1);
  ieee_size : (1 <= fl_size T <= 8)%nat
}.

Lemma ieee_binary32 : ieee binary32.
Proof. constructor; vm_compute; try discriminate; auto. split; repeat constructor. Qed.
Lemma ieee_binary64 : ieee binary64.
Proof. constructor; vm_compute; try discriminate; auto. split; repeat constructor. Qed.

Lemma digits2_pos_bounds : forall m, 2 ^ (Zpos (digits2_pos m) - 1) <= Zpos m < 2 ^ Zpos (digits2_pos m).
Proof.
  induction m as [m IH|m IH|]; cbn [digits2_pos]; rewrite ?Pos2Z.inj_succ.
  1,2: replace (Z.succ (Zpos (digits2_pos m)) - 1) with (Z.succ (Zpos (digits2_pos m) - 1)) by lia;
       rewrite !Z.pow_succ_r by lia; rewrite ?(Pos2Z.inj_xI m), ?(Pos2Z.inj_xO m); lia.
  cbn. lia.
Qed.

Definition representable (T : float_type) (f : spec_float) : Prop := valid_binary (fl_prec T) (fl_emax T) f = true.

Section Bits.
  Variable T : float_type.
  Hypothesis HT : ieee T.

  Lemma bits_split : forall s r, 0 <= r < fl_sign T true ->
    (fl_sign T true <=? fl_sign T s + r) = s /\ (fl_sign T s + r) mod fl_sign T true = r.
  Proof.
    intros s r Hr. unfold fl_sign in *. destruct s.
    - split; [apply Z.leb_le; lia|]. rewrite Z.add_mod by lia. rewrite Z.mod_same by lia.
      rewrite Z.add_0_l, Z.mod_mod by lia. apply Z.mod_small. lia.
    - split; [apply Z.leb_gt; lia|]. rewrite Z.add_0_l. apply Z.mod_small. lia.
  Qed.

  Lemma sign_unit : fl_sign T true = 2 ^ fl_exponent T * 2 ^ fl_fraction T.
  Proof.
    destruct HT. unfold fl_sign, fl_exponent, fl_fraction in *. rewrite <- Z.pow_add_r by lia. f_equal. lia.
  Qed.

  Lemma unit_pos : 0 < 2 ^ fl_fraction T.
  Proof. destruct HT. apply Z.pow_pos_nonneg; unfold fl_fraction; lia. Qed.

  Lemma exponents : 4 <= 2 ^ fl_exponent T /\ 2 ^ fl_exponent T = 2 * fl_emax T.
  Proof.
    destruct HT. split.
    - change 4 with (2 ^ 2). apply Z.pow_le_mono_r; lia.
    - rewrite ieee_emax0. rewrite <- Z.pow_succ_r by lia. f_equal. lia.
  Qed.

  (** Every value is recovered from its bits. *)
  Theorem C52_bits : forall f, representable T f ->
    0 <= float_bits T f < space (fl_size T) /\ bits_float T (float_bits T f) = f.
  Proof.
    intros f Hf. pose proof unit_pos as Hu. pose proof exponents as [Hx He]. pose proof sign_unit as Hsu.
    set (unit := 2 ^ fl_fraction T) in *.
    assert (Hspace : space (fl_size T) = 2 * fl_sign T true).
    { rewrite space_pow2. unfold fl_sign. rewrite <- Z.pow_succ_r. f_equal; lia. destruct HT. unfold bits. lia. }
    assert (G : forall s r, 0 <= r < fl_sign T true -> 0 <= fl_sign T s + r < space (fl_size T)).
    { intros s r Hr. rewrite Hspace. unfold fl_sign at 1 3. unfold fl_sign in Hr. destruct s; unfold fl_sign; lia. }
    assert (D : forall s x frac, 0 <= x < 2 ^ fl_exponent T -> 0 <= frac < unit ->
      0 <= fl_sign T s + (x * unit + frac) < space (fl_size T)
      /\ bits_float T (fl_sign T s + (x * unit + frac)) =
         if x =? 2 ^ fl_exponent T - 1 then (if frac =? 0 then S754_infinity s else S754_nan)
         else if x =? 0 then
           match frac with Zpos m => S754_finite s m (emin (fl_prec T) (fl_emax T)) | _ => S754_zero s end
         else S754_finite s (Z.to_pos (frac + unit)) (x + emin (fl_prec T) (fl_emax T) - 1)).
    { intros s x frac Hxr Hfr.
      assert (Hr : 0 <= x * unit + frac < fl_sign T true) by (rewrite Hsu; nia).
      split; [apply G; exact Hr|]. unfold bits_float. fold unit.
      destruct (bits_split s _ Hr) as [-> ->].
      replace ((x * unit + frac) / unit) with x
        by (symmetry; rewrite Z.add_comm, Z.div_add by lia; rewrite Z.div_small by lia; lia).
      replace ((x * unit + frac) mod unit) with frac
        by (symmetry; rewrite Z.add_comm, Z.mod_add by lia; apply Z.mod_small; lia).
      reflexivity. }
    destruct f as [s|s| |s m e]; unfold float_bits; fold unit.
    - specialize (D s 0 0 ltac:(lia) ltac:(lia)). rewrite Z.mul_0_l, !Z.add_0_r in D.
      destruct D as [D1 ->]. split; [exact D1|].
      destruct (Z.eqb_spec 0 (2 ^ fl_exponent T - 1)); [lia|]. reflexivity.
    - specialize (D s (2 ^ fl_exponent T - 1) 0 ltac:(lia) ltac:(lia)). rewrite Z.add_0_r in D.
      destruct D as [D1 ->]. split; [exact D1|]. rewrite !Z.eqb_refl. reflexivity.
    - assert (Hh : 0 < unit / 2 < unit).
      { unfold unit, fl_fraction in *. destruct HT. replace (fl_prec T - 1) with (Z.succ (fl_prec T - 2)) by lia.
        rewrite Z.pow_succ_r by lia. rewrite Z.mul_comm, Z.div_mul by lia.
        pose proof (Z.pow_pos_nonneg 2 (fl_prec T - 2)). lia. }
      specialize (D false (2 ^ fl_exponent T - 1) (unit / 2) ltac:(lia) ltac:(lia)).
      change (fl_sign T false) with 0 in D. rewrite !Z.add_0_l in D. destruct D as [D1 ->]. split; [exact D1|].
      rewrite Z.eqb_refl. destruct (Z.eqb_spec (unit / 2) 0); [lia|reflexivity].
    - unfold representable, valid_binary, bounded, canonical_mantissa in Hf. apply andb_prop in Hf. destruct Hf as [H1 H2].
      apply Zeq_bool_eq in H1. apply Zle_bool_imp_le in H2. unfold fexp in H1.
      pose proof (digits2_pos_bounds m) as Hd. set (d := Zpos (digits2_pos m)) in *.
      assert (Hunit2 : 2 * unit = 2 ^ fl_prec T).
      { unfold unit, fl_fraction. rewrite <- Z.pow_succ_r by (destruct HT; lia). f_equal. lia. }
      assert (Hm : Zpos m < 2 * unit).
      { rewrite Hunit2. eapply Z.lt_le_trans; [apply Hd|]. apply Z.pow_le_mono_r; lia. }
      destruct (Z.ltb_spec (Zpos m) unit) as [Hsub|Hnorm].
      + assert (Ee : e = emin (fl_prec T) (fl_emax T)).
        { assert (d < fl_prec T); [|lia]. apply Z.nle_gt. intros Hge.
          assert (unit <= 2 ^ (d - 1)) by (apply Z.pow_le_mono_r; unfold fl_fraction; lia). lia. }
        specialize (D s 0 (Zpos m) ltac:(lia) ltac:(lia)). rewrite Z.mul_0_l, Z.add_0_l in D.
        destruct D as [D1 ->]. split; [exact D1|].
        destruct (Z.eqb_spec 0 (2 ^ fl_exponent T - 1)); [lia|]. cbn. congruence.
      + assert (Hemin : emin (fl_prec T) (fl_emax T) <= e) by lia.
        assert (Hdef : emin (fl_prec T) (fl_emax T) = 3 - fl_emax T - fl_prec T) by reflexivity.
        specialize (D s (e - emin (fl_prec T) (fl_emax T) + 1) (Zpos m - unit) ltac:(lia) ltac:(lia)).
        destruct D as [D1 ->]. split; [exact D1|].
        destruct (Z.eqb_spec (e - emin (fl_prec T) (fl_emax T) + 1) (2 ^ fl_exponent T - 1)); [lia|].
        destruct (Z.eqb_spec (e - emin (fl_prec T) (fl_emax T) + 1) 0); [lia|].
        replace (Zpos m - unit + unit) with (Zpos m) by lia. cbn [Z.to_pos]. f_equal. lia.
  Qed.
End Bits.

(** ** Native signed mode: the bits are copied

    Full statement (C52): every value of every accepted type is recovered.
    Missing: the other signed modes and the types larger than eight bytes, for
    which it is false (C52_floats_refuted). *)

Theorem C52_float_native_partial : forall p T e m f mem off,
  wf_platform p -> ieee T -> representable T f -> native_signed_mode p m = true ->
  sig_host_ok p e m (fl_size T) -> (off + fl_size T <= length mem)%nat -> Forall is_byte mem ->
  let mem' := splice mem off (wire_bytes e (fl_size T) (float_bits T f)) in
  write_float p T e m f mem off = Some (Ok mem')
  /\ read_float p T e m mem' off = Some (Ok f).
Proof.
  intros p T e m f mem off Hp HT Hf Hm Hhost Hlen Hmem mem'.
  destruct (C52_bits T HT f Hf) as [Hb Hbits]. destruct HT as [_ _ _ Hs].
  set (w := fl_size T) in *. set (b := float_bits T f) in *.
  set (z := conv (CInt w true) b).
  assert (Hz : - half w <= z < half w) by (apply conv_signed_bounds; lia).
  assert (Hzb : z mod space w = b).
  { unfold z. rewrite conv_signed_mod by lia. apply Z.mod_small. auto. }
  pose proof (native_signed_mode_eq p m Hp Hm) as Em.
  assert (Hrepr : wire_bytes e w (repr m w z) = wire_bytes e w b).
  { rewrite Em, !wire_bytes_digits. rewrite <- digits_twos by (auto; lia).
    rewrite <- (digits_mod w z), Hzb. reflexivity. }
  assert (Hobj : obj_bytes p (CInt w false) b = obj_bytes p (CInt w true) z).
  { unfold obj_bytes. cbn [csizeof]. rewrite <- (digits_mod w z), Hzb. reflexivity. }
  assert (Henc : sig_encodable p m w z).
  { right. rewrite Em. cbn [min_ok]. right. rewrite <- Em. exact Hm. }
  assert (H8 : (8 <? w)%nat = false) by (apply Nat.ltb_ge; lia).
  split.
  - pose proof (write_signed_ok p e m w z mem off Hp Hs Hz Hhost Henc Hlen) as Hw.
    unfold to_signed_mode in Hw. rewrite Hm in Hw.
    unfold write_float, float_to_signed_mode. fold w. rewrite Hm, H8. fold b. rewrite Hobj, Hw, Hrepr. reflexivity.
  - assert (Hl' : (off + w <= length mem')%nat) by (unfold mem'; rewrite splice_length; [lia|rewrite wire_bytes_length; lia]).
    assert (Hb' : Forall is_byte mem').
    { unfold mem'. apply Forall_splice; auto. apply wire_bytes_bytes. }
    pose proof (read_signed_eq p e m w mem' off Hp Hs Hhost Hl' Hb') as Hr. cbv zeta in Hr.
    unfold read_float, float_from_signed_mode. fold w. rewrite Hm, H8.
    unfold from_signed_mode in Hr. rewrite Hm in Hr.
    destruct (from_endianess p ull e mem' off w) as [tmp|flt]; cbn [bind] in *.
    + assert (E : conv (CInt w true) (match p_endianess p with LITTLE => undigits (firstn w (obj_bytes p ull tmp))
                                  | BIG => undigits (rev (firstn w (obj_bytes p ull tmp))) end)
                  = unrepr TWOS_COMPLEMENT w (wire_value e (slice mem' off w))).
      { rewrite Em in Hr. rewrite andb_false_r in Hr. unfold obj_value in Hr. congruence. }
      assert (Ew : wire_value e (slice mem' off w) = b).
      { unfold mem'. replace w with (length (wire_bytes e w b)) at 2 by apply wire_bytes_length.
        rewrite slice_splice_same by (rewrite ?wire_bytes_length; lia).
        rewrite wire_value_bytes. apply Z.mod_small. auto. }
      rewrite Ew in E. rewrite <- conv_twos in E by (auto; lia).
      unfold obj_value. cbn [bind]. do 2 f_equal. rewrite conv_unsigned.
      apply (f_equal (fun z => z mod space w)) in E. rewrite !conv_signed_mod in E by lia.
      rewrite E, (Z.mod_small b) by auto. exact Hbits.
    + rewrite Em in Hr. rewrite andb_false_r in Hr. discriminate.
Qed.

(** ** The other signed modes: the values are converted to integers *)

(** Floating point types are accepted. *)
Theorem C52_float_accepted : float_is_serializable binary32 = true /\ float_is_serializable binary64 = true
  /\ float_is_serializable x87_extended = true.
Proof. repeat split; vm_compute; reflexivity. Qed.

(** In signed magnitude, every number strictly between -1 and 1 is read back as
    zero, its sign excepted. *)
Theorem C52_float_lost : forall p T e s mant expo mem off,
  wf_platform p -> ieee T -> expo < 0 -> Zpos mant < 2 ^ (- expo) -> native_signed_mode p SIGNED_MAGNITUDE = false ->
  sig_host_ok p e SIGNED_MAGNITUDE (fl_size T) -> (off + fl_size T <= length mem)%nat -> Forall is_byte mem ->
  exists mem',
    write_float p T e SIGNED_MAGNITUDE (S754_finite s mant expo) mem off = Some (Ok mem')
    /\ read_float p T e SIGNED_MAGNITUDE mem' off = Some (Ok (S754_zero s)).
Proof.
  intros p T e s mant expo mem off Hp HT Hexp Hsmall Hn Hhost Hlen Hmem.
  destruct HT as [_ _ _ Hs]. set (w := fl_size T) in *.
  assert (Hhost' : native_endianess p e = true -> w = 8%nat \/ p_endianess p = LITTLE).
  { intros En. destruct Hhost as [?|[?|?]]; auto. congruence. }
  assert (H8 : (8 <? w)%nat = false) by (apply Nat.ltb_ge; lia).
  pose proof (half_le_8 w Hs) as Hh. pose proof (space_half w ltac:(lia)) as Hsh.
  pose proof (space_mono w 8 ltac:(lia)) as Hmono.
  set (v := if s then half w else 0).
  assert (Hv : 0 <= v < space w) by (unfold v; destruct s; lia).
  assert (Htr : forall s', float_to_ull (S754_finite s' mant expo) = Ok 0).
  { intros s'. unfold float_to_ull, truncate. destruct (Z.leb_spec 0 expo); [lia|].
    rewrite Z.div_small by lia. destruct s'; reflexivity. }
  assert (Hw : float_to_signed_mode p T SIGNED_MAGNITUDE (S754_finite s mant expo) = Some (Ok v)).
  { unfold float_to_signed_mode, float_to_signed_mode_impl. fold w. rewrite Hn, H8.
    unfold SFleb. cbn [SFcompare SFopp]. rewrite !Htr. unfold v. destruct s; [|reflexivity].
    cbn [bind]. rewrite sign_mask_half by auto. unfold c_or. rewrite Z.lor_0_l. reflexivity. }
  exists (splice mem off (wire_bytes e w v)). split.
  - unfold write_float. rewrite Hw. cbn [bind]. fold w. rewrite to_endianess_narrow; auto; lia.
  - unfold read_float, float_from_signed_mode, float_from_signed_mode_impl. fold w. rewrite Hn, H8.
    rewrite from_endianess_narrow; auto; try lia.
    2:{ rewrite splice_length; [lia|rewrite wire_bytes_length; lia]. }
    2:{ apply Forall_splice; auto. apply wire_bytes_bytes. }
    cbn [bind].
    replace (slice (splice mem off (wire_bytes e w v)) off w) with (wire_bytes e w v).
    2:{ replace w with (length (wire_bytes e w v)) at 3 by apply wire_bytes_length.
        rewrite slice_splice_same by (rewrite ?wire_bytes_length; lia). reflexivity. }
    rewrite wire_value_bytes, Z.mod_small by auto. rewrite sign_test by auto.
    unfold v. destruct s.
    + rewrite (proj2 (Z.ltb_ge (half w) (half w))) by lia. cbn [negb].
      rewrite magnitude_mask_half by auto.
      replace (c_and (half w) (half w - 1)) with 0; [reflexivity|].
      unfold c_and. rewrite half_pow2 by lia. replace (2 ^ (bits w - 1) - 1) with (Z.ones (bits w - 1)).
      * symmetry. rewrite Z.land_ones by (unfold bits; lia). apply Z.mod_same.
        pose proof (Z.pow_pos_nonneg 2 (bits w - 1)). unfold bits in *. lia.
      * rewrite Z.ones_equiv. lia.
    + rewrite (proj2 (Z.ltb_lt 0 (half w))) by lia. reflexivity.
Qed.

(** ** Numbers without fractional part

    [int_to_float] is exact on them. *)

Definition integral_float (m : positive) (e : Z) (a : positive) : Prop :=
  (0 <= e /\ Zpos a = Zpos m * 2 ^ e) \/ (e < 0 /\ Zpos m = Zpos a * 2 ^ (- e)).

Lemma digits2_pos_unique : forall m d, 0 <= d - 1 -> 2 ^ (d - 1) <= Zpos m < 2 ^ d -> Zpos (digits2_pos m) = d.
Proof.
  intros m d Hd H. pose proof (digits2_pos_bounds m) as B. set (c := Zpos (digits2_pos m)) in *.
  assert (1 <= c) by (unfold c; lia).
  destruct (Z.lt_trichotomy c d) as [L|[L|L]]; auto.
  - assert (2 ^ c <= 2 ^ (d - 1)) by (apply Z.pow_le_mono_r; lia). lia.
  - assert (2 ^ d <= 2 ^ (c - 1)) by (apply Z.pow_le_mono_r; lia). lia.
Qed.

Lemma digits2_pos_shift : forall m a n, 0 <= n -> Zpos m = Zpos a * 2 ^ n ->
  Zpos (digits2_pos m) = Zpos (digits2_pos a) + n.
Proof.
  intros m a n Hn E. pose proof (digits2_pos_bounds a) as B. set (c := Zpos (digits2_pos a)) in *.
  assert (1 <= c) by (unfold c; lia). pose proof (Z.pow_pos_nonneg 2 n).
  apply digits2_pos_unique; [lia|]. rewrite E. replace (c + n - 1) with (c - 1 + n) by lia.
  rewrite !Z.pow_add_r by lia. nia.
Qed.

Lemma iter_pos_add : forall (A : Type) (f : A -> A) n x, iter_pos f n x = Pos.iter f x n.
Proof.
  intros A f n. induction n as [n IH|n IH|]; intros x; cbn [iter_pos Pos.iter]; auto.
  - rewrite !IH. rewrite <- Pos.iter_swap. rewrite <- (Pos.iter_swap n). reflexivity.
  - rewrite !IH. reflexivity.
Qed.

Lemma shr_exact : forall n m a, Zpos a = Zpos m * 2 ^ Zpos n ->
  iter_pos shr_1 n (Build_shr_record (Zpos a) false false) = Build_shr_record (Zpos m) false false.
Proof.
  intros n. rewrite <- (Pos2Nat.id n). generalize (Pos2Nat.is_pos n). generalize (Pos.to_nat n) as k.
  intros k Hk m a E. rewrite iter_pos_add. rewrite Pos2Nat.inj_iter, Nat2Pos.id by lia.
  assert (E' : Zpos a = Zpos m * 2 ^ Z.of_nat k).
  { rewrite E. do 2 f_equal. rewrite <- positive_nat_Z, Nat2Pos.id by lia. reflexivity. }
  clear E Hk. revert m a E'. induction k as [|k IH]; intros m a E; cbn [Nat.iter nat_rect].
  - change (Z.of_nat 0) with 0 in E. rewrite Z.pow_0_r, Z.mul_1_r in E. congruence.
  - rewrite Nat2Z.inj_succ, Z.pow_succ_r in E by lia.
    specialize (IH (xO m) a). unfold Nat.iter in IH. rewrite IH by (rewrite Pos2Z.inj_xO; lia). reflexivity.
Qed.

Lemma int_to_float_exact : forall T m e a, ieee T -> representable T (S754_finite false m e) -> integral_float m e a ->
  int_to_float T (Zpos a) = S754_finite false m e.
Proof.
  intros T m e a HT Hf Ha. unfold representable, valid_binary, bounded, canonical_mantissa in Hf.
  apply andb_prop in Hf. destruct Hf as [H1 H2]. apply Zeq_bool_eq in H1.
  unfold int_to_float, binary_normalize, binary_round, binary_round_aux, shr_fexp. rewrite Z.add_0_r.
  assert (Hsh : forall ez l, ez = e -> l = loc_Exact ->
    shr (shr_record_of_loc (Zpos m) l) ez (fexp (fl_prec T) (fl_emax T) (Zdigits2 (Zpos m) + ez) - ez)
    = (Build_shr_record (Zpos m) false false, e)).
  { intros ez l -> ->. cbn [Zdigits2]. rewrite H1, Z.sub_diag. reflexivity. }
  destruct Ha as [[He Ha]|[He Ha]].
  - pose proof (digits2_pos_shift a m e He Ha) as Ed. rewrite Ed, H1.
    assert (Es : shl_align a 0 e = (a, 0)).
    { unfold shl_align. rewrite Z.sub_0_r. destruct e; auto. lia. }
    rewrite Es. cbn [Zdigits2]. rewrite Z.add_0_r, Ed, H1, Z.sub_0_r.
    assert (Er : shr (shr_record_of_loc (Zpos a) loc_Exact) 0 e = (Build_shr_record (Zpos m) false false, e)).
    { unfold shr, shr_record_of_loc. destruct e as [|n|n]; [|rewrite shr_exact with (m := m) by auto; reflexivity|lia].
      rewrite Z.pow_0_r, Z.mul_1_r in Ha. rewrite Ha. reflexivity. }
    rewrite Er. cbn [shr_m loc_of_shr_record round_nearest_even]. rewrite Hsh by auto. cbn [shr_m]. rewrite H2. reflexivity.
  - pose proof (digits2_pos_shift m a (- e) ltac:(lia) Ha) as Ed.
    assert (Ef : fexp (fl_prec T) (fl_emax T) (Zpos (digits2_pos a)) = e) by (etransitivity; [|exact H1]; f_equal; lia).
    rewrite Ef.
    assert (Es : shl_align a 0 e = (m, e)).
    { unfold shl_align. rewrite Z.sub_0_r. destruct e as [|n|n]; try lia. f_equal.
      apply Pos2Z.inj. rewrite shift_pos_correct. rewrite Ha. rewrite Z.pow_pos_fold. change (- Zneg n) with (Zpos n). lia. }
    rewrite Es. rewrite Hsh by auto. cbn [shr_m loc_of_shr_record round_nearest_even]. rewrite Hsh by auto.
    cbn [shr_m]. rewrite H2. reflexivity.
Qed.

(** In signed magnitude, and in one's complement if the number is not negative or
    has the size of [unsigned long long], the numbers without fractional part
    which fit in an integer of the same size are recovered.  The others are not
    (C52_float_lost, C52_float_undefined, C52_floats_refuted). *)
Theorem C52_float_integral_partial : forall p T e sm s m ex a mem off,
  wf_platform p -> ieee T -> representable T (S754_finite s m ex) -> integral_float m ex a -> Zpos a < half (fl_size T) ->
  native_signed_mode p sm = false ->
  sm = SIGNED_MAGNITUDE \/ (sm = ONES_COMPLEMENT /\ (s = false \/ fl_size T = 8%nat)) ->
  sig_host_ok p e sm (fl_size T) -> (off + fl_size T <= length mem)%nat -> Forall is_byte mem ->
  exists mem',
    write_float p T e sm (S754_finite s m ex) mem off = Some (Ok mem')
    /\ read_float p T e sm mem' off = Some (Ok (S754_finite s m ex)).
Proof.
  intros p T e sm s m ex a mem off Hp HT Hf Ha Hsmall Hn Hsm Hhost Hlen Hmem.
  assert (Hex : int_to_float T (Zpos a) = S754_finite false m ex) by (apply int_to_float_exact; auto).
  destruct HT as [_ _ _ Hs]. set (w := fl_size T) in *.
  assert (Hhost' : native_endianess p e = true -> w = 8%nat \/ p_endianess p = LITTLE).
  { intros En. destruct Hhost as [?|[?|?]]; auto. congruence. }
  assert (H8 : (8 <? w)%nat = false) by (apply Nat.ltb_ge; lia).
  pose proof (half_le_8 w Hs) as Hh. pose proof (space_half w ltac:(lia)) as Hsh.
  pose proof (space_mono w 8 ltac:(lia)) as Hmono.
  assert (E8 : space 8 = 2 ^ bits 8) by apply space_pow2.
  assert (Htr : float_to_ull (S754_finite false m ex) = Ok (Zpos a)).
  { unfold float_to_ull, truncate. replace (if 0 <=? ex then Zpos m * 2 ^ ex else Zpos m / 2 ^ (- ex)) with (Zpos a).
    2:{ destruct Ha as [[He Ea]|[He Ea]]; destruct (Z.leb_spec 0 ex); try lia.
        rewrite Ea, Z.div_mul; auto. apply Z.pow_nonzero; lia. }
    rewrite <- E8. destruct (Z.leb_spec 0 (Zpos a)), (Z.ltb_spec (Zpos a) (space 8)); try lia. reflexivity. }
  set (v := if s then (match sm with SIGNED_MAGNITUDE => half w + Zpos a | _ => space w - 1 - Zpos a end) else Zpos a).
  assert (Hv : 0 <= v < space w) by (unfold v; destruct s, sm; lia).
  assert (Hw : float_to_signed_mode p T sm (S754_finite s m ex) = Some (Ok v)).
  { unfold float_to_signed_mode, float_to_signed_mode_impl. fold w. rewrite Hn, H8.
    unfold SFleb. cbn [SFcompare SFopp]. destruct s; cbn [negb].
    - rewrite !Htr. cbn [bind]. destruct Hsm as [-> |[-> [Hs0|Hw8]]]; [|discriminate|]; unfold v; do 2 f_equal.
      + rewrite sign_mask_half by auto. unfold c_or. rewrite half_pow2 in * by lia.
        replace (2 ^ (bits w - 1)) with (Z.shiftl 1 (bits w - 1)) at 1
          by (rewrite Z.shiftl_mul_pow2 by (unfold bits; lia); lia).
        rewrite lor_disjoint; unfold bits in *; lia.
      + rewrite c_not_ull, Hw8. symmetry. apply Z.mod_unique with (-1); lia.
    - rewrite Htr. unfold v. destruct Hsm as [-> |[-> _]]; reflexivity. }
  exists (splice mem off (wire_bytes e w v)). split.
  - unfold write_float. rewrite Hw. cbn [bind]. fold w. rewrite to_endianess_narrow; auto; lia.
  - unfold read_float, float_from_signed_mode, float_from_signed_mode_impl. fold w. rewrite Hn, H8.
    rewrite from_endianess_narrow; auto; try lia.
    2:{ rewrite splice_length; [lia|rewrite wire_bytes_length; lia]. }
    2:{ apply Forall_splice; auto. apply wire_bytes_bytes. }
    cbn [bind].
    replace (slice (splice mem off (wire_bytes e w v)) off w) with (wire_bytes e w v).
    2:{ replace w with (length (wire_bytes e w v)) at 3 by apply wire_bytes_length.
        rewrite slice_splice_same by (rewrite ?wire_bytes_length; lia). reflexivity. }
    rewrite wire_value_bytes, Z.mod_small by auto. rewrite sign_test by auto.
    assert (Hopp : SFopp (int_to_float T (Zpos a)) = S754_finite true m ex) by (rewrite Hex; reflexivity).
    unfold v. destruct s.
    + destruct Hsm as [-> |[-> [Hs0|Hw8]]]; [|discriminate|]; do 2 f_equal.
      * rewrite (proj2 (Z.ltb_ge _ _)) by lia. cbn [negb]. rewrite magnitude_mask_half by auto. unfold c_and.
        replace (half w - 1) with (Z.ones (bits w - 1)) by (rewrite half_pow2, Z.ones_equiv by lia; lia).
        rewrite Z.land_ones by (unfold bits; lia). rewrite <- half_pow2 by lia.
        replace ((half w + Zpos a) mod half w) with (Zpos a) by (apply Z.mod_unique with 1; lia). exact Hopp.
      * rewrite (proj2 (Z.ltb_ge _ _)) by lia. cbn [negb]. rewrite c_not_ull, Hw8 in *.
        replace ((- (space 8 - 1 - Zpos a) - 1) mod space 8) with (Zpos a) by (apply Z.mod_unique with (-1); lia).
        exact Hopp.
    + rewrite (proj2 (Z.ltb_lt _ _)) by lia. cbn [negb]. rewrite Hex.
      destruct Hsm as [-> |[-> _]]; reflexivity.
Qed.

(** In offset binary, the sum with the offset is rounded. *)

Lemma round_exact : forall T sx m e n ez, ieee T -> representable T (S754_finite false m e) ->
  (ez <= e /\ Zpos n = Zpos m * 2 ^ (e - ez)) \/ (e < ez /\ Zpos m = Zpos n * 2 ^ (ez - e)) ->
  binary_round (fl_prec T) (fl_emax T) sx n ez = S754_finite sx m e.
Proof.
  intros T sx m e n ez HT Hf Ha. unfold representable, valid_binary, bounded, canonical_mantissa in Hf.
  apply andb_prop in Hf. destruct Hf as [H1 H2]. apply Zeq_bool_eq in H1.
  unfold binary_round, binary_round_aux, shr_fexp.
  assert (Hsh : forall l, l = loc_Exact ->
    shr (shr_record_of_loc (Zpos m) l) e (fexp (fl_prec T) (fl_emax T) (Zdigits2 (Zpos m) + e) - e)
    = (Build_shr_record (Zpos m) false false, e)).
  { intros l ->. cbn [Zdigits2]. rewrite H1, Z.sub_diag. reflexivity. }
  destruct Ha as [[He Ha]|[He Ha]].
  - pose proof (digits2_pos_shift n m (e - ez) ltac:(lia) Ha) as Ed.
    replace (Zpos (digits2_pos n) + ez) with (Zpos (digits2_pos m) + e) by lia. rewrite H1.
    assert (Es : shl_align n ez e = (n, ez)).
    { unfold shl_align. destruct (e - ez) eqn:E; auto. lia. }
    rewrite Es. cbn [Zdigits2]. replace (Zpos (digits2_pos n) + ez) with (Zpos (digits2_pos m) + e) by lia. rewrite H1.
    assert (Er : shr (shr_record_of_loc (Zpos n) loc_Exact) ez (e - ez) = (Build_shr_record (Zpos m) false false, e)).
    { unfold shr, shr_record_of_loc. destruct (e - ez) as [|k|k] eqn:E; [|rewrite shr_exact with (m := m) by auto; f_equal; lia|lia].
      rewrite Z.pow_0_r, Z.mul_1_r in Ha. rewrite Ha. f_equal. lia. }
    rewrite Er. cbn [shr_m loc_of_shr_record round_nearest_even]. rewrite Hsh by auto. cbn [shr_m]. rewrite H2. reflexivity.
  - pose proof (digits2_pos_shift m n (ez - e) ltac:(lia) Ha) as Ed.
    replace (Zpos (digits2_pos n) + ez) with (Zpos (digits2_pos m) + e) by lia. rewrite H1.
    assert (Es : shl_align n ez e = (m, e)).
    { unfold shl_align. destruct (e - ez) as [|k|k] eqn:E; try lia. f_equal.
      apply Pos2Z.inj. rewrite shift_pos_correct. rewrite Ha. rewrite Z.pow_pos_fold.
      replace (ez - e) with (Zpos k) by lia. lia. }
    rewrite Es. rewrite Hsh by auto. cbn [shr_m loc_of_shr_record round_nearest_even]. rewrite Hsh by auto.
    cbn [shr_m]. rewrite H2. reflexivity.
Qed.

(** The numbers of [prec] binary digits which fit in [size] bytes. *)
Lemma representable_top : forall T m, ieee T -> bits (fl_size T) <= fl_emax T -> 2 ^ (fl_prec T - 1) <= Zpos m < 2 ^ fl_prec T ->
  representable T (S754_finite false m (fl_exponent T)).
Proof.
  intros T m HT Hb Hm. destruct HT as [Hp He Hx Hs]. unfold representable, valid_binary, bounded, canonical_mantissa.
  rewrite (digits2_pos_unique m (fl_prec T)) by lia. unfold fl_exponent in *.
  apply andb_true_intro. split.
  - apply Zeq_is_eq_bool. unfold fexp, emin. lia.
  - apply Zle_imp_le_bool. lia.
Qed.

Lemma aligned : forall m ex k, k <= ex -> Zpos (fst (shl_align m ex k)) = Zpos m * 2 ^ (ex - k).
Proof.
  intros m ex k H. unfold shl_align. destruct (k - ex) as [|d|d] eqn:E; cbn [fst].
  - replace (ex - k) with 0 by lia. lia.
  - lia.
  - rewrite shift_pos_correct, Z.pow_pos_fold. replace (ex - k) with (Zpos d) by lia. lia.
Qed.

(** In offset binary, what is recovered are the numbers without fractional part
    which are not negative, fit in an integer of the same size, and are multiples
    of 2 to the number of bits which are not in the mantissa (256 for [float], 2048
    for [double]). *)
Theorem C52_float_offset_partial : forall p T e m ex a mem off,
  wf_platform p -> ieee T -> bits (fl_size T) <= fl_emax T ->
  representable T (S754_finite false m ex) -> integral_float m ex a -> Zpos a < half (fl_size T) ->
  (2 ^ (bits (fl_size T) - fl_prec T) | Zpos a) ->
  native_signed_mode p OFFSET_BINARY = false ->
  sig_host_ok p e OFFSET_BINARY (fl_size T) -> (off + fl_size T <= length mem)%nat -> Forall is_byte mem ->
  exists mem',
    write_float p T e OFFSET_BINARY (S754_finite false m ex) mem off = Some (Ok mem')
    /\ read_float p T e OFFSET_BINARY mem' off = Some (Ok (S754_finite false m ex)).
Proof.
  intros p T e m ex a mem off Hp HT Hemax Hf Ha Hsmall [q Hq] Hn Hhost Hlen Hmem.
  change (bits (fl_size T) - fl_prec T) with (fl_exponent T) in Hq.
  assert (Hex : int_to_float T (Zpos a) = S754_finite false m ex) by (apply int_to_float_exact; auto).
  pose proof HT as [Hprec Hxp Hxe Hs]. set (w := fl_size T) in *.
  assert (Hhost' : native_endianess p e = true -> w = 8%nat \/ p_endianess p = LITTLE).
  { intros En. destruct Hhost as [?|[?|?]]; auto. congruence. }
  assert (H8 : (8 <? w)%nat = false) by (apply Nat.ltb_ge; lia).
  pose proof (half_le_8 w Hs) as Hh. pose proof (space_half w ltac:(lia)) as Hsh.
  pose proof (space_mono w 8 ltac:(lia)) as Hmono.
  assert (E8 : space 8 = 2 ^ bits 8) by apply space_pow2.
  assert (Hbits : bits w = fl_prec T + fl_exponent T) by (unfold fl_exponent; fold w; lia).
  assert (Ehalf : half w = 2 ^ (fl_prec T - 1) * 2 ^ fl_exponent T).
  { rewrite half_pow2, <- Z.pow_add_r by lia. f_equal. lia. }
  pose proof (Z.pow_pos_nonneg 2 (fl_prec T - 1) ltac:(lia) ltac:(lia)) as Hpp.
  pose proof (Z.pow_pos_nonneg 2 (fl_exponent T) ltac:(lia) ltac:(lia)) as Hxx.
  assert (Epp : 2 ^ fl_prec T = 2 * 2 ^ (fl_prec T - 1)) by (rewrite <- Z.pow_succ_r by lia; f_equal; lia).
  assert (Hq0 : 0 < q < 2 ^ (fl_prec T - 1)) by nia.
  (* the offset *)
  set (h := Z.to_pos (2 ^ (fl_prec T - 1))).
  assert (Eh : Zpos h = 2 ^ (fl_prec T - 1)) by (unfold h; rewrite Z2Pos.id; lia).
  assert (Hhalf : int_to_float T (half w) = S754_finite false h (fl_exponent T)).
  { rewrite <- (Z2Pos.id (half w)) by lia. apply int_to_float_exact; auto.
    - apply representable_top; auto. lia.
    - left. split; [lia|]. rewrite Z2Pos.id by lia. rewrite Eh. exact Ehalf. }
  (* the sum *)
  set (t := Z.to_pos (q + 2 ^ (fl_prec T - 1))).
  assert (Et : Zpos t = q + 2 ^ (fl_prec T - 1)) by (unfold t; rewrite Z2Pos.id; lia).
  assert (Hsum : SFadd (fl_prec T) (fl_emax T) (S754_finite false m ex) (S754_finite false h (fl_exponent T))
                 = S754_finite false t (fl_exponent T)).
  { unfold SFadd. cbn [cond_Zopp]. set (k := Z.min ex (fl_exponent T)).
    rewrite !aligned by lia. unfold binary_normalize.
    assert (En : Zpos m * 2 ^ (ex - k) = q * 2 ^ (fl_exponent T - k)).
    { pose proof (Z.pow_pos_nonneg 2 (Z.max 0 (- k)) ltac:(lia) ltac:(lia)).
      destruct Ha as [[He Ea]|[He Ea]].
      - apply (Z.mul_reg_r _ _ (2 ^ k)); [apply Z.pow_nonzero; lia|].
        rewrite <- !Z.mul_assoc, <- !Z.pow_add_r by lia.
        replace (ex - k + k) with ex by lia. replace (fl_exponent T - k + k) with (fl_exponent T) by lia. lia.
      - assert (k = ex) by lia. rewrite H0, Z.sub_diag, Z.pow_0_r, Z.mul_1_r, Ea, Hq.
        rewrite <- Z.mul_assoc, <- Z.pow_add_r by lia. do 2 f_equal. }
    rewrite En, Eh, <- Z.mul_add_distr_r, <- Et.
    pose proof (Z.pow_pos_nonneg 2 (fl_exponent T - k) ltac:(lia) ltac:(lia)).
    destruct (Zpos t * 2 ^ (fl_exponent T - k)) as [|n|n] eqn:E; try lia.
    apply round_exact; auto; [apply representable_top; auto; lia|]. left. split; [lia|]. congruence. }
  set (v := Zpos a + half w).
  assert (Hv : 0 <= v < space w) by (unfold v; lia).
  assert (Etv : Zpos t * 2 ^ fl_exponent T = v) by (unfold v; rewrite Et, Hq, Ehalf; ring).
  assert (Hw : float_to_signed_mode p T OFFSET_BINARY (S754_finite false m ex) = Some (Ok v)).
  { unfold float_to_signed_mode, float_to_signed_mode_impl. fold w. rewrite Hn, H8.
    rewrite sign_mask_half, Hhalf, Hsum by auto. unfold float_to_ull, truncate.
    rewrite (proj2 (Z.leb_le 0 (fl_exponent T))), Etv by lia.
    rewrite (proj2 (Z.leb_le 0 v)), (proj2 (Z.ltb_lt v (2 ^ bits 8))) by lia. reflexivity. }
  exists (splice mem off (wire_bytes e w v)). split.
  - unfold write_float. rewrite Hw. cbn [bind]. fold w. rewrite to_endianess_narrow; auto; lia.
  - unfold read_float, float_from_signed_mode, float_from_signed_mode_impl. fold w. rewrite Hn, H8.
    rewrite from_endianess_narrow; auto; try lia.
    2:{ rewrite splice_length; [lia|rewrite wire_bytes_length; lia]. }
    2:{ apply Forall_splice; auto. apply wire_bytes_bytes. }
    cbn [bind].
    replace (slice (splice mem off (wire_bytes e w v)) off w) with (wire_bytes e w v).
    2:{ replace w with (length (wire_bytes e w v)) at 3 by apply wire_bytes_length.
        rewrite slice_splice_same by (rewrite ?wire_bytes_length; lia). reflexivity. }
    assert (Hvv : wire_value e (wire_bytes e w v) = v) by (rewrite wire_value_bytes, Z.mod_small; auto). rewrite Hvv. rewrite sign_mask_half by auto.
    replace ((v - half w) mod 2 ^ bits 8) with (Zpos a); [rewrite Hex; reflexivity|].
    unfold v. rewrite Z.mod_small; lia.
Qed.

(** 768 as a [float]. *)
Example C52_offset_example :
  representable binary32 (S754_finite false 12582912 (-14)) /\ integral_float 12582912 (-14) 768
  /\ bits (fl_size binary32) <= fl_emax binary32 /\ (2 ^ (bits (fl_size binary32) - fl_prec binary32) | 768)
  /\ native_signed_mode pc_native OFFSET_BINARY = false.
Proof.
  split; [reflexivity|]. split; [right; split; [lia|reflexivity]|]. split; [vm_compute; discriminate|].
  split; [exists 3; reflexivity|reflexivity].
Qed.

(** Zero is recovered, without its sign: -0.0 is read as 0.0. *)
Theorem C52_float_zero : forall p T e sm s mem off,
  wf_platform p -> ieee T -> native_signed_mode p sm = false ->
  sm = SIGNED_MAGNITUDE \/ sm = ONES_COMPLEMENT \/ (sm = OFFSET_BINARY /\ bits (fl_size T) <= fl_emax T) ->
  sig_host_ok p e sm (fl_size T) -> (off + fl_size T <= length mem)%nat -> Forall is_byte mem ->
  exists mem',
    write_float p T e sm (S754_zero s) mem off = Some (Ok mem')
    /\ read_float p T e sm mem' off = Some (Ok (S754_zero false)).
Proof.
  intros p T e sm s mem off Hp HT Hn Hsm Hhost Hlen Hmem.
  pose proof HT as [Hprec Hxp Hxe Hs]. set (w := fl_size T) in *.
  assert (Hhost' : native_endianess p e = true -> w = 8%nat \/ p_endianess p = LITTLE).
  { intros En. destruct Hhost as [?|[?|?]]; auto. congruence. }
  assert (H8 : (8 <? w)%nat = false) by (apply Nat.ltb_ge; lia).
  pose proof (half_le_8 w Hs) as Hh. pose proof (space_half w ltac:(lia)) as Hsh.
  pose proof (space_mono w 8 ltac:(lia)) as Hmono.
  assert (E8 : space 8 = 2 ^ bits 8) by apply space_pow2.
  assert (Hbits : bits w = fl_prec T + fl_exponent T) by (unfold fl_exponent; fold w; lia).
  assert (Ehalf : half w = 2 ^ (fl_prec T - 1) * 2 ^ fl_exponent T).
  { rewrite half_pow2, <- Z.pow_add_r by lia. f_equal. lia. }
  pose proof (Z.pow_pos_nonneg 2 (fl_prec T - 1) ltac:(lia) ltac:(lia)) as Hpp.
  assert (Epp : 2 ^ fl_prec T = 2 * 2 ^ (fl_prec T - 1)) by (rewrite <- Z.pow_succ_r by lia; f_equal; lia).
  set (v := match sm with OFFSET_BINARY => half w | _ => 0 end).
  assert (Hv : 0 <= v < space w) by (unfold v; destruct sm; lia).
  assert (Hw : float_to_signed_mode p T sm (S754_zero s) = Some (Ok v)).
  { unfold float_to_signed_mode, float_to_signed_mode_impl. fold w. rewrite Hn, H8.
    destruct Hsm as [-> |[-> |[-> Hemax]]]; [reflexivity|reflexivity|].
    set (h := Z.to_pos (2 ^ (fl_prec T - 1))).
    assert (Eh : Zpos h = 2 ^ (fl_prec T - 1)) by (unfold h; rewrite Z2Pos.id; lia).
    assert (Hhalf : int_to_float T (half w) = S754_finite false h (fl_exponent T)).
    { rewrite <- (Z2Pos.id (half w)) by lia. apply int_to_float_exact; auto.
      - apply representable_top; auto. lia.
      - left. split; [lia|]. rewrite Z2Pos.id by lia. rewrite Eh. exact Ehalf. }
    rewrite sign_mask_half, Hhalf by auto. cbn [SFadd]. unfold float_to_ull, truncate.
    rewrite (proj2 (Z.leb_le 0 (fl_exponent T))), Eh, <- Ehalf by lia.
    rewrite (proj2 (Z.leb_le 0 (half w))), (proj2 (Z.ltb_lt (half w) (2 ^ bits 8))) by lia. reflexivity. }
  exists (splice mem off (wire_bytes e w v)). split.
  - unfold write_float. rewrite Hw. cbn [bind]. fold w. rewrite to_endianess_narrow; auto; lia.
  - unfold read_float, float_from_signed_mode, float_from_signed_mode_impl. fold w. rewrite Hn, H8.
    rewrite from_endianess_narrow; auto; try lia.
    2:{ rewrite splice_length; [lia|rewrite wire_bytes_length; lia]. }
    2:{ apply Forall_splice; auto. apply wire_bytes_bytes. }
    cbn [bind].
    replace (slice (splice mem off (wire_bytes e w v)) off w) with (wire_bytes e w v).
    2:{ replace w with (length (wire_bytes e w v)) at 3 by apply wire_bytes_length.
        rewrite slice_splice_same by (rewrite ?wire_bytes_length; lia). reflexivity. }
    assert (Hvv : wire_value e (wire_bytes e w v) = v) by (rewrite wire_value_bytes, Z.mod_small; auto).
    rewrite Hvv, sign_test by auto. unfold v. destruct Hsm as [-> |[-> |[-> _]]].
    + rewrite (proj2 (Z.ltb_lt 0 (half w))) by lia. reflexivity.
    + rewrite (proj2 (Z.ltb_lt 0 (half w))) by lia. reflexivity.
    + rewrite sign_mask_half, Z.sub_diag by auto. reflexivity.
Qed.

(** -0.0 as a [float], in a big-endian offset binary format. *)
Example C52_zero_example :
  native_signed_mode pc_native OFFSET_BINARY = false /\ bits (fl_size binary32) <= fl_emax binary32
  /\ write_float pc_native binary32 BIG OFFSET_BINARY (S754_zero true) [7; 7; 7; 7] 0 = Some (Ok [128; 0; 0; 0])
  /\ read_float pc_native binary32 BIG OFFSET_BINARY [128; 0; 0; 0] 0 = Some (Ok (S754_zero false)).
Proof. split; [reflexivity|]. split; [vm_compute; discriminate|]. split; vm_compute; reflexivity. Qed.

(** In two's complement, when it is not native, values are read as integers: of
    the negative ones, those of 8 bytes only are right. *)
Theorem C52_float_twos_read : forall p T e z mem off,
  wf_platform p -> ieee T -> native_signed_mode p TWOS_COMPLEMENT = false ->
  sig_host_ok p e TWOS_COMPLEMENT (fl_size T) -> (off + fl_size T <= length mem)%nat -> Forall is_byte mem ->
  - half (fl_size T) <= z < half (fl_size T) ->
  read_float p T e TWOS_COMPLEMENT (splice mem off (wire_bytes e (fl_size T) (z mod space (fl_size T)))) off
  = Some (Ok (if 0 <=? z then int_to_float T z
              else SFopp (int_to_float T (- z + (space 8 - space (fl_size T)))))).
Proof.
  intros p T e z mem off Hp HT Hn Hhost Hlen Hmem Hz.
  pose proof HT as [Hprec Hxp Hxe Hs]. set (w := fl_size T) in *.
  assert (Hhost' : native_endianess p e = true -> w = 8%nat \/ p_endianess p = LITTLE).
  { intros En. destruct Hhost as [?|[?|?]]; auto. congruence. }
  assert (H8 : (8 <? w)%nat = false) by (apply Nat.ltb_ge; lia).
  pose proof (half_le_8 w Hs) as Hh. pose proof (space_half w ltac:(lia)) as Hsh.
  pose proof (space_mono w 8 ltac:(lia)) as Hmono.
  assert (E8 : space 8 = 2 ^ bits 8) by apply space_pow2.
  set (v := z mod space w).
  assert (Hv : 0 <= v < space w) by (apply Z.mod_pos_bound; lia).
  assert (Ev : v = if 0 <=? z then z else z + space w).
  { unfold v. destruct (Z.leb_spec 0 z); [apply Z.mod_small; lia|]. symmetry. apply Z.mod_unique with (-1); lia. }
  unfold read_float, float_from_signed_mode, float_from_signed_mode_impl. fold w. rewrite Hn, H8.
  rewrite from_endianess_narrow; auto; try lia.
  2:{ rewrite splice_length; [lia|rewrite wire_bytes_length; lia]. }
  2:{ apply Forall_splice; auto. apply wire_bytes_bytes. }
  cbn [bind].
  replace (slice (splice mem off (wire_bytes e w v)) off w) with (wire_bytes e w v).
  2:{ replace w with (length (wire_bytes e w v)) at 3 by apply wire_bytes_length.
      rewrite slice_splice_same by (rewrite ?wire_bytes_length; lia). reflexivity. }
  rewrite wire_value_bytes, Z.mod_small by auto. rewrite sign_test by auto.
  destruct (Z.leb_spec 0 z).
  - rewrite (proj2 (Z.ltb_lt v (half w))) by lia. cbn [negb]. rewrite Ev. reflexivity.
  - rewrite (proj2 (Z.ltb_ge v (half w))) by lia. cbn [negb]. do 4 f_equal.
    rewrite c_not_ull, <- E8.
    replace ((- v - 1) mod space 8) with (space 8 - 1 - v) by (apply Z.mod_unique with (-1); lia).
    rewrite Z.mod_small; lia.
Qed.

(** In two's complement, the check accepts types whose serialization does not
    compile unless the signed mode is native. *)
Theorem C52_float_twos : forall p T e f mem off, native_signed_mode p TWOS_COMPLEMENT = false ->
  write_float p T e TWOS_COMPLEMENT f mem off = None.
Proof. intros. unfold write_float, float_to_signed_mode. rewrite H. reflexivity. Qed.

(** Types larger than [unsigned long long], such as [long double], overflow a
    local variable when the signed mode is native. *)
Theorem C52_long_double : forall p T e m f mem off, (8 < fl_size T)%nat -> native_signed_mode p m = true ->
  write_float p T e m f mem off = Some (Fault OutOfBounds).
Proof.
  intros p T e m f mem off H Hm. unfold write_float, float_to_signed_mode. rewrite Hm.
  rewrite (proj2 (Nat.ltb_lt 8 (fl_size T))) by auto. reflexivity.
Qed.

(** Infinities and NaN are undefined behaviour in signed magnitude and one's
    complement, as well as numbers which are too large. *)
Theorem C52_float_undefined : forall p T e m f mem off,
  (fl_size T <= 8)%nat -> native_signed_mode p m = false -> m = SIGNED_MAGNITUDE \/ m = ONES_COMPLEMENT ->
  (truncate f = None \/ exists z, truncate f = Some z /\ 2 ^ 64 <= Z.abs z) ->
  write_float p T e m f mem off = Some (Fault SignedOverflow).
Proof.
  intros p T e m f mem off Hs Hn Hm Hf.
  assert (G : forall g, truncate g = None \/ (exists z, truncate g = Some z /\ (2 ^ 64 <= z \/ z < 0)) ->
              float_to_ull g = Fault SignedOverflow).
  { intros g [E|(z & E & Hz)]; unfold float_to_ull; rewrite E; auto.
    change (2 ^ bits 8) with (2 ^ 64). destruct (Z.leb_spec 0 z), (Z.ltb_spec z (2 ^ 64)); cbn [andb]; auto. lia. }
  assert (Gp : float_to_ull f = Fault SignedOverflow /\ float_to_ull (SFopp f) = Fault SignedOverflow \/
               float_to_ull f = Fault SignedOverflow /\ SFleb (S754_zero false) f = true \/
               float_to_ull (SFopp f) = Fault SignedOverflow /\ SFleb (S754_zero false) f = false).
  { destruct Hf as [E|(z & E & Hz)].
    - left. split; apply G; left; auto. destruct f; cbn [truncate SFopp] in *; auto; discriminate.
    - destruct f as [s|s| |s mt ex]; cbn [truncate] in E; try discriminate; [injection E as <-; cbn in Hz; lia|].
      set (a := if 0 <=? ex then Zpos mt * 2 ^ ex else Zpos mt / 2 ^ (- ex)) in *. injection E as <-.
      assert (Ha : 0 <= a).
      { unfold a. destruct (Z.leb_spec 0 ex); [apply Z.mul_nonneg_nonneg; [lia|apply Z.pow_nonneg; lia]|].
        apply Z.div_pos; [lia|apply Z.pow_pos_nonneg; lia]. }
      destruct s.
      + right. right. split; [|reflexivity]. apply G. right. exists a. split; [reflexivity|]. lia.
      + right. left. split; [|reflexivity]. apply G. right. exists a. split; [reflexivity|]. lia. }
  unfold write_float, float_to_signed_mode, float_to_signed_mode_impl. rewrite Hn.
  rewrite (proj2 (Nat.ltb_ge 8 (fl_size T))) by auto.
  destruct Hm as [-> | ->];
    (destruct Gp as [[-> ->]|[[-> ->]|[-> ->]]]; [destruct (SFleb (S754_zero false) f)| |]; reflexivity).
Qed.

(** 0.5 is read back as 0 in signed magnitude, -2 as -2^64 in
    one's complement, -1 as 0 in offset binary (rounding), where -2^32 is undefined behaviour, NaN is undefined behaviour and
    [long double] overflows: all of them with types and
    formats the check accepts. *)
Definition ex_transmit (p : platform) (T : float_type) (m : signed_mode) (f : spec_float) : option (res spec_float) :=
  match write_float p T LITTLE m f [0; 0; 0; 0; 0; 0; 0; 0] 0 with
  | Some (Ok mem) => read_float p T LITTLE m mem 0
  | Some (Fault flt) => Some (Fault flt)
  | None => None
  end.
Theorem C52_floats_refuted : exists p, wf_platform p
  /\ representable binary32 (S754_finite false 8388608 (-24))
  /\ ex_transmit p binary32 SIGNED_MAGNITUDE (S754_finite false 8388608 (-24)) = Some (Ok (S754_zero false))
  /\ ex_transmit p binary32 ONES_COMPLEMENT (S754_finite true 8388608 (-22)) = Some (Ok (S754_finite true 8388608 41))
  /\ ex_transmit p binary32 OFFSET_BINARY (S754_finite true 8388608 (-23)) = Some (Ok (S754_zero false))
  /\ ex_transmit p binary32 OFFSET_BINARY (S754_finite true 8388608 9) = Some (Fault SignedOverflow)
  /\ ex_transmit p binary32 SIGNED_MAGNITUDE S754_nan = Some (Fault SignedOverflow)
  /\ ex_transmit p x87_extended TWOS_COMPLEMENT (S754_finite false 1 0) = Some (Fault OutOfBounds).
Proof.
  exists pc_native. split; [apply pc_native_wf|]. repeat (split; [vm_compute; reflexivity|]). vm_compute. reflexivity.
Qed.

(** -6 is an integer. *)
Example C52_integral_example :
  representable binary32 (S754_finite true 12582912 (-21)) /\ integral_float 12582912 (-21) 6
  /\ ex_transmit pc_native binary32 SIGNED_MAGNITUDE (S754_finite true 12582912 (-21))
     = Some (Ok (S754_finite true 12582912 (-21))).
Proof. split; [reflexivity|]. split; [right; split; [lia|reflexivity]|]. vm_compute. reflexivity. Qed.

(** -2.5 in the native signed mode; conditions of C52_float_lost. *)
Example C52_example :
  representable binary32 (S754_finite true 10485760 (-22))
  /\ sig_host_ok pc_native BIG TWOS_COMPLEMENT 4 /\ native_signed_mode pc_native TWOS_COMPLEMENT = true
  /\ native_signed_mode pc_native SIGNED_MAGNITUDE = false
  /\ write_float pc_native binary32 BIG TWOS_COMPLEMENT (S754_finite true 10485760 (-22)) [0; 0; 0; 0] 0
     = Some (Ok [192; 32; 0; 0])
  /\ read_float pc_native binary32 BIG TWOS_COMPLEMENT [192; 32; 0; 0] 0 = Some (Ok (S754_finite true 10485760 (-22))).
Proof.
  split; [reflexivity|]. split; [right; left; reflexivity|]. repeat (split; [vm_compute; reflexivity|]).
  vm_compute. reflexivity.
Qed.

Print Assumptions C52_bits.
Print Assumptions C52_float_native_partial.
Print Assumptions C52_float_accepted.
Print Assumptions C52_float_lost.
Print Assumptions C52_float_integral_partial.
Print Assumptions C52_float_offset_partial.
Print Assumptions C52_float_zero.
Print Assumptions C52_float_twos_read.
Print Assumptions C52_float_twos.
Print Assumptions C52_long_double.
Print Assumptions C52_float_undefined.
Print Assumptions C52_floats_refuted.
