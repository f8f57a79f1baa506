(** Proofs about signed integers. *)

From Coq Require Import List ZArith Bool Lia Arith ZifyBool ZifyNat.
From Verif Require Import Base CInt IntModel Spec Conditions MemFacts IntProofs.
Import ListNotations.
Open Scope Z_scope.

Ltac Zify.zify_post_hook ::= Z.div_mod_to_equations.

Lemma sign_mask_half : forall w, (1 <= w <= 8)%nat -> sign_mask w = half w.
Proof.
  intros w H. do 9 (destruct w as [|w]; [try lia; reflexivity|]). lia.
Qed.

Lemma magnitude_mask_half : forall w, (1 <= w <= 8)%nat -> magnitude_mask w = half w - 1.
Proof.
  intros w H. do 9 (destruct w as [|w]; [try lia; vm_compute; reflexivity|]). lia.
Qed.

Lemma half_le_8 : forall w, (1 <= w <= 8)%nat -> 0 < half w /\ 2 * half w <= space 8.
Proof.
  intros. pose proof (half_pos w ltac:(lia)). pose proof (space_mono w 8 ltac:(lia)).
  pose proof (space_half w ltac:(lia)). lia.
Qed.

(** ** Negation in the promoted type *)

Lemma neg_ok : forall p w z, wf_platform p -> (1 <= w <= 8)%nat ->
  - half w < z < half w -> c_neg (promote p (CInt w true)) z = Ok (- z).
Proof.
  intros p w z Hp Hw Hz. destruct Hp as [Hint _ _ _]. unfold c_neg. cbn [promote].
  destruct (Nat.ltb_spec w (p_int_size p)); unfold arith; rewrite <- half_pow2 by lia.
  - pose proof (half_mono w (p_int_size p) ltac:(lia)).
    destruct (Z.leb_spec (- half (p_int_size p)) (- z)); [|lia].
    destruct (Z.ltb_spec (- z) (half (p_int_size p))); [|lia]. reflexivity.
  - destruct (Z.leb_spec (- half w) (- z)); [|lia].
    destruct (Z.ltb_spec (- z) (half w)); [|lia]. reflexivity.
Qed.

Lemma neg_min_narrow : forall p w, wf_platform p -> (1 <= w)%nat -> (w < p_int_size p)%nat ->
  c_neg (promote p (CInt w true)) (- half w) = Ok (half w).
Proof.
  intros p w Hp Hw H. unfold c_neg. cbn [promote].
  destruct (Nat.ltb_spec w (p_int_size p)); [|lia]. unfold arith. rewrite <- half_pow2 by lia.
  pose proof (half_double w (p_int_size p) ltac:(lia)). pose proof (half_pos w ltac:(lia)).
  rewrite Z.opp_involutive.
  destruct (Z.leb_spec (- half (p_int_size p)) (half w)); [|lia].
  destruct (Z.ltb_spec (half w) (half (p_int_size p))); [|lia]. reflexivity.
Qed.

Lemma neg_min_wide : forall p w, (1 <= w)%nat -> (p_int_size p <= w)%nat ->
  c_neg (promote p (CInt w true)) (- half w) = Fault SignedOverflow.
Proof.
  intros p w Hw H. unfold c_neg. cbn [promote].
  destruct (Nat.ltb_spec w (p_int_size p)); [lia|]. unfold arith. rewrite <- half_pow2 by lia.
  rewrite Z.opp_involutive.
  destruct (Z.ltb_spec (half w) (half w)); [lia|]. rewrite andb_false_r. reflexivity.
Qed.

Lemma c_not_ull : forall n, c_not ull n = (- n - 1) mod space 8.
Proof.
  intros. unfold c_not, ull. rewrite conv_unsigned. reflexivity.
Qed.

Lemma c_not_signed : forall p w d, wf_platform p -> (1 <= w <= 8)%nat ->
  - half w <= d < half w -> c_not (promote p (CInt w true)) d = - d - 1.
Proof.
  intros p w d Hp Hw Hd. destruct Hp as [Hint _ _ _]. unfold c_not.
  replace (Z.lnot d) with (- d - 1) by (pose proof (Z.add_lnot_diag d); lia).
  cbn [promote]. destruct (Nat.ltb_spec w (p_int_size p)).
  - apply conv_signed_range; [lia|]. pose proof (half_mono w (p_int_size p) ltac:(lia)). lia.
  - apply conv_signed_range; lia.
Qed.

Lemma sub1_ok : forall p w n, wf_platform p -> (1 <= w <= 8)%nat ->
  0 < n <= half w -> c_sub (promote p (CInt w true)) n 1 = Ok (n - 1).
Proof.
  intros p w z Hp Hw Hz. destruct Hp as [Hint _ _ _]. unfold c_sub. cbn [promote].
  destruct (Nat.ltb_spec w (p_int_size p)); unfold arith; rewrite <- half_pow2 by lia.
  - pose proof (half_mono w (p_int_size p) ltac:(lia)).
    destruct (Z.leb_spec (- half (p_int_size p)) (z - 1)); [|lia].
    destruct (Z.ltb_spec (z - 1) (half (p_int_size p))); [|lia]. reflexivity.
  - destruct (Z.leb_spec (- half w) (z - 1)); [|lia].
    destruct (Z.ltb_spec (z - 1) (half w)); [|lia]. reflexivity.
Qed.

(** ** Writing *)

Lemma repr_bounds : forall m w z, (1 <= w <= 8)%nat -> - half w <= z < half w ->
  (m = SIGNED_MAGNITUDE \/ m = ONES_COMPLEMENT -> - half w < z) ->
  0 <= repr m w z < space w.
Proof.
  intros m w z Hw Hz Hm. pose proof (space_half w ltac:(lia)).
  destruct m; cbn [repr]; try (specialize (Hm ltac:(tauto)));
    try destruct (Z.ltb_spec z 0); lia.
Qed.

Lemma conv_ull : forall z, 0 <= z < space 8 -> conv ull z = z.
Proof. intros. unfold ull. rewrite conv_unsigned. apply Z.mod_small. auto. Qed.

Lemma to_signed_mode_impl_ok : forall p w m z,
  wf_platform p -> (1 <= w <= 8)%nat -> - half w <= z < half w ->
  (z = - half w -> match m with OFFSET_BINARY => True | TWOS_COMPLEMENT => (w < p_int_size p)%nat | _ => False end) ->
  exists u, to_signed_mode_impl p w m z = Ok u /\ 0 <= u < space 8 /\ u mod space w = repr m w z.
Proof.
  intros p w m z Hp Hw Hz Hmin.
  pose proof (half_le_8 w Hw) as [Hh H8]. pose proof (space_half w ltac:(lia)) as Hsp.
  assert (Hmod : forall a, (a mod space 8) mod space w = a mod space w)
    by (intros; apply mod_mod_space; lia).
  assert (Hneg : z < 0 -> m <> OFFSET_BINARY -> c_neg (promote p (CInt w true)) z = Ok (- z)).
  { intros. destruct (Z.eq_dec z (- half w)) as [E|E].
    - specialize (Hmin E). subst z. rewrite Z.opp_involutive.
      destruct m; try tauto. apply neg_min_narrow; auto; lia.
    - apply neg_ok; auto; lia. }
  unfold to_signed_mode_impl. rewrite sign_mask_half by auto.
  destruct m; cbn [repr].
  - destruct (Z.leb_spec 0 z).
    + rewrite conv_ull by lia. exists z. repeat split; try lia.
      destruct (Z.ltb_spec z 0); [lia|]. apply Z.mod_small. lia.
    + rewrite Hneg by (congruence || lia). cbn [bind]. rewrite conv_ull by lia.
      exists (- z + half w). assert (Hlt : - z < half w) by lia.
      unfold c_or. replace (Z.lor (- z) (half w)) with (- z + half w).
      * repeat split; try lia. destruct (Z.ltb_spec z 0); [|lia]. rewrite Z.mod_small; lia.
      * rewrite half_pow2 in * by lia.
        replace (2 ^ (bits w - 1)) with (Z.shiftl 1 (bits w - 1)) at 2
          by (rewrite Z.shiftl_mul_pow2 by (unfold bits; lia); lia).
        rewrite lor_disjoint; unfold bits in *; lia.
  - destruct (Z.leb_spec 0 z).
    + rewrite conv_ull by lia. exists z. repeat split; try lia.
      destruct (Z.ltb_spec z 0); [lia|]. apply Z.mod_small. lia.
    + rewrite Hneg by (congruence || lia). cbn [bind]. rewrite conv_ull by lia.
      rewrite c_not_ull. eexists. split; [reflexivity|]. split.
      { apply Z.mod_pos_bound. apply space_pos. }
      rewrite Hmod. destruct (Z.ltb_spec z 0); [|lia].
      replace (- - z - 1) with (space w - 1 + z + (-1) * space w) by ring.
      rewrite Z.mod_add by lia. apply Z.mod_small. lia.
  - destruct (Z.leb_spec 0 z).
    + rewrite conv_ull by lia. exists z. repeat split; try lia.
      destruct (Z.ltb_spec z 0); [lia|]. apply Z.mod_small. lia.
    + rewrite Hneg by (congruence || lia). cbn [bind].
      rewrite sub1_ok by (auto; lia). cbn [bind].
      rewrite c_not_signed by (auto; lia).
      unfold ull. rewrite conv_unsigned. eexists. split; [reflexivity|]. split.
      { apply Z.mod_pos_bound. apply space_pos. }
      rewrite Hmod. destruct (Z.ltb_spec z 0); [|lia].
      replace (- (- z - 1) - 1) with (space w + z + (-1) * space w) by ring.
      rewrite Z.mod_add by lia. apply Z.mod_small. lia.
  - unfold c_add, ull, arith. rewrite <- space_pow2.
    eexists. split; [reflexivity|]. split.
    { apply Z.mod_pos_bound. apply space_pos. }
    rewrite Hmod, conv_unsigned. rewrite Zplus_mod, Hmod, <- Zplus_mod.
    rewrite Z.mod_small; lia.
Qed.

Lemma undigits_indet_overwrite : forall bs g,
  undigits (overwrite g bs) mod space (length bs) = undigits bs mod space (length bs).
Proof.
  intros. unfold overwrite. rewrite undigits_app. pose proof (space_pos (length bs)).
  rewrite (Z.mul_comm (space _)), Z.mod_add by lia. reflexivity.
Qed.

Lemma indet_bytes_bytes : forall p n, wf_platform p -> Forall is_byte (indet_bytes p n).
Proof.
  intros p n Hp. unfold indet_bytes. apply Forall_forall. intros b Hb.
  apply in_map_iff in Hb. destruct Hb as (i & <- & _). apply Hp.
Qed.

Lemma indet_bytes_length : forall p n, length (indet_bytes p n) = n.
Proof. intros. unfold indet_bytes. rewrite map_length, seq_length. reflexivity. Qed.

Lemma Forall_skipn' : forall (P : Z -> Prop) n l, Forall P l -> Forall P (skipn n l).
Proof.
  intros P n l H. rewrite <- (firstn_skipn n l) in H. apply Forall_app in H. tauto.
Qed.

Lemma Forall_firstn' : forall (P : Z -> Prop) n l, Forall P l -> Forall P (firstn n l).
Proof.
  intros P n l H. rewrite <- (firstn_skipn n l) in H. apply Forall_app in H. tauto.
Qed.

Lemma obj_bytes_bytes : forall p T x, Forall is_byte (obj_bytes p T x).
Proof.
  intros. unfold obj_bytes. destruct (p_endianess p); [|apply Forall_rev]; apply digits_bytes.
Qed.

(** An unsigned object is determined by its bytes. *)
Lemma obj_value_ull : forall p bs, Forall is_byte bs -> length bs = 8%nat ->
  exists u, obj_value p ull bs = Ok u /\ 0 <= u < space 8 /\ obj_bytes p ull u = bs
            /\ (p_endianess p = LITTLE -> u = undigits bs).
Proof.
  intros p bs Hbs Hlen. unfold obj_value, ull.
  set (u := match p_endianess p with LITTLE => undigits bs | BIG => undigits (rev bs) end).
  assert (Hu : 0 <= u < space 8).
  { unfold u. destruct (p_endianess p).
    - pose proof (undigits_bounds _ Hbs). rewrite Hlen in H. auto.
    - pose proof (undigits_bounds _ (Forall_rev Hbs)). rewrite rev_length, Hlen in H. auto. }
  exists u. rewrite conv_unsigned, Z.mod_small by auto. split; [reflexivity|]. split; auto.
  split.
  - unfold obj_bytes, u. cbn [csizeof]. rewrite <- Hlen. destruct (p_endianess p).
    + apply digits_undigits; auto.
    + rewrite <- (rev_length bs), digits_undigits by (apply Forall_rev; auto). apply rev_involutive.
  - intros Hl. unfold u. rewrite Hl. reflexivity.
Qed.

Lemma digits_twos : forall w z, (1 <= w)%nat -> - half w <= z < half w ->
  digits w z = digits w (repr TWOS_COMPLEMENT w z).
Proof.
  intros. apply digits_eq_mod. cbn [repr]. pose proof (space_pos w).
  destruct (Z.ltb_spec z 0); auto.
  replace (space w + z) with (z + 1 * space w) by ring. rewrite Z.mod_add by lia. reflexivity.
Qed.

(** Writing a signed integer. *)
Theorem write_signed_ok : forall p e m w z mem off,
  wf_platform p -> (1 <= w <= 8)%nat -> - half w <= z < half w ->
  sig_host_ok p e m w -> sig_encodable p m w z ->
  (off + w <= length mem)%nat ->
  (tmp <- to_signed_mode p w m z;; to_endianess p ull e mem off tmp w)
  = Ok (splice mem off (wire_bytes e w (repr m w z))).
Proof.
  intros p e m w z mem off Hp Hw Hz Hhost Henc Hlen. unfold to_signed_mode.
  destruct (native_signed_mode p m) eqn:Em.
  - pose proof (native_signed_mode_eq p m Hp Em). subst m.
    destruct (obj_value_ull p (overwrite (indet_bytes p 8) (obj_bytes p (CInt w true) z)))
      as (u & Hu & Hub & Hob & Hul).
    { unfold overwrite. apply Forall_app. split; [apply obj_bytes_bytes|].
      apply Forall_skipn', indet_bytes_bytes; auto. }
    { unfold overwrite. rewrite app_length, skipn_length, indet_bytes_length, obj_bytes_length.
      cbn [csizeof]. lia. }
    rewrite Hu. cbn [bind].
    destruct (native_endianess p e) eqn:En.
    + unfold to_endianess. rewrite En. cbn [csizeof ull]. destruct (Nat.ltb_spec 8 w); [lia|].
      rewrite Hob. unfold overwrite.
      rewrite firstn_app, obj_bytes_length. cbn [csizeof]. rewrite Nat.sub_diag.
      rewrite firstn_O, app_nil_r, firstn_all2 by (rewrite obj_bytes_length; auto).
      rewrite store_range_ok by (rewrite obj_bytes_length; auto). f_equal. f_equal.
      rewrite wire_bytes_digits. unfold obj_bytes. rewrite (native_endianess_eq p e Hp En).
      cbn [csizeof]. rewrite digits_twos by lia. destruct e; reflexivity.
    + rewrite to_endianess_narrow; auto; try lia; try congruence.
      f_equal. f_equal. rewrite <- (wire_bytes_mod _ _ u), <- (wire_bytes_mod _ _ (repr _ _ _)).
      f_equal.
      assert (Hw8 : p_endianess p = LITTLE \/ (w = 8)%nat).
      { destruct Hhost as [?|[?|?]]; auto. congruence. }
      destruct Hw8 as [Hl|Hw8].
      * rewrite (Hul Hl).
        assert (Hlen2 : length (obj_bytes p (CInt w true) z) = w) by apply obj_bytes_length.
        rewrite <- Hlen2 at 2. rewrite undigits_indet_overwrite.
        rewrite Hlen2. unfold obj_bytes. rewrite Hl. cbn [csizeof].
        rewrite undigits_digits, Z.mod_mod by (pose proof (space_pos w); lia).
        cbn [repr]. destruct (Z.ltb_spec z 0); auto.
        replace (space w + z) with (z + 1 * space w) by ring.
        rewrite Z.mod_add by (pose proof (space_pos w); lia). reflexivity.
      * subst w. unfold overwrite in Hob. rewrite obj_bytes_length in Hob. cbn [csizeof] in Hob.
        rewrite skipn_all2 in Hob by (rewrite indet_bytes_length; auto). rewrite app_nil_r in Hob.
        assert (Hd : digits 8 u = digits 8 z).
        { unfold obj_bytes in Hob. cbn [csizeof ull] in Hob. destruct (p_endianess p); auto.
          apply (f_equal (@rev Z)) in Hob. rewrite !rev_involutive in Hob. auto. }
        apply (f_equal undigits) in Hd. rewrite !undigits_digits in Hd. rewrite Hd.
        cbn [repr]. destruct (Z.ltb_spec z 0); auto.
        replace (space 8 + z) with (z + 1 * space 8) by ring.
        rewrite Z.mod_add by (pose proof (space_pos 8); lia). reflexivity.
  - destruct (to_signed_mode_impl_ok p w m z) as (u & Hu & Hub & Hmod); auto.
    { intros E. subst z. destruct Henc as [Henc|Henc]; [lia|].
      destruct m; cbn [min_ok] in Henc; auto. destruct Henc; [auto|congruence]. }
    rewrite Hu. cbn [bind].
    rewrite to_endianess_narrow; auto; try lia.
    + rewrite <- Hmod, wire_bytes_mod. reflexivity.
    + intros En. destruct Hhost as [?|[?|?]]; auto. congruence.
Qed.

(** ** Reading *)

Lemma land_pow2 : forall v k, 0 <= k -> 0 <= v < 2 ^ (k + 1) ->
  negb (Z.land v (2 ^ k) =? 0) = negb (v <? 2 ^ k).
Proof.
  intros v k Hk Hv. rewrite Z.pow_add_r, Z.pow_1_r in Hv by lia.
  f_equal. destruct (Z.ltb_spec v (2 ^ k)).
  - apply Z.eqb_eq. apply Z.bits_inj'. intros i Hi.
    rewrite Z.land_spec, Z.bits_0, Z.pow2_bits_eqb by lia.
    destruct (Z.eqb_spec k i); [|apply andb_false_r]. subst i.
    rewrite Z.testbit_odd, Z.shiftr_div_pow2, Z.div_small by lia. reflexivity.
  - apply Z.eqb_neq. intros E.
    assert (Ht : Z.testbit (Z.land v (2 ^ k)) k = false) by (rewrite E; apply Z.bits_0).
    rewrite Z.land_spec, Z.pow2_bits_eqb, Z.eqb_refl, andb_true_r in Ht by lia.
    rewrite Z.testbit_odd, Z.shiftr_div_pow2 in Ht by lia.
    replace (v / 2 ^ k) with 1 in Ht; [discriminate|].
    apply (Z.div_unique v (2 ^ k) 1 (v - 2 ^ k)); lia.
Qed.

Lemma sign_test : forall w v, (1 <= w <= 8)%nat -> 0 <= v < space w ->
  negb (c_and v (sign_mask w) =? 0) = negb (v <? half w).
Proof.
  intros. rewrite sign_mask_half by auto. rewrite half_pow2 by lia. apply land_pow2.
  - unfold bits. lia.
  - rewrite space_pow2 in H0. replace (bits w - 1 + 1) with (bits w) by lia. auto.
Qed.

Lemma unrepr_bounds : forall m w u, (1 <= w <= 8)%nat -> 0 <= u < space w ->
  - half w <= unrepr m w u < half w.
Proof.
  intros m w u Hw Hu. pose proof (space_half w ltac:(lia)).
  destruct m; cbn [unrepr]; try destruct (Z.ltb_spec u (half w)); lia.
Qed.

Lemma from_signed_mode_impl_eq : forall p w m v,
  wf_platform p -> (1 <= w <= 8)%nat -> 0 <= v < space w ->
  from_signed_mode_impl p w m v =
  match m with
  | TWOS_COMPLEMENT =>
      if (v =? half w) && negb (w <? p_int_size p)%nat then Fault SignedOverflow
      else Ok (unrepr m w v)
  | _ => Ok (unrepr m w v)
  end.
Proof.
  intros p w m v Hp Hw Hv.
  pose proof (half_le_8 w Hw) as [Hh H8]. pose proof (space_half w ltac:(lia)) as Hsp.
  assert (Hmod : forall a, (a mod space 8) mod space w = a mod space w)
    by (intros; apply mod_mod_space; lia).
  unfold from_signed_mode_impl. rewrite sign_test by auto.
  destruct m; cbn [unrepr].
  - destruct (Z.ltb_spec v (half w)); cbn [negb].
    + rewrite conv_signed_range by lia. reflexivity.
    + rewrite magnitude_mask_half by auto. unfold c_and.
      replace (half w - 1) with (Z.ones (bits w - 1))
        by (rewrite half_pow2, Z.ones_equiv by lia; lia).
      rewrite Z.land_ones by (unfold bits; lia). rewrite <- half_pow2 by lia.
      replace (v mod half w) with (v - half w)
        by (apply Z.mod_unique with 1; lia).
      rewrite conv_signed_range by lia. rewrite neg_ok by (auto; lia). cbn [bind].
      rewrite conv_signed_range by lia. reflexivity.
  - destruct (Z.ltb_spec v (half w)); cbn [negb].
    + rewrite conv_signed_range by lia. reflexivity.
    + rewrite c_not_ull.
      assert (E : ((- v - 1) mod space 8) mod space w = (space w - 1 - v) mod space w).
      { rewrite Hmod. replace (space w - 1 - v) with (- v - 1 + 1 * space w) by ring.
        rewrite Z.mod_add by lia. reflexivity. }
      rewrite (conv_signed_eq w _ _ (proj1 Hw) E). clear E.
      rewrite conv_signed_range by lia. rewrite neg_ok by (auto; lia). cbn [bind].
      rewrite conv_signed_range by lia. reflexivity.
  - destruct (Z.ltb_spec v (half w)); cbn [negb].
    + rewrite conv_signed_range by lia.
      destruct (Z.eqb_spec v (half w)); [lia|]. reflexivity.
    + rewrite c_not_ull. unfold c_add, ull, arith. rewrite <- space_pow2. cbn [bind].
      assert (E : (((- v - 1) mod space 8 + 1) mod space 8) mod space w = (space w - v) mod space w).
      { rewrite Hmod, Zplus_mod, Hmod, <- Zplus_mod.
        replace (space w - v) with (- v - 1 + 1 + 1 * space w) by ring.
        rewrite Z.mod_add by lia. reflexivity. }
      rewrite (conv_signed_eq w _ _ (proj1 Hw) E). clear E.
      destruct (Z.eqb_spec v (half w)) as [Ev|Ev].
      * subst v.
        assert (E2 : (space w - half w) mod space w = (- half w) mod space w).
        { replace (space w - half w) with (- half w + 1 * space w) by lia.
          rewrite Z.mod_add by lia. reflexivity. }
        rewrite (conv_signed_eq w _ _ (proj1 Hw) E2). clear E2.
        rewrite (conv_signed_range w (- half w)) by lia.
        destruct (Nat.ltb_spec w (p_int_size p)); cbn [andb negb].
        -- rewrite neg_min_narrow by (auto; lia). cbn [bind]. f_equal.
           assert (E3 : half w mod space w = (- half w) mod space w).
           { replace (half w) with (- half w + 1 * space w) at 1 by lia.
             rewrite Z.mod_add by lia. reflexivity. }
           rewrite (conv_signed_eq w _ _ (proj1 Hw) E3). clear E3.
           rewrite conv_signed_range; lia.
        -- rewrite neg_min_wide by lia. reflexivity.
      * rewrite conv_signed_range by lia. rewrite neg_ok by (auto; lia). cbn [bind andb].
        rewrite conv_signed_range by lia. f_equal. lia.
  - unfold c_sub, ull, arith. rewrite <- space_pow2, sign_mask_half by auto. cbn [bind].
    rewrite (conv_signed_eq w _ _ (proj1 Hw) (Hmod (v - half w))).
    rewrite conv_signed_range by lia. reflexivity.
Qed.

Lemma conv_twos : forall w v, (1 <= w <= 8)%nat -> 0 <= v < space w ->
  conv (CInt w true) v = unrepr TWOS_COMPLEMENT w v.
Proof.
  intros w v Hw Hv. cbn [conv unrepr]. rewrite <- space_pow2, <- half_pow2 by lia.
  rewrite Z.mod_small by auto. reflexivity.
Qed.

(** Reading a signed integer. *)
Theorem read_signed_eq : forall p e m w mem off,
  wf_platform p -> (1 <= w <= 8)%nat -> sig_host_ok p e m w ->
  (off + w <= length mem)%nat -> Forall is_byte mem ->
  let u := wire_value e (slice mem off w) in
  (tmp <- from_endianess p ull e mem off w;; from_signed_mode p w m tmp)
  = match m with
    | TWOS_COMPLEMENT =>
        if (u =? half w) && negb (w <? p_int_size p)%nat && negb (native_signed_mode p m)
        then Fault SignedOverflow else Ok (unrepr m w u)
    | _ => Ok (unrepr m w u)
    end.
Proof.
  intros p e m w mem off Hp Hw Hhost Hlen Hmem u.
  assert (Hs : Forall is_byte (slice mem off w)) by (apply Forall_slice; auto).
  assert (Hsl : length (slice mem off w) = w) by (apply slice_length; auto).
  assert (Hu : 0 <= u < space w).
  { pose proof (wire_value_bounds e _ Hs). rewrite Hsl in H. auto. }
  unfold from_signed_mode. destruct (native_signed_mode p m) eqn:Em.
  - pose proof (native_signed_mode_eq p m Hp Em). subst m.
    cbn [negb]. rewrite andb_false_r.
    destruct (native_endianess p e) eqn:En.
    + unfold from_endianess. rewrite En, load_range_ok by auto. cbn [bind csizeof ull].
      destruct (Nat.ltb_spec 8 w); [lia|].
      destruct (obj_value_ull p (overwrite (obj_bytes p ull (conv ull 0)) (slice mem off w)))
        as (v & Hv & Hvb & Hob & _).
      { unfold overwrite. apply Forall_app. split; auto. apply Forall_skipn', obj_bytes_bytes. }
      { unfold overwrite. rewrite app_length, skipn_length, obj_bytes_length, Hsl. cbn [csizeof ull]. lia. }
      rewrite Hv. cbn [bind]. rewrite Hob. unfold overwrite.
      rewrite firstn_app, Hsl, Nat.sub_diag, firstn_O, app_nil_r, firstn_all2 by lia.
      unfold obj_value. rewrite (native_endianess_eq p e Hp En).
      f_equal. rewrite <- conv_twos by auto. f_equal. unfold u. rewrite wire_value_undigits.
      reflexivity.
    + rewrite from_endianess_narrow by (auto; try lia; congruence). cbn [bind]. fold u.
      assert (Hw8 : p_endianess p = LITTLE \/ (w = 8)%nat).
      { destruct Hhost as [?|[?|?]]; auto. congruence. }
      unfold obj_value. f_equal. rewrite <- conv_twos by auto.
      apply conv_signed_eq; [lia|]. destruct Hw8 as [Hl|Hw8].
      * unfold obj_bytes. rewrite Hl. cbn [csizeof ull]. rewrite digits_firstn by lia.
        rewrite undigits_digits. apply Z.mod_mod. pose proof (space_pos w). lia.
      * subst w. rewrite firstn_all2 by (rewrite obj_bytes_length; auto).
        unfold obj_bytes. cbn [csizeof ull].
        destruct (p_endianess p); rewrite ?rev_involutive, undigits_digits; apply Z.mod_mod;
          pose proof (space_pos 8); lia.
  - rewrite from_endianess_narrow; auto; try lia.
    2:{ intros En. destruct Hhost as [?|[?|?]]; auto. congruence. }
    cbn [bind negb]. fold u. rewrite from_signed_mode_impl_eq by auto.
    destruct m; auto. rewrite andb_true_r. reflexivity.
Qed.

Theorem read_signed_ok : forall p e m w mem off,
  wf_platform p -> (1 <= w <= 8)%nat -> sig_host_ok p e m w ->
  (off + w <= length mem)%nat -> Forall is_byte mem ->
  sig_decodable p m w (wire_value e (slice mem off w)) ->
  (tmp <- from_endianess p ull e mem off w;; from_signed_mode p w m tmp)
  = Ok (unrepr m w (wire_value e (slice mem off w))).
Proof.
  intros p e m w mem off Hp Hw Hhost Hlen Hmem Hdec.
  rewrite read_signed_eq by auto. destruct m; auto.
  destruct (Z.eqb_spec (wire_value e (slice mem off w)) (half w)); auto.
  destruct (Hdec eq_refl e0) as [H|H].
  - destruct (Nat.ltb_spec w (p_int_size p)); [reflexivity|lia].
  - rewrite H. cbn [negb]. rewrite !andb_false_r. reflexivity.
Qed.

(** ** Textbook representations *)

Lemma unrepr_repr : forall m w z, (1 <= w <= 8)%nat -> representable m w z ->
  unrepr m w (repr m w z) = z.
Proof.
  intros m w z Hw Hz. pose proof (space_half w ltac:(lia)). pose proof (half_pos w ltac:(lia)).
  destruct m; cbn [unrepr repr representable] in *; try destruct (Z.ltb_spec z 0);
    repeat match goal with |- context [?a <? ?b] => destruct (Z.ltb_spec a b) end; lia.
Qed.

Lemma repr_unrepr : forall m w u, (1 <= w <= 8)%nat -> 0 <= u < space w ->
  repr m w (unrepr m w u) =
  match m with
  | SIGNED_MAGNITUDE => if u =? half w then 0 else u
  | ONES_COMPLEMENT => if u =? space w - 1 then 0 else u
  | _ => u
  end.
Proof.
  intros m w u Hw Hu. pose proof (space_half w ltac:(lia)). pose proof (half_pos w ltac:(lia)).
  destruct m; cbn [unrepr repr] in *;
    repeat match goal with
    | |- context [?a <? ?b] => destruct (Z.ltb_spec a b)
    | |- context [?a =? ?b] => destruct (Z.eqb_spec a b)
    end; lia.
Qed.

Lemma repr_in_space : forall m w z, (1 <= w <= 8)%nat -> representable m w z ->
  0 <= repr m w z < space w.
Proof.
  intros. apply repr_bounds; auto; destruct m; cbn [representable] in *; try lia;
    intros [|]; try discriminate; lia.
Qed.
