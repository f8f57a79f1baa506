(** Consequences of the codec lemmas used by the Properties files. *)

From Coq Require Import List ZArith Bool Arith Lia ZifyBool ZifyNat.
From Verif Require Import Base CInt IntModel Spec Conditions TypeLevel Serial
  MemFacts IntProofs SignedProofs TypeLevelProofs SerialProofs.
Import ListNotations.
Open Scope Z_scope.

(** ** Integers, as values of types *)

Lemma write_uns : forall p e m w z mem off,
  wf_platform p -> (1 <= w <= 8)%nat -> 0 <= z < space w -> (off + w <= length mem)%nat ->
  write_as p e m (TUns w) (VInt z) mem off = Ok (splice mem off (wire_bytes e w z)).
Proof.
  intros. apply (write_as_ok p e m ltac:(auto) (TUns w) (VInt z)); auto.
  - unfold ty_ok; cbn; auto.
  - split; cbn; auto.
Qed.

Lemma write_bool : forall p e m z mem off,
  wf_platform p -> z = 0 \/ z = 1 -> (off + 1 <= length mem)%nat ->
  write_as p e m TBool (VInt z) mem off = Ok (splice mem off [z]).
Proof.
  intros. rewrite (write_as_ok p e m ltac:(auto) TBool (VInt z)); auto.
  - f_equal. f_equal. destruct H0; subst; destruct e; reflexivity.
  - unfold ty_ok; cbn; auto.
  - split; cbn; auto.
Qed.

Lemma write_sig : forall p e m w z mem off,
  wf_platform p -> (1 <= w <= 8)%nat -> - half w <= z < half w ->
  sig_host_ok p e m w -> sig_encodable p m w z -> (off + w <= length mem)%nat ->
  write_as p e m (TSig w) (VInt z) mem off = Ok (splice mem off (wire_bytes e w (repr m w z))).
Proof.
  intros. apply (write_as_ok p e m ltac:(auto) (TSig w) (VInt z)); auto.
  - unfold ty_ok; cbn; auto.
  - split; cbn; auto.
Qed.

(** ** Round trip for every type *)

Lemma roundtrip : forall p q e m t v mem off,
  wf_platform p -> wf_platform q -> ty_ok p e m t -> ty_ok q e m t ->
  encodable p m t v -> encodable q m t v ->
  Forall is_byte mem -> (off + wire_size t <= length mem)%nat ->
  exists mem', write_as p e m t v mem off = Ok mem' /\ read_as q e m t mem' off = Ok v
               /\ length mem' = length mem.
Proof.
  intros p q e m t v mem off Hp Hq Hokp Hokq Hv Hvq Hb Hl.
  assert (Hlen : length (enc e m t v) = wire_size t) by (apply enc_length; apply Hv).
  exists (splice mem off (enc e m t v)). split; [|split].
  - apply write_as_ok; auto.
  - assert (Hs : slice (splice mem off (enc e m t v)) off (wire_size t) = enc e m t v).
    { rewrite <- Hlen. apply slice_splice_same. lia. }
    rewrite read_as_ok; auto.
    + rewrite Hs. f_equal. apply (dec_enc p); auto. apply Hokp.
    + apply Forall_splice; auto. apply enc_bytes.
    + rewrite splice_length; lia.
    + rewrite Hs. apply encodable_decodable; auto. apply Hokq.
  - apply splice_length. lia.
Qed.

(** ** Decoded values are values of the type *)

Lemma firstn_length_sum : forall (bs : list Z) a b, length bs = (a + b)%nat ->
  length (firstn a bs) = a /\ length (skipn a bs) = b.
Proof. intros. rewrite firstn_length, skipn_length. lia. Qed.

Lemma chunks_forall : forall (P : list Z -> Prop) k n bs,
  length bs = (n * k)%nat -> Forall is_byte bs ->
  (forall c, length c = k -> Forall is_byte c -> P c) -> Forall P (chunks k n bs).
Proof.
  intros P k. induction n as [|n IH]; intros bs Hl Hb HP; cbn [chunks]; constructor.
  - apply HP; [rewrite firstn_length; lia|]. apply Forall_firstn'; auto.
  - apply IH; auto; [rewrite skipn_length; lia|]. apply Forall_skipn'; auto.
Qed.

Lemma dec_has_type : forall e m t bs, wf_ty t -> length bs = wire_size t -> Forall is_byte bs ->
  has_type t (dec e m t bs).
Proof.
  intros e m. induction t using ty_ind_nested; intros bs Hwf Hl Hb; cbn [wf_ty wire_size] in *.
  - cbn [dec has_type]. destruct (_ =? 0); auto.
  - cbn [dec has_type]. rewrite <- Hl. apply wire_value_bounds; auto.
  - cbn [dec has_type]. apply unrepr_bounds; auto. rewrite <- Hl. apply wire_value_bounds; auto.
  - destruct Hwf as (_ & _ & Hwf). cbn [dec has_type]. rewrite map_length, chunks_length. split; auto.
    apply Forall_map. apply chunks_forall; auto.
  - rewrite dec_user. apply has_type_user. apply (wf_ty_user s) in Hwf. revert bs Hl Hb.
    induction H as [|f fs Hf Hfs IH]; intros bs Hl Hb; cbn [dec_list]; constructor;
      inversion Hwf; subst; change (list_sum (map wire_size (f :: fs)))
        with (wire_size f + list_sum (map wire_size fs))%nat in Hl;
      destruct (firstn_length_sum bs _ _ Hl).
    + apply Hf; auto. apply Forall_firstn'; auto.
    + apply IH; auto. apply Forall_skipn'; auto.
Qed.

Lemma dec_list_has_types : forall e m ts bs, Forall wf_ty ts ->
  length bs = list_sum (map wire_size ts) -> Forall is_byte bs ->
  Forall2 has_type ts (dec_list e m ts bs).
Proof.
  intros. assert (Ht : has_type (TUser 0 ts) (dec e m (TUser 0 ts) bs)).
  { apply dec_has_type; auto. apply wf_ty_user; auto. }
  rewrite dec_user in Ht. apply has_type_user in Ht. auto.
Qed.

(** ** Re-encoding *)

Lemma concat_chunks : forall k n bs, length bs = (n * k)%nat -> concat (chunks k n bs) = bs.
Proof.
  intros k. induction n as [|n IH]; intros bs Hl; cbn [chunks concat].
  - destruct bs; auto. discriminate.
  - rewrite IH by (rewrite skipn_length; lia). apply firstn_skipn.
Qed.

Lemma enc_dec : forall e m t bs, wf_ty t -> length bs = wire_size t -> Forall is_byte bs ->
  canonical e m t bs -> enc e m t (dec e m t bs) = bs.
Proof.
  intros e m. induction t using ty_ind_nested; intros bs Hwf Hl Hb Hc; cbn [wf_ty wire_size] in *.
  - cbn [dec enc canonical] in *.
    assert (Hw := wire_bytes_value e bs Hb). rewrite Hl in Hw. rewrite <- Hw at 2.
    destruct Hc as [Hc|Hc]; rewrite Hc; reflexivity.
  - cbn [dec enc]. rewrite <- Hl. apply wire_bytes_value; auto.
  - cbn [dec enc canonical] in *.
    assert (Hu : 0 <= wire_value e bs < space w) by (rewrite <- Hl; apply wire_value_bounds; auto).
    rewrite repr_unrepr by auto.
    assert (Hw := wire_bytes_value e bs Hb). rewrite Hl in Hw.
    destruct m; cbn [negative_zero] in Hc; auto.
    + destruct (Z.eqb_spec (wire_value e bs) (half w)); [contradiction|auto].
    + destruct (Z.eqb_spec (wire_value e bs) (space w - 1)); [contradiction|auto].
  - destruct Hwf as (_ & _ & Hwf). cbn [dec enc canonical] in *. rewrite flat_map_concat_map, map_map.
    rewrite <- (concat_chunks (wire_size t) n bs Hl) at 2. f_equal.
    rewrite <- (map_id (chunks (wire_size t) n bs)) at 2. apply map_ext_in. intros c Hin.
    assert (Hch : Forall (fun c => length c = wire_size t /\ Forall is_byte c) (chunks (wire_size t) n bs))
      by (apply chunks_forall; auto).
    rewrite Forall_forall in Hch, Hc. destruct (Hch c Hin). auto.
  - rewrite dec_user, enc_user. apply (wf_ty_user s) in Hwf. cbn [canonical] in Hc. revert bs Hl Hb Hc.
    induction H as [|f fs Hf Hfs IH]; intros bs Hl Hb Hc; cbn [dec_list enc_list].
    + destruct bs; auto. discriminate.
    + inversion Hwf; subst. change (list_sum (map wire_size (f :: fs)))
        with (wire_size f + list_sum (map wire_size fs))%nat in Hl.
      destruct (firstn_length_sum bs _ _ Hl). destruct Hc as [Hc1 Hc2].
      rewrite Hf; auto using Forall_firstn'. rewrite IH; auto using Forall_skipn'.
      apply firstn_skipn.
Qed.

(** What can be decoded can be encoded again. *)
Lemma decodable_encodable : forall p e m t bs, wf_ty t -> length bs = wire_size t ->
  Forall is_byte bs -> decodable p e m t bs -> encodable p m t (dec e m t bs).
Proof.
  intros p e m. induction t using ty_ind_nested; intros bs Hwf Hl Hb Hd.
  - split; [apply dec_has_type; auto|exact I].
  - split; [apply dec_has_type; auto|exact I].
  - split; [apply dec_has_type; auto|]. cbn [wf_ty wire_size decodable dec all_signed] in *.
    assert (Hu : 0 <= wire_value e bs < space w) by (rewrite <- Hl; apply wire_value_bounds; auto).
    pose proof (half_pos w ltac:(lia)). pose proof (space_half w ltac:(lia)).
    unfold sig_encodable. unfold sig_decodable in Hd.
    destruct m; cbn [unrepr min_ok] in *.
    + left. destruct (Z.ltb_spec (wire_value e bs) (half w)); lia.
    + left. destruct (Z.ltb_spec (wire_value e bs) (half w)); lia.
    + destruct (Z.eq_dec (wire_value e bs) (half w)).
      * right. auto.
      * left. destruct (Z.ltb_spec (wire_value e bs) (half w)); lia.
    + right. exact I.
  - cbn [dec]. apply encodable_arr. rewrite map_length, chunks_length. split; auto.
    apply Forall_map. cbn [wf_ty wire_size decodable] in *. destruct Hwf as (_ & _ & Hwf).
    assert (Hch : Forall (fun c => length c = wire_size t /\ Forall is_byte c) (chunks (wire_size t) n bs))
      by (apply chunks_forall; auto).
    rewrite Forall_forall in *. intros c Hin. destruct (Hch c Hin). auto.
  - rewrite dec_user. apply encodable_user. apply wf_ty_user in Hwf. apply decodable_user in Hd.
    rewrite wire_size_user in Hl. revert bs Hl Hb Hd.
    induction H as [|f fs Hf Hfs IH]; intros bs Hl Hb Hd; cbn [dec_list]; constructor;
      inversion Hwf; subst; change (list_sum (map wire_size (f :: fs)))
        with (wire_size f + list_sum (map wire_size fs))%nat in Hl;
      destruct (firstn_length_sum bs _ _ Hl); destruct Hd as [Hd1 Hd2].
    + apply Hf; auto. apply Forall_firstn'; auto.
    + apply IH; auto. apply Forall_skipn'; auto.
Qed.

Lemma decodable_encodable_list : forall p e m ts bs, Forall wf_ty ts ->
  length bs = list_sum (map wire_size ts) -> Forall is_byte bs ->
  decodable_list p e m ts bs -> Forall2 (encodable p m) ts (dec_list e m ts bs).
Proof.
  intros. apply (encodable_user p m 0). rewrite <- (dec_user e m 0). apply decodable_encodable; auto.
  - apply wf_ty_user. auto.
  - apply decodable_user. auto.
Qed.

(** Negative zeros. *)
Lemma unrepr_neg_zero : forall m w u, (1 <= w <= 8)%nat -> negative_zero m w u -> unrepr m w u = 0.
Proof.
  intros m w u Hw H. pose proof (half_pos w ltac:(lia)). pose proof (space_half w ltac:(lia)).
  destruct m; cbn [negative_zero unrepr] in *; try contradiction; subst;
    destruct (Z.ltb_spec (half w) (half w)), (Z.ltb_spec (space w - 1) (half w)); lia.
Qed.

(** ** The minimum of signed types *)

Lemma write_min_wide : forall p e m w mem off,
  wf_platform p -> (1 <= w <= 8)%nat -> (p_int_size p <= w)%nat ->
  native_signed_mode p m = false -> m <> OFFSET_BINARY ->
  write_as p e m (TSig w) (VInt (- half w)) mem off = Fault SignedOverflow.
Proof.
  intros p e m w mem off Hp Hw Hi Hn Hm. cbn [write_as]. unfold to_signed_mode. rewrite Hn.
  unfold to_signed_mode_impl. pose proof (half_pos w ltac:(lia)).
  replace (0 <=? - half w) with false by (symmetry; apply Z.leb_gt; lia).
  pose proof (neg_min_wide p w ltac:(lia) Hi) as Hneg.
  destruct m; try contradiction; rewrite Hneg; reflexivity.
Qed.

Lemma read_min_wide : forall p e w mem off,
  wf_platform p -> (1 <= w <= 8)%nat -> (p_int_size p <= w)%nat ->
  sig_host_ok p e TWOS_COMPLEMENT w -> native_signed_mode p TWOS_COMPLEMENT = false ->
  Forall is_byte mem -> (off + w <= length mem)%nat ->
  slice mem off w = wire_bytes e w (half w) ->
  read_as p e TWOS_COMPLEMENT (TSig w) mem off = Fault SignedOverflow.
Proof.
  intros p e w mem off Hp Hw Hi Hh Hn Hb Hl Hs. cbn [read_as sizeof]. rewrite <- bind_assoc.
  rewrite read_signed_eq by auto. rewrite Hs, wire_value_bytes.
  pose proof (half_pos w ltac:(lia)). pose proof (space_half w ltac:(lia)).
  rewrite Z.mod_small by lia. rewrite Z.eqb_refl, Hn.
  destruct (Nat.ltb_spec w (p_int_size p)); [lia|]. reflexivity.
Qed.

(** Exact result of reading a signed integer. *)
Lemma read_sig_exact : forall p e m w mem off,
  wf_platform p -> (1 <= w <= 8)%nat -> sig_host_ok p e m w ->
  (off + w <= length mem)%nat -> Forall is_byte mem ->
  (sig_decodable p m w (wire_value e (slice mem off w))
   /\ read_as p e m (TSig w) mem off = Ok (VInt (unrepr m w (wire_value e (slice mem off w)))))
  \/ (~ sig_decodable p m w (wire_value e (slice mem off w))
      /\ read_as p e m (TSig w) mem off = Fault SignedOverflow).
Proof.
  intros p e m w mem off Hp Hw Hh Hl Hb. cbn [read_as sizeof]. rewrite <- bind_assoc.
  rewrite read_signed_eq by auto. unfold sig_decodable, twos_min_ok.
  destruct m; try (left; split; [discriminate|reflexivity]).
  destruct (Z.eqb_spec (wire_value e (slice mem off w)) (half w)) as [Hu|Hu].
  2:{ left. split; [contradiction|reflexivity]. }
  destruct (Nat.ltb_spec w (p_int_size p)).
  { left. split; [auto|reflexivity]. }
  destruct (native_signed_mode p TWOS_COMPLEMENT); cbn [andb negb].
  { left. split; [auto|reflexivity]. }
  right. split; [|reflexivity]. intros X. destruct (X eq_refl Hu); [lia|discriminate].
Qed.

Lemma splice_inj : forall mem off a b, length a = length b -> (off + length a <= length mem)%nat ->
  splice mem off a = splice mem off b -> a = b.
Proof.
  intros mem off a b Hl Hm H. apply (f_equal (fun x => slice x off (length a))) in H.
  rewrite slice_splice_same in H by auto. rewrite Hl in H. rewrite slice_splice_same in H by lia. auto.
Qed.

(** ** Mixed shortcuts on big endian hosts *)

Lemma digits_skipn : forall k w u, skipn k (digits (k + w) u) = digits w (u / space k).
Proof.
  induction k as [|k IH]; intros w u.
  - cbn [skipn Nat.add]. rewrite space_0, Z.div_1_r. reflexivity.
  - cbn [Nat.add digits skipn]. rewrite IH, space_S.
    rewrite Z.div_div; [reflexivity|lia|apply space_pos].
Qed.

Lemma sig_host_not_ok : forall p e m w, wf_platform p -> (1 <= w <= 8)%nat ->
  ~ sig_host_ok p e m w ->
  (w < 8)%nat /\ p_endianess p = BIG
  /\ ((native_endianess p e = true /\ native_signed_mode p m = false)
      \/ (native_endianess p e = false /\ native_signed_mode p m = true)).
Proof.
  intros p e m w Hp Hw H. unfold sig_host_ok in H.
  destruct (Nat.eq_dec w 8); [tauto|]. destruct (p_endianess p); [tauto|].
  repeat split; auto; [lia|].
  destruct (native_endianess p e), (native_signed_mode p m); tauto.
Qed.

Lemma to_signed_mode_impl_1 : forall p w m, (1 <= w < 8)%nat ->
  to_signed_mode_impl p w m 1 = Ok (repr m w 1).
Proof.
  intros p w m Hw. pose proof (half_le_8 w ltac:(lia)). pose proof (half_ge w ltac:(lia)).
  destruct m; cbn [to_signed_mode_impl repr]; cbn [Z.leb Z.compare Z.ltb]; try (rewrite conv_ull by lia; reflexivity).
  rewrite conv_ull by lia. rewrite sign_mask_half by lia.
  unfold c_add, arith, ull. rewrite <- space_pow2. rewrite Z.mod_small by lia. f_equal. lia.
Qed.

Lemma repr_1 : forall m w, (1 <= w <= 8)%nat -> 1 <= repr m w 1 < space w.
Proof.
  intros m w Hw. pose proof (half_ge w ltac:(lia)). pose proof (space_half w ltac:(lia)).
  destruct m; cbn [repr]; cbn [Z.ltb Z.compare]; lia.
Qed.

Lemma mixed_A : forall p e m w mem off, wf_platform p -> (1 <= w < 8)%nat ->
  p_endianess p = BIG -> native_endianess p e = true -> native_signed_mode p m = false ->
  (off + w <= length mem)%nat ->
  write_as p e m (TSig w) (VInt 1) mem off <> Ok (splice mem off (wire_bytes e w (repr m w 1))).
Proof.
  intros p e m w mem off Hp Hw Hb Hne Hns Hl.
  pose proof (native_endianess_eq p e Hp Hne) as He. rewrite Hb in He. subst e.
  cbn [write_as sizeof]. unfold to_signed_mode. rewrite Hns, to_signed_mode_impl_1 by auto. cbn [bind].
  unfold to_endianess. rewrite Hne. change (csizeof ull) with 8%nat.
  destruct (Nat.ltb_spec 8 w); [lia|].
  set (u := repr m w 1). assert (Hu : 1 <= u < space w) by (apply repr_1; lia).
  unfold obj_bytes. rewrite Hb. change (csizeof ull) with 8%nat.
  assert (Hf : firstn w (rev (digits 8 u)) = rev (digits w (u / space (8 - w)))).
  { rewrite <- digits_skipn. replace (8 - w + w)%nat with 8%nat by lia.
    rewrite firstn_rev. rewrite digits_length. reflexivity. }
  rewrite Hf. rewrite store_range_ok by (rewrite rev_length, digits_length; lia).
  intros Heq0.
  assert (Heq : splice mem off (rev (digits w (u / space (8 - w)))) = splice mem off (wire_bytes BIG w u))
    by congruence.
  apply splice_inj in Heq; [|rewrite rev_length, digits_length, wire_bytes_length; reflexivity
                            |rewrite rev_length, digits_length; lia].
  rewrite wire_bytes_digits in Heq.
  apply (f_equal (fun l => undigits (rev l))) in Heq. rewrite !rev_involutive, !undigits_digits in Heq.
  pose proof (space_mono 1 (8 - w) ltac:(lia)) as Hsp. change (space 1) with 256 in Hsp.
  assert (Hd : 0 <= u / space (8 - w) < u).
  { split; [apply Z.div_pos; lia|]. apply Z.div_lt; lia. }
  rewrite !Z.mod_small in Heq by lia. lia.
Qed.

Lemma mixed_B : forall p e m w mem off z, wf_platform p -> (1 <= w < 8)%nat ->
  p_endianess p = BIG -> native_endianess p e = false -> native_signed_mode p m = true ->
  (off + w <= length mem)%nat ->
  z mod space w * space (8 - w) mod space w = 0 ->
  write_as p e m (TSig w) (VInt z) mem off
  = Ok (splice mem off (wire_bytes e w (undigits (rev (skipn w (indet_bytes p 8)))))).
Proof.
  intros p e m w mem off z Hp Hw Hb Hne Hns Hl Hz.
  cbn [write_as sizeof]. unfold to_signed_mode. rewrite Hns.
  unfold obj_value. rewrite Hb. change ull with (CInt 8 false) at 1. cbv iota. cbn [bind].
  set (g := skipn w (indet_bytes p 8)).
  assert (Hg : length g = (8 - w)%nat) by (unfold g; rewrite skipn_length, indet_bytes_length; lia).
  assert (Hgb : Forall is_byte g) by (apply Forall_skipn'; apply indet_bytes_bytes; auto).
  unfold overwrite. rewrite obj_bytes_length. cbn [csizeof]. fold g.
  unfold obj_bytes. rewrite Hb. cbn [csizeof].
  rewrite rev_app_distr, rev_involutive, undigits_app, rev_length, Hg, undigits_digits.
  match goal with |- context [conv ull ?x] => change (conv ull x) with (conv (CInt 8 false) x) end.
  rewrite conv_unsigned.
  rewrite to_endianess_narrow; auto; try lia; try (intros; congruence).
  - f_equal. f_equal.
    rewrite <- wire_bytes_mod. rewrite mod_mod_space by lia.
    rewrite <- (wire_bytes_mod e w (undigits (rev g))). f_equal.
    rewrite <- Z.add_mod_idemp_r by (pose proof (space_pos w); lia).
    rewrite (Z.mul_comm (space (8 - w))), Hz, Z.add_0_r. reflexivity.
  - apply Z.mod_pos_bound. apply space_pos.
Qed.

Theorem sig_host_necessary : forall p e m w mem off, wf_platform p -> (1 <= w <= 8)%nat ->
  (off + w <= length mem)%nat ->
  (forall z, - half w < z < half w ->
     write_as p e m (TSig w) (VInt z) mem off = Ok (splice mem off (wire_bytes e w (repr m w z)))) ->
  sig_host_ok p e m w.
Proof.
  intros p e m w mem off Hp Hw Hl H.
  pose proof (half_ge w ltac:(lia)) as Hh.
  assert (D : sig_host_ok p e m w \/ ~ sig_host_ok p e m w).
  { unfold sig_host_ok. destruct (Nat.eq_dec w 8), (p_endianess p), (native_endianess p e), (native_signed_mode p m);
      auto; right; intros [X|[X|X]]; congruence. }
  destruct D as [D|D]; auto. exfalso.
  apply sig_host_not_ok in D; auto. destruct D as (Hw8 & Hb & [[H1 H2]|[H1 H2]]).
  - apply (mixed_A p e m w mem off); auto; try lia. apply H. lia.
  - assert (Hz0 : - half w < 0 < half w) by lia.
    assert (Hz1 : - half w < space (w - 1) < half w).
    { assert (E : half w = 128 * space (w - 1)).
      { rewrite <- half_S. f_equal. lia. }
      pose proof (space_pos (w - 1)). lia. }
    pose proof (H 0 Hz0) as E0. pose proof (H _ Hz1) as E1.
    pose proof (space_pos w) as Hpw.
    assert (M0 : 0 mod space w * space (8 - w) mod space w = 0)
      by (rewrite (Z.mod_0_l (space w)) by lia; apply Z.mod_0_l; lia).
    assert (M1 : space (w - 1) mod space w * space (8 - w) mod space w = 0).
    { rewrite Z.mul_mod_idemp_l by lia. rewrite <- space_add.
      replace (w - 1 + (8 - w))%nat with (w + (7 - w))%nat by lia. rewrite space_add.
      rewrite Z.mul_comm. apply Z.mod_mul. lia. }
    rewrite mixed_B in E0 by (auto; lia). rewrite mixed_B in E1 by (auto; lia).
    pose proof (native_signed_mode_eq p m Hp H2) as Hm. subst m.
    assert (Heq : splice mem off (wire_bytes e w (repr TWOS_COMPLEMENT w 0))
                  = splice mem off (wire_bytes e w (repr TWOS_COMPLEMENT w (space (w - 1))))) by congruence.
    apply splice_inj in Heq; [|rewrite !wire_bytes_length; reflexivity|rewrite wire_bytes_length; lia].
    pose proof (space_pos (w - 1)). pose proof (space_half w ltac:(lia)).
    apply wire_bytes_inj in Heq.
    + cbn [repr] in Heq. change (0 <? 0) with false in Heq. cbv iota in Heq.
      destruct (Z.ltb_spec (space (w - 1)) 0); lia.
    + cbn [repr]. change (0 <? 0) with false. cbv iota. lia.
    + cbn [repr]. destruct (Z.ltb_spec (space (w - 1)) 0); lia.
Qed.
