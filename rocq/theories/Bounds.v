(** Every byte of an element is accessed: a read or a write which succeeds was
    within the bounds of the memory, and a write preserves the size of the
    memory. *)

From Coq Require Import List ZArith Lia Bool Arith.
From Verif Require Import Base CInt Spec IntModel Conditions MemFacts TypeLevel Serial
  TypeLevelProofs IntProofs SerialProofs.
Import ListNotations.
Open Scope nat_scope.

Lemma store_inv : forall mem i b mem', store mem i b = Ok mem' ->
  i < length mem /\ length mem' = length mem.
Proof.
  intros mem i b mem' H. destruct (Nat.ltb_spec i (length mem)) as [Hi|Hi].
  - rewrite store_ok in H by auto. injection H as <-. split; auto. apply splice_length.
    cbn [length]. lia.
  - rewrite store_oob in H by auto. discriminate.
Qed.

Lemma load_inv : forall mem i b, load mem i = Ok b -> i < length mem.
Proof.
  intros mem i b H. unfold load in H. apply nth_error_Some. destruct (nth_error mem i); congruence.
Qed.

Lemma store_range_inv : forall bs mem off mem', store_range mem off bs = Ok mem' ->
  (length bs = 0 \/ off + length bs <= length mem) /\ length mem' = length mem.
Proof.
  intros bs mem off mem' H. destruct bs as [|b bs].
  - cbn in H. injection H as <-. auto.
  - destruct (Nat.leb_spec (off + length (b :: bs)) (length mem)) as [Hi|Hi].
    + rewrite store_range_ok in H by auto. injection H as <-. split; auto. apply splice_length. auto.
    + rewrite store_range_oob in H by (auto; discriminate). discriminate.
Qed.

Lemma load_range_inv : forall n mem off bs, load_range mem off n = Ok bs ->
  n = 0 \/ off + n <= length mem.
Proof.
  intros n mem off bs H. destruct n as [|n]; auto. right.
  destruct (Nat.leb_spec (off + S n) (length mem)) as [Hi|Hi]; auto.
  rewrite load_range_oob in H by lia. discriminate.
Qed.

Lemma to_endianess_loop_inv : forall p T e off n k i mem x mem',
  to_endianess_loop p T e mem off n k i x = Ok mem' ->
  length mem' = length mem /\ (forall j, i <= j < i + k -> off + byte_index e n j < length mem).
Proof.
  intros p T e off n. induction k as [|k IH]; intros i mem x mem' H; cbn [to_endianess_loop] in H.
  - injection H as <-. split; auto. intros j Hj. lia.
  - apply bind_ok in H. destruct H as (m1 & Hs & H). apply bind_ok in H. destruct H as (x' & _ & H).
    apply store_inv in Hs. destruct Hs as [Hb Hl]. apply IH in H. destruct H as [H1 H2]. split; [lia|].
    intros j Hj. destruct (Nat.eq_dec j i) as [->|Hn]; auto. rewrite <- Hl. apply H2. lia.
Qed.

Lemma obj_bytes_length : forall p T x, length (obj_bytes p T x) = csizeof T.
Proof.
  intros. unfold obj_bytes.
  destruct (p_endianess p); rewrite ?rev_length; apply digits_length.
Qed.

Lemma to_endianess_inv : forall p T e mem off x n mem', 1 <= n ->
  to_endianess p T e mem off x n = Ok mem' -> off + n <= length mem /\ length mem' = length mem.
Proof.
  intros p T e mem off x n mem' Hn H. unfold to_endianess in H.
  destruct (native_endianess p e).
  - destruct (Nat.ltb_spec (csizeof T) n) as [Hc|Hc]; [discriminate|].
    apply store_range_inv in H. rewrite firstn_length, obj_bytes_length in H. lia.
  - apply to_endianess_loop_inv in H. destruct H as [Hl Hb]. split; auto.
    destruct e; cbn [byte_index] in Hb.
    + specialize (Hb (n - 1) ltac:(lia)). lia.
    + specialize (Hb 0 ltac:(lia)). lia.
Qed.

Lemma from_endianess_loop_inv : forall p T e mem off n k i s r z,
  from_endianess_loop p T e mem off n k i s r = Ok z ->
  forall j, i <= j < i + k -> off + byte_index e n j < length mem.
Proof.
  intros p T e mem off n. induction k as [|k IH]; intros i s r z H j Hj; cbn [from_endianess_loop] in H.
  - lia.
  - apply bind_ok in H. destruct H as (b & Hb & H). apply bind_ok in H. destruct H as (x' & _ & H).
    apply load_inv in Hb. destruct (Nat.eq_dec j i) as [->|Hn]; auto.
    eapply IH; [exact H|lia].
Qed.

Lemma from_endianess_inv : forall p T e mem off n z, 1 <= n ->
  from_endianess p T e mem off n = Ok z -> off + n <= length mem.
Proof.
  intros p T e mem off n z Hn H. unfold from_endianess, from_endianess_impl in H.
  destruct (native_endianess p e).
  - apply bind_ok in H. destruct H as (bs & Hb & _). apply load_range_inv in Hb. lia.
  - pose proof (from_endianess_loop_inv _ _ _ _ _ _ _ _ _ _ _ H) as Hb.
    destruct e; cbn [byte_index] in Hb.
    + specialize (Hb (n - 1) ltac:(lia)). lia.
    + specialize (Hb 0 ltac:(lia)). lia.
Qed.

Section Bounds.
  Variable p : platform.
  Variable e : endianess.
  Variable m : signed_mode.

  Definition write_bounded (t : ty) : Prop := forall v mem off mem',
    write_as p e m t v mem off = Ok mem' ->
    length mem' = length mem /\ (wire_size t = 0 \/ off + wire_size t <= length mem).

  Definition read_bounded (t : ty) : Prop := forall mem off v,
    read_as p e m t mem off = Ok v -> wire_size t = 0 \/ off + wire_size t <= length mem.

  (** Element [j] of an array, whatever the relation between [sizeof] and the
      number of bytes of the encoding. *)
  Lemma write_loop_inv : forall t' vs off, write_bounded t' ->
    forall k i mem mem', write_loop p e m t' vs off k i mem = Ok mem' ->
    length mem' = length mem
    /\ (forall j, i <= j < i + k -> wire_size t' = 0 \/ off + j * sizeof t' + wire_size t' <= length mem).
  Proof.
    intros t' vs off Ht. induction k as [|k IH]; intros i mem mem' H; cbn [write_loop] in H.
    - injection H as <-. split; auto. intros j Hj. lia.
    - destruct (nth_error vs i) as [v|]; [|discriminate].
      apply bind_ok in H. destruct H as (m1 & Hw & H). fold (write_loop p e m t' vs off) in H.
      apply Ht in Hw. destruct Hw as [Hl Hb]. apply IH in H. destruct H as [H1 H2].
      split; [lia|]. intros j Hj. destruct (Nat.eq_dec j i) as [->|Hn]; auto.
      rewrite <- Hl. apply H2. lia.
  Qed.

  Lemma read_loop_inv : forall t' mem off, read_bounded t' ->
    forall k i vs, read_loop p e m t' mem off k i = Ok vs ->
    length vs = k
    /\ (forall j, i <= j < i + k -> wire_size t' = 0 \/ off + j * sizeof t' + wire_size t' <= length mem).
  Proof.
    intros t' mem off Ht. induction k as [|k IH]; intros i vs H; cbn [read_loop] in H.
    - injection H as <-. split; auto. intros j Hj. lia.
    - apply bind_ok in H. destruct H as (v & Hr & H). fold (read_loop p e m t' mem off) in H.
      apply bind_ok in H. destruct H as (vs' & Hrs & H). injection H as <-.
      apply Ht in Hr. apply IH in Hrs. destruct Hrs as [H1 H2].
      split; [cbn [length]; lia|]. intros j Hj. destruct (Nat.eq_dec j i) as [->|Hn]; auto.
      apply H2. lia.
  Qed.

  Lemma write_fields_inv : forall fs vs off, Forall layout_ok fs ->
    forall l i mem mem', Forall write_bounded l -> skipn i fs = l ->
    write_fields p e m fs vs off l i mem = Ok mem' ->
    length mem' = length mem
    /\ (forall j t, i <= j -> nth_error fs j = Some t ->
          wire_size t = 0 \/ off + offset_of fs j + wire_size t <= length mem).
  Proof.
    intros fs vs off Hl. induction l as [|f l IH]; intros i mem mem' Hw Hsk H; cbn [write_fields] in H.
    - injection H as <-. split; auto. intros j t Hj Ht.
      assert (length fs <= i) by (rewrite <- (firstn_skipn i fs), Hsk, app_nil_r; apply firstn_le_length).
      assert (j < length fs) by (apply nth_error_Some; congruence). lia.
    - destruct (skipn_cons_nth _ _ _ _ _ Hsk) as [Hi Hsk'].
      assert (Hilt : i < length fs) by (apply nth_error_Some; congruence).
      destruct (nth_error vs i) as [v|]; [|discriminate].
      rewrite element_offset_ok in H by (auto; lia). cbn [bind] in H.
      apply bind_ok in H. destruct H as (m1 & Hw1 & H). fold (write_fields p e m fs vs off) in H.
      inversion Hw as [|? ? Hwf Hwl]; subst.
      apply Hwf in Hw1. destruct Hw1 as [Hl1 Hb]. apply IH in H; auto. destruct H as [H1 H2].
      split; [lia|]. intros j t Hj Ht. destruct (Nat.eq_dec j i) as [->|Hn].
      + rewrite Hi in Ht. injection Ht as <-. auto.
      + rewrite <- Hl1. apply H2; auto. lia.
  Qed.

  Lemma read_fields_inv : forall fs mem off, Forall layout_ok fs ->
    forall l i vs, Forall read_bounded l -> skipn i fs = l ->
    read_fields p e m fs mem off l i = Ok vs ->
    forall j t, i <= j -> nth_error fs j = Some t ->
          wire_size t = 0 \/ off + offset_of fs j + wire_size t <= length mem.
  Proof.
    intros fs mem off Hl. induction l as [|f l IH]; intros i vs Hw Hsk H j t Hj Ht; cbn [read_fields] in H.
    - assert (length fs <= i) by (rewrite <- (firstn_skipn i fs), Hsk, app_nil_r; apply firstn_le_length).
      assert (j < length fs) by (apply nth_error_Some; congruence). lia.
    - destruct (skipn_cons_nth _ _ _ _ _ Hsk) as [Hi Hsk'].
      assert (Hilt : i < length fs) by (apply nth_error_Some; congruence).
      rewrite element_offset_ok in H by (auto; lia). cbn [bind] in H.
      apply bind_ok in H. destruct H as (v & Hr1 & H). fold (read_fields p e m fs mem off) in H.
      apply bind_ok in H. destruct H as (vs' & Hr2 & _).
      inversion Hw as [|? ? Hwf Hwl]; subst. apply Hwf in Hr1.
      destruct (Nat.eq_dec j i) as [->|Hn].
      + rewrite Hi in Ht. injection Ht as <-. auto.
      + apply (IH (S i) vs'); auto. lia.
  Qed.

  (** The last field which is not empty ends where the encoding ends. *)
  Lemma fields_end : forall fs n off,
    (forall j t, nth_error fs j = Some t -> wire_size t = 0 \/ off + offset_of fs j + wire_size t <= n) ->
    list_sum (map wire_size fs) = 0 \/ off + list_sum (map wire_size fs) <= n.
  Proof.
    induction fs as [|f fs IH]; intros n off H; [left; reflexivity|].
    cbn [map]. change (list_sum (wire_size f :: map wire_size fs)) with (wire_size f + list_sum (map wire_size fs)).
    specialize (IH n (off + wire_size f)).
    destruct IH as [IH|IH].
    - intros j t Ht. specialize (H (S j) t Ht).
      replace (offset_of (f :: fs) (S j)) with (wire_size f + offset_of fs j) in H by reflexivity. lia.
    - specialize (H 0 f eq_refl). rewrite offset_of_0 in H. lia.
    - right. lia.
  Qed.

  Theorem write_as_inv : forall t, wf_ty t -> layout_ok t -> write_bounded t.
  Proof.
    induction t using ty_ind_nested; intros Hwf Hl v mem off mem' H0.
    - destruct v as [z|]; [|discriminate]. cbn [write_as sizeof wire_size] in *.
      apply to_endianess_inv in H0; auto. lia.
    - destruct v as [z|]; [|discriminate]. cbn [write_as sizeof wire_size wf_ty] in *.
      apply to_endianess_inv in H0; lia.
    - destruct v as [z|]; [|discriminate]. cbn [write_as sizeof wire_size wf_ty] in *.
      apply bind_ok in H0. destruct H0 as (u & _ & H0). apply to_endianess_inv in H0; lia.
    - destruct v as [|vs]; [discriminate|]. cbn [wf_ty layout_ok wire_size] in *.
      destruct Hl as (Hl & Hsz & Hn), Hwf as (_ & Hs1 & Hwf). rewrite write_as_arr in H0 by auto.
      apply write_loop_inv in H0; [|apply IHt; auto]. destruct H0 as [H1 H2]. split; auto.
      destruct n as [|n]; [left; reflexivity|]. rewrite Hsz in H2.
      specialize (H2 n ltac:(lia)). destruct H2; [left|right]; lia.
    - destruct v as [|vs]; [discriminate|]. rewrite write_as_user in H0.
      apply (wf_ty_user s) in Hwf. apply (layout_ok_user s) in Hl. rewrite wire_size_user.
      apply write_fields_inv in H0; auto.
      + destruct H0 as [H1 H2]. split; auto. apply fields_end. intros j t Ht. apply H2; auto. lia.
      + rewrite Forall_forall in *. auto.
  Qed.

  Theorem read_as_inv : forall t, wf_ty t -> layout_ok t -> read_bounded t.
  Proof.
    induction t using ty_ind_nested; intros Hwf Hl mem off v H0.
    - cbn [read_as sizeof wire_size] in *. apply bind_ok in H0. destruct H0 as (u & H0 & _).
      apply from_endianess_inv in H0; auto.
    - cbn [read_as sizeof wire_size wf_ty] in *. apply bind_ok in H0. destruct H0 as (u & H0 & _).
      apply from_endianess_inv in H0; lia.
    - cbn [read_as sizeof wire_size wf_ty] in *. apply bind_ok in H0. destruct H0 as (u & H0 & _).
      apply from_endianess_inv in H0; lia.
    - rewrite read_as_arr in H0. apply bind_ok in H0. destruct H0 as (vs & H0 & _).
      cbn [wf_ty layout_ok wire_size] in *. destruct Hl as (Hl & Hsz & _), Hwf as (_ & _ & Hwf).
      apply read_loop_inv in H0; [|apply IHt; auto]. destruct H0 as [H1 H2].
      destruct n as [|n]; [left; reflexivity|]. rewrite Hsz in H2.
      specialize (H2 n ltac:(lia)). destruct H2; [left|right]; lia.
    - rewrite read_as_user in H0. apply bind_ok in H0. destruct H0 as (vs & H0 & _).
      apply (wf_ty_user s) in Hwf. apply (layout_ok_user s) in Hl. rewrite wire_size_user.
      apply fields_end. intros j t Ht. apply (read_fields_inv fs mem off Hl fs 0 vs); auto; [|lia].
      rewrite Forall_forall in *. auto.
  Qed.
End Bounds.

(** ** The only way to fail is to leave the memory *)

Definition ok_or_oob {A : Type} (r : res A) : Prop := (exists a, r = Ok a) \/ r = Fault OutOfBounds.

Lemma ok_or_oob_bind : forall (A B : Type) (r : res A) (k : A -> res B),
  ok_or_oob r -> (forall a, r = Ok a -> ok_or_oob (k a)) -> ok_or_oob (bind r k).
Proof. intros A B r k [[a ->]| ->] H; cbn [bind]; [auto|right; reflexivity]. Qed.

Lemma store_class : forall mem i b, ok_or_oob (store mem i b).
Proof.
  intros. destruct (Nat.ltb_spec i (length mem)) as [H|H].
  - left. rewrite store_ok by auto. eauto.
  - right. apply store_oob; auto.
Qed.

Lemma store_range_class : forall bs mem off, ok_or_oob (store_range mem off bs).
Proof.
  induction bs as [|b bs IH]; intros; cbn [store_range]; [left; eauto|].
  apply ok_or_oob_bind; auto using store_class.
Qed.

Lemma promote_wide : forall p T, wf_platform p -> 2 <= csizeof (promote p T).
Proof.
  intros p T [[H _] _ _ _]. destruct T as [|w s]; cbn [promote csizeof]; auto.
  destruct (Nat.ltb_spec w (p_int_size p)); cbn [csizeof]; lia.
Qed.

Lemma to_endianess_class : forall p T e mem off x n, wf_platform p -> ok_or_oob (to_endianess p T e mem off x n).
Proof.
  intros p T e mem off x n Hp. unfold to_endianess. destruct (native_endianess p e).
  - destruct (_ <? _); [right; reflexivity|]. apply store_range_class.
  - generalize n at 2 as k. intros k. generalize 0 as i. revert mem x.
    induction k as [|k IH]; intros mem x i; cbn [to_endianess_loop]; [left; eauto|].
    apply ok_or_oob_bind; auto using store_class. intros mem' _.
    unfold c_shr. pose proof (promote_wide p T Hp).
    destruct (Z.ltb_spec 8 (bits (csizeof (promote p T)))); [cbn [bind]; auto|].
    unfold bits in *. lia.
Qed.

Theorem write_as_class : forall p e m t v mem off, wf_platform p -> ty_ok p e m t -> encodable p m t v ->
  ok_or_oob (write_as p e m t v mem off).
Proof.
  intros p e m t v mem off Hp. revert v mem off.
  induction t using ty_ind_nested; intros v mem off Hok Hv.
  - destruct v; [|destruct Hv; contradiction]. apply to_endianess_class; auto.
  - destruct v; [|destruct Hv; contradiction]. apply to_endianess_class; auto.
  - destruct v; [|destruct Hv; contradiction].
    pose proof (write_as_ok p e m Hp (TSig w) (VInt z) (repeat 0%Z (0 + w)) 0 Hok Hv) as H.
    cbn [write_as wire_size] in *. rewrite repeat_length in H. specialize (H ltac:(auto)).
    apply bind_ok in H. destruct H as (u & H & _). rewrite H. cbn [bind]. apply to_endianess_class; auto.
  - destruct v as [|vs]; [destruct Hv; contradiction|]. apply ty_ok_arr in Hok. apply encodable_arr in Hv.
    destruct Hv as [Hn Hv]. rewrite write_as_arr by apply Hok.
    assert (L : forall k i mem, i + k = n -> ok_or_oob (write_loop p e m t vs off k i mem)).
    { clear mem. induction k as [|k IH]; intros i mem Hik; cbn [write_loop]; [left; eauto|].
      destruct (nth_error vs i) as [v|] eqn:Hi; [|apply nth_error_None in Hi; lia].
      apply ok_or_oob_bind.
      - apply IHt; [apply Hok|]. rewrite Forall_forall in Hv. apply Hv. eapply nth_error_In; eauto.
      - intros mem' _. apply IH. lia. }
    apply L. lia.
  - destruct v as [|vs]; [destruct Hv; contradiction|]. apply ty_ok_user in Hok. apply encodable_user in Hv.
    rewrite write_as_user.
    assert (L : forall l i mem, skipn i fs = l -> ok_or_oob (write_fields p e m fs vs off l i mem)).
    { clear mem. induction l as [|f l IH]; intros i mem Hsk; cbn [write_fields]; [left; eauto|].
      destruct (skipn_cons_nth _ _ _ _ _ Hsk) as [Hi Hsk'].
      destruct (Forall2_nth _ _ _ _ _ _ _ Hv Hi) as (v & Hvi & Hev). rewrite Hvi.
      assert (Hilt : i < length fs) by (apply nth_error_Some; congruence).
      rewrite element_offset_ok; [|eapply Forall_impl; [|exact Hok]; intros a Ha; apply Ha|lia].
      cbn [bind]. apply ok_or_oob_bind.
      - apply nth_error_In in Hi. rewrite Forall_forall in H, Hok. apply H; auto.
      - intros mem' _. apply IH. auto. }
    apply L. reflexivity.
Qed.

Theorem write_as_oob : forall p e m t v mem off, wf_platform p -> ty_ok p e m t -> encodable p m t v ->
  0 < wire_size t -> length mem < off + wire_size t -> write_as p e m t v mem off = Fault OutOfBounds.
Proof.
  intros p e m t v mem off Hp Hok Hv H0 Hl.
  destruct (write_as_class p e m t v mem off Hp Hok Hv) as [[mem' W]|W]; auto.
  apply write_as_inv in W; try apply Hok. lia.
Qed.
