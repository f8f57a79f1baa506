(** Proofs about compile-time computations. *)

From Coq Require Import List ZArith Bool Arith Lia ZifyBool ZifyNat.
From Verif Require Import Base Spec TypeLevel MemFacts.
Import ListNotations.
Open Scope nat_scope.

Lemma filter_none : forall (A : Type) (f : A -> bool) l,
  (forall x, In x l -> f x = false) -> filter f l = [].
Proof.
  induction l as [|a l IH]; intros H; simpl; auto.
  rewrite (H a) by (left; auto). apply IH. intros x Hx. apply H. right; auto.
Qed.

Lemma filter_index : forall (A : Type) (l : list A) k i,
  filter (fun it => fst it =? i) (combine (seq k (length l)) l) =
  match nth_error l (i - k) with
  | Some a => if k <=? i then [(i, a)] else []
  | None => []
  end.
Proof.
  induction l as [|a l IH]; intros k i; simpl.
  - destruct (i - k); reflexivity.
  - destruct (Nat.eqb_spec k i).
    + subst i. rewrite Nat.sub_diag. simpl. rewrite Nat.leb_refl. f_equal.
      apply filter_none. intros [j x] Hin. apply in_combine_l in Hin. apply in_seq in Hin.
      simpl. apply Nat.eqb_neq. lia.
    + rewrite IH. destruct (Nat.leb_spec k i).
      * replace (i - k) with (S (i - S k)) by lia. cbn [nth_error].
        destruct (Nat.leb_spec (S k) i); [reflexivity|lia].
      * destruct (Nat.leb_spec (S k) i); [lia|].
        destruct (nth_error l (i - S k)), (nth_error (a :: l) (i - k)); reflexivity.
Qed.

Lemma at17_nth_error : forall (A : Type) (l : list A) i, at17 l i = nth_error l i.
Proof.
  intros. unfold at17, itypes. rewrite filter_index. rewrite Nat.sub_0_r. simpl.
  destruct (nth_error l i); reflexivity.
Qed.

Lemma at11_nth_error : forall (A : Type) (l : list A) i, at11 i l = nth_error l i.
Proof. induction l; intros [|i]; simpl; auto. Qed.

Lemma clip17_seq_ok : forall (A : Type) (l : list A) n i k,
  i + k + n <= length l ->
  clip17_seq l i (seq k n) = Some (firstn n (skipn (i + k) l)).
Proof.
  induction n as [|n IH]; intros i k H; simpl; auto.
  rewrite at17_nth_error, IH by lia.
  destruct (nth_error l (i + k)) eqn:E.
  - f_equal. replace (i + S k) with (S (i + k)) by lia.
    clear -E. revert l E. induction (i + k) as [|j IHj]; intros [|b l] E; simpl in *; try discriminate.
    + injection E as ->. reflexivity.
    + apply IHj. auto.
  - apply nth_error_None in E. lia.
Qed.

Lemma clip17_ok : forall (A : Type) (l : list A) i n,
  i + n <= length l -> clip17 l i n = Some (firstn n (skipn i l)).
Proof.
  intros. unfold clip17, make_index_sequence14. rewrite clip17_seq_ok by lia.
  rewrite Nat.add_0_r. reflexivity.
Qed.

Lemma clip17_seq_none : forall (A : Type) (l : list A) n i k,
  0 < n -> length l < i + k + n -> clip17_seq l i (seq k n) = None.
Proof.
  induction n as [|n IH]; intros i k H0 H; simpl; [lia|].
  rewrite at17_nth_error. destruct (nth_error l (i + k)) eqn:E; auto.
  destruct n.
  - assert (i + k < length l) by (apply nth_error_Some; congruence). lia.
  - rewrite IH by lia. reflexivity.
Qed.

Lemma clip11_take_ok : forall (A : Type) n (l r : list A),
  n <= length l -> clip11_take n l r = Some (r ++ firstn n l).
Proof.
  induction n as [|n IH]; intros [|a l] r H; simpl in *; try lia; rewrite ?app_nil_r; auto.
  rewrite IH by lia. rewrite <- app_assoc. reflexivity.
Qed.

Lemma clip11_take_none : forall (A : Type) n (l r : list A),
  length l < n -> clip11_take n l r = None.
Proof.
  induction n as [|n IH]; intros [|a l] r H; simpl in *; try lia; auto. apply IH. lia.
Qed.

Lemma clip11_ok : forall (A : Type) i n (l : list A),
  i + n <= length l -> clip11 i n l = Some (firstn n (skipn i l)).
Proof.
  induction i as [|i IH]; intros n [|a l] H; simpl in *; try lia.
  - rewrite clip11_take_ok by (simpl; lia). reflexivity.
  - rewrite clip11_take_ok by (simpl; lia). reflexivity.
  - rewrite IH by lia. reflexivity.
Qed.

Lemma sum17_acc : forall l a, fold_left Nat.add l a = a + list_sum l.
Proof. induction l; intros; simpl; [lia|]. rewrite IHl. unfold list_sum. lia. Qed.

Lemma sum17_list_sum : forall l, sum17 l = list_sum l.
Proof. intros. unfold sum17. rewrite sum17_acc. reflexivity. Qed.

Lemma sum11_list_sum : forall l a, sum11 a l = a + list_sum l.
Proof. induction l; intros; simpl; [lia|]. rewrite IHl. unfold list_sum. lia. Qed.

Lemma max_fold_ge : forall l a, a <= fold_left (fun m v => if m <? v then v else m) l a.
Proof.
  induction l as [|v l IH]; intros; simpl; auto.
  destruct (Nat.ltb_spec a v); etransitivity; [|apply IH| |apply IH]; lia.
Qed.

Lemma max_fold_in : forall l a v, In v l -> v <= fold_left (fun m v => if m <? v then v else m) l a.
Proof.
  induction l as [|b l IH]; intros a v H; [contradiction|]. destruct H as [->|H]; simpl.
  - destruct (Nat.ltb_spec a v); etransitivity; [|apply max_fold_ge| |apply max_fold_ge]; lia.
  - apply IH; auto.
Qed.

Lemma max_fold_mem : forall l a,
  let r := fold_left (fun m v => if m <? v then v else m) l a in r = a \/ In r l.
Proof.
  induction l as [|b l IH]; intros a; simpl; auto.
  destruct (a <? b); destruct (IH b), (IH a); simpl in *; auto; rewrite H; auto.
Qed.

Lemma max11_from_fold : forall l a,
  max11_from a l = fold_left (fun m v => if m <? v then v else m) l a.
Proof. induction l; simpl; auto. Qed.

Lemma max_agree : forall l, max17 l = max11 l.
Proof.
  intros [|a l]; simpl; auto. rewrite Nat.ltb_irrefl. f_equal. symmetry. apply max11_from_fold.
Qed.

(** The result is the greatest element of the list. *)
Lemma max17_spec : forall l r, max17 l = Some r -> In r l /\ forall v, In v l -> v <= r.
Proof.
  intros [|a l] r H; [discriminate|]. unfold max17 in H.
  assert (Hr : r = fold_left (fun m v => if m <? v then v else m) (a :: l) a) by congruence.
  clear H. subst r. split.
  - destruct (max_fold_mem (a :: l) a) as [H|H].
    + left. symmetry. exact H.
    + exact H.
  - intros v Hv. apply max_fold_in. auto.
Qed.

Lemma max17_some : forall l, l <> [] -> exists r, max17 l = Some r.
Proof. intros [|a l] H; [congruence|]. eexists. reflexivity. Qed.

Lemma mis11_gen : forall n is, make_index_sequence11 n is = seq 0 n ++ is.
Proof.
  induction n as [|n IH]; intros is; cbn [make_index_sequence11]; auto.
  rewrite IH, seq_S. rewrite <- app_assoc. reflexivity.
Qed.

Lemma find11_spec : forall (A : Type) (same : A -> A -> bool) v l k r,
  (forall a b, same a b = true <-> a = b) ->
  find11 same v k l = Some r ->
  k <= r /\ nth_error l (r - k) = Some v
  /\ forall j, j < r - k -> nth_error l j <> Some v.
Proof.
  intros A same v l. induction l as [|a l IH]; intros k r Hs H; simpl in H; [discriminate|].
  destruct (same v a) eqn:E.
  - injection H as <-. apply Hs in E. subst a. rewrite Nat.sub_diag. simpl.
    repeat split; auto; try lia.
  - apply IH in H; auto. destruct H as (H1 & H2 & H3).
    replace (r - k) with (S (r - (k + 1))) by lia. simpl. repeat split; auto; try lia.
    intros [|j] Hj; simpl.
    + intros X. injection X as ->. rewrite (proj2 (Hs v v)) in E; auto. discriminate.
    + apply H3. lia.
Qed.

Lemma filter_find : forall (A : Type) (same : A -> A -> bool) v (l : list A) k i,
  (forall a b, same a b = true <-> a = b) ->
  nth_error l i = Some v -> NoDup l ->
  filter (fun it => same v (snd it)) (combine (seq k (length l)) l) = [(k + i, v)].
Proof.
  intros A same v l. induction l as [|a l IH]; intros k i Hs Hi Hn; simpl.
  - destruct i; discriminate.
  - inversion Hn; subst. destruct i as [|i]; simpl in Hi.
    + injection Hi as ->. rewrite (proj2 (Hs v v) eq_refl). rewrite Nat.add_0_r. f_equal.
      apply filter_none. intros [j x] Hin. apply in_combine_r in Hin. simpl.
      destruct (same v x) eqn:E; auto. apply Hs in E. subst. contradiction.
    + destruct (same v a) eqn:E.
      * apply Hs in E. subst a. apply nth_error_In in Hi. contradiction.
      * rewrite (IH (S k) i) by auto. f_equal. f_equal. lia.
Qed.

Lemma find17_nodup : forall (A : Type) (same : A -> A -> bool) v (l : list A) i,
  (forall a b, same a b = true <-> a = b) ->
  nth_error l i = Some v -> NoDup l -> find17 same l v = Some i.
Proof.
  intros. unfold find17, itypes. rewrite (filter_find A same v l 0 i) by auto. reflexivity.
Qed.

Lemma find11_nodup : forall (A : Type) (same : A -> A -> bool) v (l : list A) i k,
  (forall a b, same a b = true <-> a = b) ->
  nth_error l i = Some v -> NoDup l -> find11 same v k l = Some (k + i).
Proof.
  intros A same v l. induction l as [|a l IH]; intros i k Hs Hi Hn; simpl.
  - destruct i; discriminate.
  - inversion Hn; subst. destruct i as [|i]; simpl in Hi.
    + injection Hi as ->. rewrite (proj2 (Hs v v) eq_refl). f_equal. lia.
    + destruct (same v a) eqn:E.
      * apply Hs in E. subst a. apply nth_error_In in Hi. contradiction.
      * rewrite (IH i) by auto. f_equal. lia.
Qed.

Lemma find17_some : forall (A : Type) (same : A -> A -> bool) (l : list A) v i,
  (forall a b, same a b = true <-> a = b) ->
  find17 same l v = Some i -> nth_error l i = Some v /\ (forall j, nth_error l j = Some v -> j = i).
Proof.
  intros A same l v i Hs H. unfold find17, itypes in H.
  remember (filter (fun it => same v (snd it)) (combine (seq 0 (length l)) l)) as F eqn:EF.
  destruct F as [|[j x] [|]]; try discriminate. simpl in H. injection H as ->.
  assert (Hin : forall q, In q (combine (seq 0 (length l)) l) <-> nth_error l (fst q) = Some (snd q)).
  { clear. assert (G : forall (l : list A) k q, In q (combine (seq k (length l)) l) <->
                k <= fst q /\ nth_error l (fst q - k) = Some (snd q)).
    { induction l0 as [|a l0 IH]; intros k [j x]; simpl.
      - split; [tauto|]. intros [_ H]. destruct (j - k); discriminate.
      - rewrite IH. simpl. split.
        + intros [E|[H1 H2]].
          * injection E as -> ->. rewrite Nat.sub_diag. auto.
          * split; [lia|]. replace (j - k) with (S (j - S k)) by lia. auto.
        + intros [H1 H2]. destruct (Nat.eq_dec j k).
          * subst. rewrite Nat.sub_diag in H2. simpl in H2. injection H2 as ->. auto.
          * right. split; [lia|]. replace (j - k) with (S (j - S k)) in H2 by lia. auto. }
    intros q. rewrite G, Nat.sub_0_r. intuition lia. }
  assert (H1 : In (i, x) (filter (fun it => same v (snd it)) (combine (seq 0 (length l)) l)))
    by (rewrite <- EF; left; auto).
  apply filter_In in H1. destruct H1 as [H1 H2]. simpl in H2. apply Hs in H2. subst x.
  split.
  - apply Hin in H1. auto.
  - intros j Hj. assert (H3 : In (j, v) (filter (fun it => same v (snd it)) (combine (seq 0 (length l)) l))).
    { apply filter_In. split; [apply Hin; auto|]. simpl. apply Hs. auto. }
    rewrite <- EF in H3. destruct H3 as [H3|[]]. congruence.
Qed.
