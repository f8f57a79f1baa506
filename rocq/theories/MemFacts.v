(** Facts about memory regions: loads, stores, slices and splices. *)

From Coq Require Import List ZArith Bool Lia Arith.
From Verif Require Import Base Spec.
Import ListNotations.
Open Scope nat_scope.

Lemma nth_error_ext : forall (A : Type) (l l' : list A),
  (forall i, nth_error l i = nth_error l' i) -> l = l'.
Proof.
  induction l as [|a l IH]; intros [|b l'] H; auto.
  - specialize (H 0); discriminate.
  - specialize (H 0); discriminate.
  - pose proof (H 0) as H0; injection H0 as ->.
    f_equal. apply IH. intros i. exact (H (S i)).
Qed.

Lemma nth_error_firstn : forall (A : Type) (l : list A) n i,
  nth_error (firstn n l) i = if i <? n then nth_error l i else None.
Proof.
  induction l as [|a l IH]; intros [|n] [|i]; simpl; auto.
  - destruct (_ <? _); auto.
  - rewrite IH. reflexivity.
Qed.

Lemma nth_error_skipn : forall (A : Type) (l : list A) n i,
  nth_error (skipn n l) i = nth_error l (n + i).
Proof.
  induction l as [|a l IH]; intros [|n] i; simpl; auto.
  destruct i; auto.
Qed.

Lemma nth_error_app_if : forall (A : Type) (l l' : list A) i,
  nth_error (l ++ l') i =
  if i <? length l then nth_error l i else nth_error l' (i - length l).
Proof.
  intros. destruct (Nat.ltb_spec i (length l)).
  - apply nth_error_app1; auto.
  - apply nth_error_app2; auto.
Qed.

Lemma nth_error_slice : forall mem off n i,
  nth_error (slice mem off n) i =
  if i <? n then nth_error mem (off + i) else None.
Proof.
  intros. unfold slice. rewrite nth_error_firstn, nth_error_skipn. reflexivity.
Qed.

Lemma nth_error_splice : forall mem off bs i,
  off <= length mem ->
  nth_error (splice mem off bs) i =
  if i <? off then nth_error mem i
  else if i <? off + length bs then nth_error bs (i - off)
  else nth_error mem i.
Proof.
  intros mem off bs i H. unfold splice.
  rewrite nth_error_app_if, firstn_length_le by auto.
  destruct (Nat.ltb_spec i off).
  - rewrite nth_error_firstn. destruct (Nat.ltb_spec i off); auto; lia.
  - rewrite nth_error_app_if, nth_error_skipn.
    destruct (Nat.ltb_spec (i - off) (length bs)), (Nat.ltb_spec i (off + length bs));
      try lia; auto.
    f_equal. lia.
Qed.

Lemma slice_length : forall mem off n,
  off + n <= length mem -> length (slice mem off n) = n.
Proof.
  intros. unfold slice. rewrite firstn_length, skipn_length. lia.
Qed.

Lemma splice_length : forall mem off bs,
  off + length bs <= length mem -> length (splice mem off bs) = length mem.
Proof.
  intros. unfold splice.
  rewrite !app_length, firstn_length, skipn_length. lia.
Qed.

Lemma slice_0_all : forall mem n, n = length mem -> slice mem 0 n = mem.
Proof. intros. subst. unfold slice. simpl. apply firstn_all. Qed.

Lemma splice_nil : forall mem off, splice mem off [] = mem.
Proof.
  intros. unfold splice. simpl. rewrite Nat.add_0_r. apply firstn_skipn.
Qed.

Lemma splice_all : forall mem bs, length bs = length mem -> splice mem 0 bs = bs.
Proof.
  intros. unfold splice. simpl. rewrite H, skipn_all. apply app_nil_r.
Qed.

(** Automation: decide equalities of lists of bytes pointwise. *)
Ltac ltb_cases :=
  repeat match goal with
  | |- context [ ?a <? ?b ] => destruct (Nat.ltb_spec a b); try lia
  end.

Lemma slice_splice_same : forall mem off bs,
  off + length bs <= length mem -> slice (splice mem off bs) off (length bs) = bs.
Proof.
  intros. apply nth_error_ext. intros i.
  rewrite nth_error_slice, nth_error_splice by lia.
  ltb_cases.
  - f_equal. lia.
  - symmetry. apply nth_error_None. lia.
Qed.

Lemma slice_splice_disjoint : forall mem off bs off' n,
  off + length bs <= length mem ->
  off' + n <= off \/ off + length bs <= off' ->
  slice (splice mem off bs) off' n = slice mem off' n.
Proof.
  intros. apply nth_error_ext. intros i.
  rewrite !nth_error_slice, nth_error_splice by lia.
  ltb_cases; auto.
Qed.

(** A slice inside of a spliced block. *)
Lemma slice_splice_inside : forall mem off bs off' n,
  off + length bs <= length mem ->
  off <= off' -> off' + n <= off + length bs ->
  slice (splice mem off bs) off' n = slice bs (off' - off) n.
Proof.
  intros. apply nth_error_ext. intros i.
  rewrite !nth_error_slice, nth_error_splice by lia.
  ltb_cases; auto. f_equal. lia.
Qed.

Lemma slice_slice : forall mem off n off' n',
  off' + n' <= n -> slice (slice mem off n) off' n' = slice mem (off + off') n'.
Proof.
  intros. apply nth_error_ext. intros i.
  rewrite !nth_error_slice.
  ltb_cases; auto. f_equal. lia.
Qed.

Lemma splice_splice_app : forall mem off bs bs',
  off + length bs + length bs' <= length mem ->
  splice (splice mem off bs) (off + length bs) bs' = splice mem off (bs ++ bs').
Proof.
  intros. apply nth_error_ext. intros i.
  rewrite nth_error_splice by (rewrite splice_length; lia).
  rewrite !nth_error_splice by lia. rewrite app_length, nth_error_app_if.
  ltb_cases; auto; f_equal; lia.
Qed.

Lemma splice_splice_before : forall mem off bs bs',
  off + length bs + length bs' <= length mem ->
  splice (splice mem (off + length bs) bs') off bs = splice mem off (bs ++ bs').
Proof.
  intros. apply nth_error_ext. intros i.
  rewrite nth_error_splice by (rewrite splice_length; lia).
  rewrite !nth_error_splice by lia. rewrite app_length, nth_error_app_if.
  ltb_cases; auto; f_equal; lia.
Qed.

Lemma splice_splice_same : forall mem off bs bs',
  length bs = length bs' -> off + length bs <= length mem ->
  splice (splice mem off bs) off bs' = splice mem off bs'.
Proof.
  intros. apply nth_error_ext. intros i.
  rewrite nth_error_splice by (rewrite splice_length; lia).
  rewrite !nth_error_splice by lia.
  ltb_cases; auto.
Qed.

Lemma splice_splice_comm : forall mem off bs off' bs',
  off + length bs <= length mem -> off' + length bs' <= length mem ->
  off + length bs <= off' \/ off' + length bs' <= off ->
  splice (splice mem off bs) off' bs' = splice (splice mem off' bs') off bs.
Proof.
  intros. apply nth_error_ext. intros i.
  rewrite 2!nth_error_splice by (rewrite ?splice_length; lia).
  rewrite 2!nth_error_splice by (rewrite ?splice_length; lia).
  ltb_cases; auto.
Qed.

Lemma splice_slice_id : forall mem off n,
  off + n <= length mem -> splice mem off (slice mem off n) = mem.
Proof.
  intros. apply nth_error_ext. intros i.
  rewrite nth_error_splice by lia. rewrite slice_length by lia.
  rewrite nth_error_slice.
  ltb_cases; auto. f_equal. lia.
Qed.

Lemma slice_app : forall mem off n n',
  off + n + n' <= length mem ->
  slice mem off (n + n') = slice mem off n ++ slice mem (off + n) n'.
Proof.
  intros. apply nth_error_ext. intros i.
  rewrite nth_error_app_if, !nth_error_slice, slice_length by lia.
  ltb_cases; auto. f_equal. lia.
Qed.

Lemma firstn_slice : forall mem off n k,
  k <= n -> firstn k (slice mem off n) = slice mem off k.
Proof.
  intros. unfold slice. rewrite firstn_firstn. f_equal. lia.
Qed.

Lemma skipn_slice : forall mem off n k,
  skipn k (slice mem off n) = slice mem (off + k) (n - k).
Proof.
  intros. apply nth_error_ext. intros i.
  rewrite nth_error_skipn, !nth_error_slice.
  ltb_cases; auto. f_equal. lia.
Qed.

Lemma slice_0_n : forall mem n, slice mem 0 n = firstn n mem.
Proof. reflexivity. Qed.

Lemma slice_app_l : forall a b n, n <= length a -> slice (a ++ b) 0 n = slice a 0 n.
Proof.
  intros. unfold slice. simpl. rewrite firstn_app.
  replace (n - length a) with 0 by lia. simpl. apply app_nil_r.
Qed.

(** ** Model operations *)

Lemma load_ok : forall mem i, i < length mem -> exists b, load mem i = Ok b.
Proof.
  intros. unfold load. destruct (nth_error mem i) eqn:E; eauto.
  apply nth_error_None in E. lia.
Qed.

Lemma load_nth : forall mem i b, nth_error mem i = Some b -> load mem i = Ok b.
Proof. intros. unfold load. rewrite H. reflexivity. Qed.

Lemma load_oob : forall mem i, length mem <= i -> load mem i = Fault OutOfBounds.
Proof.
  intros. unfold load. apply nth_error_None in H. rewrite H. reflexivity.
Qed.

Lemma store_ok : forall mem i b, i < length mem -> store mem i b = Ok (splice mem i [b]).
Proof.
  induction mem as [|a mem IH]; intros [|i] b H; simpl in *; try lia; auto.
  rewrite IH by lia. reflexivity.
Qed.

Lemma store_oob : forall mem i b, length mem <= i -> store mem i b = Fault OutOfBounds.
Proof.
  induction mem as [|a mem IH]; intros [|i] b H; simpl in *; try lia; auto.
  rewrite IH by lia. reflexivity.
Qed.

Lemma load_range_ok : forall n mem off,
  off + n <= length mem -> load_range mem off n = Ok (slice mem off n).
Proof.
  induction n as [|n IH]; intros mem off H; simpl; auto.
  destruct (nth_error mem off) eqn:E.
  - rewrite (load_nth _ _ _ E). simpl. rewrite IH by lia. simpl.
    f_equal. unfold slice.
    clear -E. revert mem E. induction off as [|off IH]; intros [|a mem] E; simpl in *;
      try discriminate.
    + injection E as ->. reflexivity.
    + apply IH in E. exact E.
  - apply nth_error_None in E. lia.
Qed.

Lemma load_range_oob : forall n mem off,
  0 < n -> length mem < off + n -> load_range mem off n = Fault OutOfBounds.
Proof.
  induction n as [|n IH]; intros mem off H0 H; simpl; try lia.
  destruct (Nat.ltb_spec off (length mem)).
  - destruct (load_ok mem off) as [b Hb]; auto. rewrite Hb. simpl.
    rewrite IH by lia. reflexivity.
  - rewrite load_oob by lia. reflexivity.
Qed.

Lemma store_range_ok : forall bs mem off,
  off + length bs <= length mem -> store_range mem off bs = Ok (splice mem off bs).
Proof.
  induction bs as [|b bs IH]; intros mem off H; simpl in *.
  - rewrite splice_nil. reflexivity.
  - rewrite store_ok by lia. simpl.
    rewrite IH by (rewrite splice_length; simpl; lia).
    f_equal. replace (S off) with (off + length [b]) by (simpl; lia).
    rewrite splice_splice_app by (simpl; lia). reflexivity.
Qed.

Lemma store_range_oob : forall bs mem off,
  bs <> [] -> length mem < off + length bs -> store_range mem off bs = Fault OutOfBounds.
Proof.
  induction bs as [|b bs IH]; intros mem off H0 H; simpl in *; try congruence.
  destruct (Nat.ltb_spec off (length mem)).
  - rewrite store_ok by lia. simpl. destruct bs as [|b' bs].
    + simpl in H. lia.
    + apply IH; [congruence|]. rewrite splice_length by (simpl; lia). simpl in *. lia.
  - rewrite store_oob by lia. reflexivity.
Qed.

Lemma Forall_slice : forall (P : Z -> Prop) mem off n,
  Forall P mem -> Forall P (slice mem off n).
Proof.
  intros. unfold slice. apply Forall_forall. intros x Hx.
  rewrite Forall_forall in H. apply H.
  rewrite <- (firstn_skipn off mem). apply in_or_app. right.
  rewrite <- (firstn_skipn n (skipn off mem)). apply in_or_app. auto.
Qed.

Lemma Forall_splice : forall (P : Z -> Prop) mem off bs,
  Forall P mem -> Forall P bs -> Forall P (splice mem off bs).
Proof.
  intros. unfold splice. rewrite !Forall_app. repeat split; auto.
  - rewrite <- (firstn_skipn off mem) in H. apply Forall_app in H. tauto.
  - rewrite <- (firstn_skipn (off + length bs) mem) in H. apply Forall_app in H. tauto.
Qed.

(** ** Sequencing *)

Lemma bind_ok : forall (A B : Type) (x : res A) (k : A -> res B) b,
  bind x k = Ok b -> exists a, x = Ok a /\ k a = Ok b.
Proof. intros A B [a|f] k b H; simpl in H; eauto. discriminate. Qed.

Lemma bind_assoc : forall (A B C : Type) (x : res A) (k : A -> res B) (h : B -> res C),
  bind (bind x k) h = bind x (fun a => bind (k a) h).
Proof. intros A B C [a|f] k h; reflexivity. Qed.
