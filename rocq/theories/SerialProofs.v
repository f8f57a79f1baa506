(** Proofs about [read_as] and [write_as]. *)

From Coq Require Import List ZArith Bool Arith Lia ZifyBool ZifyNat.
From Verif Require Import Base CInt IntModel Spec Conditions TypeLevel Serial
  MemFacts IntProofs SignedProofs TypeLevelProofs.
Import ListNotations.
Open Scope nat_scope.

(** Induction principle for types, through lists of fields. *)
Section TyInd.
  Variable P : ty -> Prop.
  Hypothesis Hbool : P TBool.
  Hypothesis Huns : forall w, P (TUns w).
  Hypothesis Hsig : forall w, P (TSig w).
  Hypothesis Harr : forall t n, P t -> P (TArr t n).
  Hypothesis Huser : forall s fs, Forall P fs -> P (TUser s fs).

  Fixpoint ty_ind_nested (t : ty) : P t :=
    match t with
    | TBool => Hbool
    | TUns w => Huns w
    | TSig w => Hsig w
    | TArr t n => Harr t n (ty_ind_nested t)
    | TUser s fs =>
        Huser s fs
          ((fix go (fs : list ty) : Forall P fs :=
              match fs with
              | [] => Forall_nil P
              | f :: fs' => Forall_cons f (ty_ind_nested f) (go fs')
              end) fs)
    end.
End TyInd.

Lemma Forall2_length : forall {A B : Type} {R : A -> B -> Prop} {l l'},
  Forall2 R l l' -> length l = length l'.
Proof. induction 1; simpl; auto. Qed.

(** ** List forms of the nested definitions *)

Lemma wf_ty_user : forall s fs, wf_ty (TUser s fs) <-> Forall wf_ty fs.
Proof.
  intros. cbn [wf_ty]. induction fs; simpl; split; intros; auto.
  - destruct H. constructor; tauto.
  - inversion H; subst. tauto.
Qed.

Lemma host_ok_user : forall p e m s fs, host_ok p e m (TUser s fs) <-> Forall (host_ok p e m) fs.
Proof.
  intros. cbn [host_ok]. induction fs; simpl; split; intros; auto.
  - destruct H. constructor; tauto.
  - inversion H; subst. tauto.
Qed.

Lemma layout_ok_user : forall s fs, layout_ok (TUser s fs) <-> Forall layout_ok fs.
Proof.
  intros. cbn [layout_ok]. induction fs; simpl; split; intros; auto.
  - destruct H. constructor; tauto.
  - inversion H; subst. tauto.
Qed.

Lemma ty_ok_user : forall p e m s fs, ty_ok p e m (TUser s fs) <-> Forall (ty_ok p e m) fs.
Proof.
  intros. unfold ty_ok. rewrite wf_ty_user, host_ok_user, layout_ok_user, !Forall_forall.
  firstorder.
Qed.

Lemma ty_ok_arr : forall p e m t n, ty_ok p e m (TArr t n)
  <-> ty_ok p e m t /\ sizeof t = wire_size t /\ 1 <= sizeof t /\ 1 <= n.
Proof. intros. unfold ty_ok. cbn [wf_ty host_ok layout_ok]. tauto. Qed.

Lemma sizeof_arr : forall t n, 1 <= n -> sizeof (TArr t n) = n * sizeof t.
Proof. intros t [|n] H; [lia|reflexivity]. Qed.

Lemma arr_iterations : forall t n, 1 <= n -> 1 <= sizeof t -> sizeof (TArr t n) / sizeof t = n.
Proof. intros. rewrite sizeof_arr by auto. apply Nat.div_mul. lia. Qed.

Definition has_types (ts : list ty) (vs : list val) : Prop := Forall2 has_type ts vs.

Lemma has_type_user : forall s fs vs, has_type (TUser s fs) (VList vs) <-> Forall2 has_type fs vs.
Proof.
  intros s fs. cbn [has_type]. induction fs as [|f fs IH]; intros [|v vs]; split; intros H; auto;
    try contradiction; try solve [inversion H].
  - destruct H. constructor; auto. apply IH; auto.
  - inversion H; subst. split; auto. apply IH; auto.
Qed.

Lemma all_signed_user : forall P s fs vs, length fs = length vs ->
  (all_signed P (TUser s fs) (VList vs) <-> Forall2 (all_signed P) fs vs).
Proof.
  intros P s fs. cbn [all_signed]. induction fs as [|f fs IH]; intros [|v vs] Hl; simpl in Hl;
    try discriminate; split; intros H; auto.
  - destruct H. constructor; auto. apply IH; auto.
  - inversion H; subst. split; auto. apply IH; auto.
Qed.

Lemma encodable_user : forall p m s fs vs,
  encodable p m (TUser s fs) (VList vs) <-> Forall2 (encodable p m) fs vs.
Proof.
  intros. unfold encodable. split.
  - intros [H1 H2]. apply has_type_user in H1. pose proof (Forall2_length H1) as Hl.
    apply all_signed_user in H2; auto. clear Hl.
    revert H2. induction H1; intros H2; inversion H2; subst; constructor; auto.
  - intros H. assert (H1 : Forall2 has_type fs vs).
    { induction H; constructor; tauto. }
    split; [apply has_type_user; auto|]. apply all_signed_user; [apply (Forall2_length H)|].
    induction H; constructor; try tauto. apply IHForall2. inversion H1; auto.
Qed.

Lemma encodable_arr : forall p m t n vs,
  encodable p m (TArr t n) (VList vs) <-> length vs = n /\ Forall (encodable p m t) vs.
Proof.
  intros. unfold encodable. cbn [has_type all_signed]. rewrite !Forall_forall. firstorder.
Qed.

Lemma enc_user : forall e m s fs vs, enc e m (TUser s fs) (VList vs) = enc_list e m fs vs.
Proof.
  intros e m s fs. cbn [enc]. induction fs as [|f fs IH]; intros [|v vs]; cbn [enc_list]; auto.
  f_equal. apply IH.
Qed.

Lemma dec_user : forall e m s fs bs, dec e m (TUser s fs) bs = VList (dec_list e m fs bs).
Proof.
  intros e m s fs bs. cbn [dec]. f_equal. revert bs.
  induction fs as [|f fs IH]; intros bs; cbn [dec_list]; auto. f_equal. apply IH.
Qed.

Lemma decodable_user : forall p e m s fs bs,
  decodable p e m (TUser s fs) bs <-> decodable_list p e m fs bs.
Proof.
  intros p e m s fs. cbn [decodable]. induction fs as [|f fs IH]; intros bs; cbn [decodable_list];
    [tauto|]. rewrite IH. tauto.
Qed.

Lemma wire_size_user : forall s fs, wire_size (TUser s fs) = list_sum (map wire_size fs).
Proof. reflexivity. Qed.

(** ** Sizes *)

Lemma serialization_size_wire : forall t, layout_ok t -> serialization_size t = wire_size t.
Proof.
  induction t using ty_ind_nested; intros Hl; cbn [serialization_size wire_size sizeof]; auto.
  - destruct Hl as (_ & Hl & Hn). destruct n; [lia|]. rewrite Hl. reflexivity.
  - apply layout_ok_user in Hl. rewrite sum17_list_sum. f_equal.
    induction H; cbn [map]; auto. inversion Hl; subst. f_equal; auto.
Qed.

Lemma map_serialization_size : forall ts, Forall layout_ok ts ->
  map serialization_size ts = map wire_size ts.
Proof.
  induction 1; cbn [map]; auto. f_equal; auto. apply serialization_size_wire; auto.
Qed.

(** Offset of element [i]: sum of the sizes of the previous elements. *)
Definition offset_of (ts : list ty) (i : nat) : nat := list_sum (map wire_size (firstn i ts)).

Lemma element_offset_ok : forall ts i, Forall layout_ok ts -> i <= length ts ->
  element_offset ts i = Ok (offset_of ts i).
Proof.
  intros ts i Hl Hi. unfold element_offset. rewrite clip17_ok by (rewrite map_length; lia).
  cbn [skipn]. rewrite sum17_list_sum, map_serialization_size by auto.
  unfold offset_of. rewrite firstn_map. reflexivity.
Qed.

Lemma offset_of_S : forall ts i t, nth_error ts i = Some t ->
  offset_of ts (S i) = offset_of ts i + wire_size t.
Proof.
  intros ts i t H. unfold offset_of.
  revert ts H. induction i as [|i IH]; intros [|a ts] H; try discriminate.
  - injection H as ->. cbn. lia.
  - cbn [nth_error] in H. specialize (IH _ H). cbn [firstn map list_sum fold_right] in *.
    unfold list_sum in *. lia.
Qed.

Lemma offset_of_0 : forall ts, offset_of ts 0 = 0.
Proof. reflexivity. Qed.

Lemma offset_of_all : forall ts, offset_of ts (length ts) = list_sum (map wire_size ts).
Proof. intros. unfold offset_of. rewrite firstn_all. reflexivity. Qed.

Lemma offset_of_mono : forall ts i j, i <= j -> offset_of ts i <= offset_of ts j.
Proof.
  induction ts as [|t ts IH]; intros [|i] [|j] H; unfold offset_of in *; cbn [firstn map list_sum fold_right];
    try lia; auto. specialize (IH i j ltac:(lia)). unfold list_sum in *. lia.
Qed.

Lemma offset_of_le : forall ts i, offset_of ts i <= list_sum (map wire_size ts).
Proof.
  induction ts as [|t ts IH]; intros [|i]; unfold offset_of in *; cbn [firstn map list_sum fold_right];
    try lia; auto. specialize (IH i). unfold list_sum in *. lia.
Qed.

Lemma list_sum_app : forall a b, list_sum (a ++ b) = list_sum a + list_sum b.
Proof. induction a; intros; simpl; auto. unfold list_sum in *. simpl. rewrite IHa. lia. Qed.

(** ** Lengths of encodings *)

Lemma enc_length : forall e m t v, has_type t v -> length (enc e m t v) = wire_size t.
Proof.
  intros e m. induction t using ty_ind_nested; intros [z|vs] Hv; try contradiction;
    try (cbn [enc wire_size]; apply wire_bytes_length).
  - destruct Hv as [Hn Hf]. cbn [enc wire_size]. rewrite <- Hn. clear Hn.
    induction Hf; cbn [flat_map length Nat.mul]; auto. rewrite app_length, IHt, IHHf; auto.
  - rewrite enc_user, wire_size_user. apply has_type_user in Hv.
    induction Hv; cbn [enc_list length map list_sum fold_right]; auto.
    inversion H as [|? ? Hx Hl]; subst. rewrite app_length. rewrite IHHv by auto.
    rewrite Hx by auto. reflexivity.
Qed.

Lemma enc_list_length : forall e m ts vs, Forall2 has_type ts vs ->
  length (enc_list e m ts vs) = list_sum (map wire_size ts).
Proof.
  induction 1; cbn [enc_list length map list_sum fold_right]; auto.
  rewrite app_length, IHForall2, enc_length by auto. reflexivity.
Qed.

Lemma enc_bytes : forall e m t v, Forall is_byte (enc e m t v).
Proof.
  intros e m. induction t using ty_ind_nested; intros [z|vs];
    try (cbn [enc]; auto using wire_bytes_bytes; fail).
  - cbn [enc]. induction vs; cbn [flat_map]; auto. apply Forall_app. auto.
  - rewrite enc_user. revert vs.
    induction H; intros [|v vs]; cbn [enc_list]; auto. apply Forall_app. auto.
Qed.

Lemma enc_list_bytes : forall e m ts vs, Forall is_byte (enc_list e m ts vs).
Proof.
  induction ts as [|t ts IH]; intros [|v vs]; cbn [enc_list]; auto.
  apply Forall_app. split; auto using enc_bytes.
Qed.

Lemma Forall2_nth : forall (A B : Type) (R : A -> B -> Prop) l l' i a,
  Forall2 R l l' -> nth_error l i = Some a -> exists b, nth_error l' i = Some b /\ R a b.
Proof.
  intros A B R l l' i a H. revert i. induction H; intros [|i] Hi; try discriminate; simpl in *; eauto.
  injection Hi as ->. eauto.
Qed.

Lemma skipn_cons_nth : forall (A : Type) (l : list A) i a l',
  skipn i l = a :: l' -> nth_error l i = Some a /\ skipn (S i) l = l'.
Proof.
  induction l as [|b l IH]; intros [|i] a l' H; try discriminate.
  - simpl in H. injection H as -> ->. auto.
  - simpl in H. apply IH in H. auto.
Qed.

Section Codec.
  Variable p : platform.
  Variable e : endianess.
  Variable m : signed_mode.
  Hypothesis Hp : wf_platform p.

  (** Serialization of the fields of a view, named. *)
  Definition write_fields (fs : list ty) (vs : list val) (off : nat) :=
    fix go (l : list ty) (i : nat) (mem : list Z) {struct l} : res (list Z) :=
      match l with
      | [] => Ok mem
      | f :: l' =>
          match nth_error vs i with
          | None => Fault TypeMismatch
          | Some v =>
              o <- element_offset fs i;;
              mem' <- write_as p e m f v mem (off + o);;
              go l' (S i) mem'
          end
      end.

  Definition read_fields (fs : list ty) (mem : list Z) (off : nat) :=
    fix go (l : list ty) (i : nat) {struct l} : res (list val) :=
      match l with
      | [] => Ok []
      | f :: l' =>
          o <- element_offset fs i;;
          v <- read_as p e m f mem (off + o);;
          vs <- go l' (S i);;
          Ok (v :: vs)
      end.

  Lemma write_as_user : forall s fs vs mem off,
    write_as p e m (TUser s fs) (VList vs) mem off = write_fields fs vs off fs 0 mem.
  Proof. reflexivity. Qed.

  Lemma read_as_user : forall s fs mem off,
    read_as p e m (TUser s fs) mem off
    = (vs <- read_fields fs mem off fs 0;; Ok (VList vs)).
  Proof. reflexivity. Qed.

  (** The suffix of fields from [i] on is written after the first [i]. *)
  Lemma write_fields_ok : forall fs vs off l i mem,
    Forall layout_ok fs -> Forall2 (encodable p m) fs vs ->
    Forall (fun t => forall v mem off, encodable p m t v -> off + wire_size t <= length mem ->
              write_as p e m t v mem off = Ok (splice mem off (enc e m t v))) l ->
    skipn i fs = l ->
    off + list_sum (map wire_size fs) <= length mem ->
    write_fields fs vs off l i mem
    = Ok (splice mem (off + offset_of fs i) (enc_list e m l (skipn i vs))).
  Proof.
    intros fs vs off l. induction l as [|f l IH]; intros i mem Hl Henc Hw Hsk Hlen;
      cbn [write_fields enc_list].
    - rewrite splice_nil. reflexivity.
    - inversion Hw as [|? ? Hwf Hwl]; subst.
      destruct (skipn_cons_nth _ _ _ _ _ Hsk) as [Hi Hsk'].
      destruct (Forall2_nth _ _ _ _ _ _ _ Henc Hi) as (v & Hv & Hev). rewrite Hv.
      assert (Hilt : i < length fs) by (apply nth_error_Some; congruence).
      rewrite element_offset_ok by (auto; lia). cbn [bind].
      pose proof (offset_of_S fs i f Hi) as HS. pose proof (offset_of_le fs (S i)) as Hle.
      rewrite Hwf by (auto; lia). cbn [bind].
      fold (write_fields fs vs off).
      assert (Hel : length (enc e m f v) = wire_size f) by (apply enc_length; apply Hev).
      rewrite (IH (S i)); auto.
      2:{ rewrite splice_length; lia. }
      f_equal.
      replace (skipn i vs) with (v :: skipn (S i) vs).
      2:{ clear -Hv. revert i Hv. induction vs; intros [|i] Hv; try discriminate; simpl in *.
          - injection Hv as ->. reflexivity.
          - apply IHvs; auto. }
      cbn [enc_list].
      replace (off + offset_of fs (S i)) with (off + offset_of fs i + length (enc e m f v)) by lia.
      apply splice_splice_app.
      assert (Forall2 has_type l (skipn (S i) vs)).
      { rewrite <- Hsk'. clear -Henc. revert i. induction Henc; intros i.
        - destruct i; constructor.
        - destruct i; simpl; [|apply IHHenc].
          clear -Henc. induction Henc; constructor; auto. apply H. }
      rewrite enc_list_length by auto.
      assert (list_sum (map wire_size fs) = offset_of fs (S i) + list_sum (map wire_size l)).
      { unfold offset_of. rewrite <- Hsk', <- list_sum_app, <- map_app, firstn_skipn. reflexivity. }
      lia.
  Qed.

  Definition write_loop (t' : ty) (vs : list val) (off : nat) :=
    fix loop (k i : nat) (mem : list Z) {struct k} : res (list Z) :=
      match k with
      | 0 => Ok mem
      | S k' =>
          match nth_error vs i with
          | None => Fault TypeMismatch
          | Some v =>
              mem' <- write_as p e m t' v mem (off + i * sizeof t');;
              loop k' (S i) mem'
          end
      end.

  Definition read_loop (t' : ty) (mem : list Z) (off : nat) :=
    fix loop (k i : nat) {struct k} : res (list val) :=
      match k with
      | 0 => Ok []
      | S k' =>
          v <- read_as p e m t' mem (off + i * sizeof t');;
          vs <- loop k' (S i);;
          Ok (v :: vs)
      end.

  Definition write_loop_to (n : nat) (t' : ty) (vs : list val) (off : nat) :=
    fix loop (k i : nat) (mem : list Z) {struct k} : res (list Z) :=
      match k with
      | 0 => Ok mem
      | S k' =>
          if n <=? i then Fault OutOfBounds
          else
            match nth_error vs i with
            | None => Fault TypeMismatch
            | Some v =>
                mem' <- write_as p e m t' v mem (off + i * sizeof t');;
                loop k' (S i) mem'
            end
      end.

  Lemma write_loop_within : forall n t' vs off k i mem, i + k <= n ->
    write_loop_to n t' vs off k i mem = write_loop t' vs off k i mem.
  Proof.
    intros n t' vs off. induction k as [|k IH]; intros i mem H; cbn [write_loop_to write_loop]; auto.
    destruct (Nat.leb_spec n i); [lia|]. destruct (nth_error vs i) as [v|]; auto.
    destruct (write_as p e m t' v mem (off + i * sizeof t')) as [mem'|]; auto. cbn [bind]. apply IH. lia.
  Qed.

  Lemma write_as_arr : forall t' n vs mem off, 1 <= n -> 1 <= sizeof t' ->
    write_as p e m (TArr t' n) (VList vs) mem off = write_loop t' vs off n 0 mem.
  Proof.
    intros t' n vs mem off Hn Ht.
    transitivity (write_loop_to n t' vs off (sizeof (TArr t' n) / sizeof t') 0 mem); [reflexivity|].
    rewrite arr_iterations by auto. apply write_loop_within. lia.
  Qed.

  Lemma read_as_arr : forall t' n mem off,
    read_as p e m (TArr t' n) mem off = (vs <- read_loop t' mem off n 0;; Ok (VList vs)).
  Proof. reflexivity. Qed.

  Lemma write_loop_ok : forall t' vs off,
    sizeof t' = wire_size t' -> Forall (encodable p m t') vs ->
    (forall v mem off, encodable p m t' v -> off + wire_size t' <= length mem ->
       write_as p e m t' v mem off = Ok (splice mem off (enc e m t' v))) ->
    forall k i mem, i + k = length vs ->
    off + length vs * wire_size t' <= length mem ->
    write_loop t' vs off k i mem
    = Ok (splice mem (off + i * wire_size t') (flat_map (enc e m t') (skipn i vs))).
  Proof.
    intros t' vs off Hsz Henc Hw. induction k as [|k IH]; intros i mem Hik Hlen; cbn [write_loop].
    - rewrite skipn_all2 by lia. cbn [flat_map]. rewrite splice_nil. reflexivity.
    - destruct (nth_error vs i) as [v|] eqn:Hv.
      2:{ apply nth_error_None in Hv. lia. }
      assert (Hev : encodable p m t' v) by (rewrite Forall_forall in Henc; apply Henc; eapply nth_error_In; eauto).
      assert (Hb : (i + S k) * wire_size t' = i * wire_size t' + wire_size t' + k * wire_size t') by lia.
      rewrite <- Hik in Hlen. rewrite Hb in Hlen.
      rewrite Hsz, Hw by (auto; lia). cbn [bind]. fold (write_loop t' vs off).
      assert (Hel : length (enc e m t' v) = wire_size t') by (apply enc_length; apply Hev).
      rewrite IH; try lia.
      2:{ rewrite splice_length by lia. rewrite <- Hik. lia. }
      f_equal.
      assert (Hsk : skipn i vs = v :: skipn (S i) vs).
      { clear -Hv. revert i Hv. induction vs; intros [|i] Hv; try discriminate; simpl in *.
        - injection Hv as ->. reflexivity.
        - apply IHvs; auto. }
      rewrite Hsk. cbn [flat_map].
      replace (off + S i * wire_size t') with (off + i * wire_size t' + length (enc e m t' v)) by lia.
      apply splice_splice_app.
      assert (Hfl : forall l, Forall (encodable p m t') l -> length (flat_map (enc e m t') l) = length l * wire_size t').
      { induction 1; cbn [flat_map length]; auto. rewrite app_length, IHForall, enc_length; auto. apply H. }
      rewrite Hfl.
      + rewrite skipn_length. replace (length vs - S i) with k by lia. lia.
      + clear -Henc. revert vs Henc. induction (S i); intros vs Henc; simpl; auto.
        destruct Henc; simpl; auto.
  Qed.

  Theorem write_as_ok : forall t v mem off,
    ty_ok p e m t -> encodable p m t v -> off + wire_size t <= length mem ->
    write_as p e m t v mem off = Ok (splice mem off (enc e m t v)).
  Proof.
    induction t using ty_ind_nested; intros v mem off Hok Henc Hlen.
    - destruct v as [z|]; [|destruct Henc; contradiction]. cbn [write_as sizeof].
      change 1 with (csizeof CBool). rewrite to_endianess_unsigned; auto.
      + exact I.
      + destruct Henc as [H _]. exact H.
    - destruct v as [z|]; [|destruct Henc; contradiction]. cbn [write_as sizeof].
      destruct Hok as (Hwf & _ & _). cbn [wf_ty wire_size] in *.
      change w with (csizeof (CInt w false)) at 2. rewrite to_endianess_unsigned; auto.
      + cbn [is_uns]. auto.
      + destruct Henc as [H _]. exact H.
    - destruct v as [z|]; [|destruct Henc; contradiction]. cbn [write_as sizeof].
      destruct Hok as (Hwf & Hh & _). destruct Henc as [Hz Hs]. cbn [wf_ty wire_size host_ok] in *.
      cbn [has_type all_signed enc] in *. apply write_signed_ok; auto.
    - destruct v as [|vs]; [destruct Henc; contradiction|].
      apply ty_ok_arr in Hok. destruct Hok as (Hok & Hsz & Hs1 & Hn). apply encodable_arr in Henc.
      destruct Henc as [<- Henc]. rewrite write_as_arr by auto.
      rewrite write_loop_ok; auto.
      + rewrite Nat.mul_0_l, Nat.add_0_r. reflexivity.
    - destruct v as [|vs]; [destruct Henc; contradiction|].
      apply ty_ok_user in Hok. apply encodable_user in Henc. rewrite write_as_user, enc_user.
      rewrite wire_size_user in Hlen.
      rewrite write_fields_ok with (l := fs); auto.
      + rewrite offset_of_0, Nat.add_0_r. reflexivity.
      + eapply Forall_impl; [|exact Hok]. intros a Ha. apply Ha.
      + rewrite Forall_forall in *. intros t Ht v mem' off' Hv Hl. apply H; auto.
  Qed.

  Lemma chunks_length : forall k n bs, length (chunks k n bs) = n.
  Proof. induction n; intros; simpl; auto. Qed.

  Lemma chunks_slice : forall k n mem off i,
    chunks k n (slice mem (off + i * k) (n * k)) = map (fun j => slice mem (off + j * k) k) (seq i n).
  Proof.
    induction n as [|n IH]; intros mem off i; cbn [chunks seq map]; auto. f_equal.
    - rewrite firstn_slice by lia. reflexivity.
    - rewrite skipn_slice. replace (S n * k - k) with (n * k) by lia.
      replace (off + i * k + k) with (off + S i * k) by lia. apply IH.
  Qed.

  Lemma read_loop_ok : forall t' mem off,
    sizeof t' = wire_size t' ->
    (forall off, off + wire_size t' <= length mem -> decodable p e m t' (slice mem off (wire_size t')) ->
       read_as p e m t' mem off = Ok (dec e m t' (slice mem off (wire_size t')))) ->
    forall k i,
    Forall (decodable p e m t') (map (fun j => slice mem (off + j * wire_size t') (wire_size t')) (seq i k)) ->
    off + (i + k) * wire_size t' <= length mem ->
    read_loop t' mem off k i
    = Ok (map (fun j => dec e m t' (slice mem (off + j * wire_size t') (wire_size t'))) (seq i k)).
  Proof.
    intros t' mem off Hsz Hr. induction k as [|k IH]; intros i Hdec Hlen; cbn [read_loop seq map]; auto.
    cbn [seq map] in Hdec. inversion Hdec; subst.
    assert (Hb : (i + S k) * wire_size t' = i * wire_size t' + wire_size t' + k * wire_size t') by lia.
    rewrite Hsz, Hr by (auto; lia). cbn [bind]. fold (read_loop t' mem off).
    rewrite IH; auto. lia.
  Qed.

  Lemma dec_list_slices : forall fs l i mem off,
    skipn i fs = l ->
    dec_list e m l (slice mem (off + offset_of fs i) (list_sum (map wire_size l)))
    = map (fun jt => dec e m (snd jt) (slice mem (off + offset_of fs (fst jt)) (wire_size (snd jt))))
          (combine (seq i (length l)) l).
  Proof.
    intros fs l. induction l as [|f l IH]; intros i mem off Hsk; cbn [dec_list seq map combine length]; auto.
    destruct (skipn_cons_nth _ _ _ _ _ Hsk) as [Hi Hsk'].
    cbn [fst snd list_sum fold_right map]. f_equal.
    - rewrite firstn_slice by lia. reflexivity.
    - rewrite skipn_slice. rewrite <- (IH (S i)) by auto.
      rewrite (offset_of_S fs i f Hi). f_equal. unfold slice. f_equal.
      + unfold list_sum. lia.
      + f_equal. lia.
  Qed.

  Lemma read_fields_ok : forall fs mem off l i,
    Forall layout_ok fs ->
    Forall (fun t => forall off, off + wire_size t <= length mem ->
              decodable p e m t (slice mem off (wire_size t)) ->
              read_as p e m t mem off = Ok (dec e m t (slice mem off (wire_size t)))) l ->
    skipn i fs = l ->
    off + list_sum (map wire_size fs) <= length mem ->
    decodable_list p e m l (slice mem (off + offset_of fs i) (list_sum (map wire_size l))) ->
    read_fields fs mem off l i
    = Ok (dec_list e m l (slice mem (off + offset_of fs i) (list_sum (map wire_size l)))).
  Proof.
    intros fs mem off l. induction l as [|f l IH]; intros i Hl Hr Hsk Hlen Hdec;
      cbn [read_fields dec_list]; auto.
    inversion Hr as [|? ? Hrf Hrl]; subst.
    destruct (skipn_cons_nth _ _ _ _ _ Hsk) as [Hi Hsk'].
    assert (Hilt : i < length fs) by (apply nth_error_Some; congruence).
    rewrite element_offset_ok by (auto; lia). cbn [bind].
    pose proof (offset_of_S fs i f Hi) as HS. pose proof (offset_of_le fs (S i)) as Hle.
    cbn [decodable_list map] in Hdec.
    change (list_sum (wire_size f :: map wire_size l)) with (wire_size f + list_sum (map wire_size l)) in *.
    cbn [map]. change (list_sum (wire_size f :: map wire_size l)) with (wire_size f + list_sum (map wire_size l)) in *.
    rewrite firstn_slice in * by lia. rewrite skipn_slice in *.
    replace (wire_size f + list_sum (map wire_size l) - wire_size f) with (list_sum (map wire_size l)) in * by lia.
    destruct Hdec as [Hd1 Hd2].
    rewrite Hrf by (auto; lia). cbn [bind]. fold (read_fields fs mem off).
    replace (off + offset_of fs i + wire_size f) with (off + offset_of fs (S i)) in * by lia.
    rewrite IH by auto. reflexivity.
  Qed.

  Theorem read_as_ok : forall t mem off,
    ty_ok p e m t -> Forall is_byte mem -> off + wire_size t <= length mem ->
    decodable p e m t (slice mem off (wire_size t)) ->
    read_as p e m t mem off = Ok (dec e m t (slice mem off (wire_size t))).
  Proof.
    induction t using ty_ind_nested; intros mem off Hok Hmem Hlen Hdec.
    - cbn [read_as sizeof dec wire_size decodable] in *.
      destruct (nth_error mem off) as [b|] eqn:Hb.
      2:{ apply nth_error_None in Hb. lia. }
      assert (Hsl : slice mem off 1 = [b]).
      { apply nth_error_ext. intros [|i]; rewrite nth_error_slice.
        - rewrite Nat.add_0_r. auto.
        - destruct i; reflexivity. }
      rewrite Hsl in *.
      assert (Hwv : wire_value e [b] = b) by (unfold wire_value; destruct e; cbn [fold_right fold_left]; lia).
      rewrite Hwv in *.
      rewrite (from_endianess_bool p e mem off b) by (auto; rewrite Forall_forall in Hmem; apply Hmem; eapply nth_error_In; eauto).
      unfold bool_decodable in Hdec. destruct (native_endianess p e); cbn [andb].
      + destruct (Hdec eq_refl); subst; reflexivity.
      + reflexivity.
    - cbn [read_as sizeof dec wire_size] in *. destruct Hok as (Hwf & _ & _).
      rewrite from_endianess_uns by auto. reflexivity.
    - cbn [read_as sizeof dec wire_size decodable] in *. destruct Hok as (Hwf & Hh & _).
      rewrite <- bind_assoc. rewrite read_signed_ok by auto. reflexivity.
    - apply ty_ok_arr in Hok. destruct Hok as (Hok & Hsz & _ & Hn). rewrite read_as_arr.
      cbn [wire_size decodable dec] in *.
      assert (Hch : chunks (wire_size t) n (slice mem off (n * wire_size t))
                    = map (fun j => slice mem (off + j * wire_size t) (wire_size t)) (seq 0 n)).
      { rewrite <- chunks_slice. rewrite Nat.mul_0_l, Nat.add_0_r. reflexivity. }
      rewrite Hch in *.
      rewrite read_loop_ok; auto. cbn [bind]. rewrite map_map. reflexivity.
    - apply ty_ok_user in Hok. rewrite read_as_user, dec_user, wire_size_user in *.
      rewrite read_fields_ok; auto.
      + cbn [bind]. rewrite offset_of_0, Nat.add_0_r. reflexivity.
      + eapply Forall_impl; [|exact Hok]. intros a Ha. apply Ha.
      + rewrite Forall_forall in *. intros t Ht off' Hl Hd. apply H; auto.
        rewrite Forall_forall. auto.
      + rewrite offset_of_0, Nat.add_0_r. apply decodable_user in Hdec. auto.
  Qed.
End Codec.

(** ** The specification decodes what it encodes *)

Lemma sig_encodable_representable : forall p m w z,
  (- half w <= z < half w)%Z -> sig_encodable p m w z -> representable m w z.
Proof.
  intros p m w z Hz [H|H]; destruct m; cbn [min_ok representable] in *; try lia; tauto.
Qed.

Lemma chunks_flat_map : forall (f : val -> list Z) k vs,
  (forall v, In v vs -> length (f v) = k) ->
  chunks k (length vs) (flat_map f vs) = map f vs.
Proof.
  induction vs as [|v vs IH]; intros H; cbn [length chunks flat_map map]; auto.
  pose proof (H v ltac:(left; auto)) as Hv. subst k. f_equal.
  - rewrite firstn_app, Nat.sub_diag, firstn_O, app_nil_r. apply firstn_all.
  - rewrite skipn_app, Nat.sub_diag, skipn_all. cbn [app skipn]. apply IH.
    intros u Hu. apply H. right. auto.
Qed.

Definition valid (m : signed_mode) (t : ty) (v : val) : Prop :=
  has_type t v /\ all_signed (representable m) t v.

Lemma dec_enc_gen : forall e m t v, wf_ty t -> has_type t v -> all_signed (representable m) t v ->
  dec e m t (enc e m t v) = v.
Proof.
  intros e m. induction t using ty_ind_nested; intros [z|vs] Hwf Hv Hr; try contradiction.
  - cbn [dec enc]. rewrite wire_value_bytes. cbn [has_type] in Hv. destruct Hv; subst; reflexivity.
  - cbn [dec enc]. rewrite wire_value_bytes. cbn [has_type] in Hv. rewrite Z.mod_small; auto.
  - cbn [dec enc wf_ty all_signed] in *. rewrite wire_value_bytes.
    rewrite Z.mod_small by (apply repr_in_space; auto). rewrite unrepr_repr; auto.
  - destruct Hv as [Hn Hf]. cbn [dec enc wf_ty all_signed] in *. f_equal. subst n. destruct Hwf as (_ & _ & Hwf).
    rewrite chunks_flat_map.
    + rewrite map_map. rewrite Forall_forall in *.
      rewrite <- (map_id vs) at 2. apply map_ext_in. intros v Hin. apply IHt; auto.
    + intros v Hin. apply enc_length. rewrite Forall_forall in Hf. auto.
  - apply wf_ty_user in Hwf. apply has_type_user in Hv.
    apply all_signed_user in Hr; [|apply (Forall2_length Hv)].
    rewrite enc_user, dec_user. f_equal. revert Hr.
    induction Hv; intros Hr; cbn [enc_list dec_list]; auto.
    inversion H; subst. inversion Hwf; subst. inversion Hr; subst.
    assert (Hl : length (enc e m x y) = wire_size x) by (apply enc_length; auto).
    rewrite <- Hl. rewrite firstn_app, Nat.sub_diag, firstn_O, app_nil_r, firstn_all.
    rewrite skipn_app, Nat.sub_diag, skipn_all. cbn [app skipn].
    f_equal; auto.
Qed.

Lemma all_signed_impl : forall (P Q : nat -> Z -> Prop) t v,
  wf_ty t -> has_type t v ->
  (forall w z, (1 <= w <= 8) -> (- half w <= z < half w)%Z -> P w z -> Q w z) ->
  all_signed P t v -> all_signed Q t v.
Proof.
  intros P Q. induction t using ty_ind_nested; intros [z|vs] Hwf Hv HPQ H0; try contradiction;
    cbn [all_signed wf_ty has_type] in *; auto.
  - destruct Hv as [_ Hv], Hwf as (_ & _ & Hwf). rewrite Forall_forall in *. auto.
  - apply (wf_ty_user s) in Hwf. pose proof (proj1 (has_type_user s fs vs) Hv) as Hv'.
    pose proof (Forall2_length Hv') as Hl.
    pose proof (proj1 (all_signed_user P s fs vs Hl) H0) as H0'.
    apply (proj2 (all_signed_user Q s fs vs Hl)). clear Hv H0 Hl.
    induction Hv' as [|x y l l' Hxy Hv' IH]; constructor;
      inversion H as [|? ? Hx1 Hl1]; inversion Hwf as [|? ? Hx2 Hl2];
      inversion H0' as [|? ? ? ? Hx3 Hl3]; subst.
    + apply (Hx1 y Hx2 Hxy HPQ Hx3).
    + apply IH; auto.
Qed.

Lemma encodable_representable : forall p m t v, wf_ty t -> encodable p m t v ->
  all_signed (representable m) t v.
Proof.
  intros p m t v Hwf [Hv Hs]. apply (all_signed_impl (sig_encodable p m)); auto.
  intros. eapply sig_encodable_representable; eauto.
Qed.

Theorem dec_enc : forall p e m t v, wf_ty t -> encodable p m t v -> dec e m t (enc e m t v) = v.
Proof.
  intros. apply dec_enc_gen; auto; [apply H0|]. eapply encodable_representable; eauto.
Qed.

Lemma dec_list_enc_list : forall p e m ts vs, Forall wf_ty ts -> Forall2 (encodable p m) ts vs ->
  dec_list e m ts (enc_list e m ts vs) = vs.
Proof.
  intros p e m ts vs Hwf H. induction H; cbn [enc_list dec_list]; auto.
  inversion Hwf; subst.
  assert (Hl : length (enc e m x y) = wire_size x) by (apply enc_length; apply H).
  rewrite <- Hl. rewrite firstn_app, Nat.sub_diag, firstn_O, app_nil_r, firstn_all.
  rewrite skipn_app, Nat.sub_diag, skipn_all. cbn [app skipn].
  f_equal; auto. eapply dec_enc; eauto.
Qed.

(** Encodings are readable. *)
Lemma encodable_decodable : forall p e m t v, wf_ty t -> encodable p m t v ->
  decodable p e m t (enc e m t v).
Proof.
  intros p e m. induction t using ty_ind_nested; intros [z|vs] Hwf Henc;
    try (destruct Henc; contradiction).
  - cbn [decodable enc]. rewrite wire_value_bytes. destruct Henc as [[Hz|Hz] _]; subst.
    + intros _. left. reflexivity.
    + intros _. right. reflexivity.
  - exact I.
  - cbn [decodable enc wf_ty] in *. rewrite wire_value_bytes.
    pose proof (encodable_representable p m (TSig w) (VInt z) Hwf Henc) as Hr. cbn [all_signed] in Hr.
    rewrite Z.mod_small by (apply repr_in_space; auto).
    intros -> Hu. destruct Henc as [Hz Hs]. cbn [has_type all_signed] in *.
    assert (z = - half w)%Z.
    { pose proof (space_half w ltac:(lia)). pose proof (half_pos w ltac:(lia)).
      cbn [repr] in Hu. destruct (Z.ltb_spec z 0); lia. }
    destruct Hs as [Hs|Hs]; [lia|]. exact Hs.
  - apply encodable_arr in Henc. destruct Henc as [Hn Hf]. cbn [decodable enc wf_ty] in *. subst n. destruct Hwf as (_ & _ & Hwf).
    rewrite chunks_flat_map.
    + rewrite Forall_map. rewrite Forall_forall in *. auto.
    + intros v Hin. apply enc_length. rewrite Forall_forall in Hf. apply Hf. auto.
  - apply wf_ty_user in Hwf. apply encodable_user in Henc. apply decodable_user. rewrite enc_user.
    induction Henc; cbn [decodable_list enc_list]; auto.
    inversion H; inversion Hwf; subst.
    assert (Hl : length (enc e m x y) = wire_size x) by (apply enc_length; apply H0).
    rewrite <- Hl. rewrite firstn_app, Nat.sub_diag, firstn_O, app_nil_r, firstn_all.
    rewrite skipn_app, Nat.sub_diag, skipn_all. cbn [app skipn]. auto.
Qed.

Lemma encodable_decodable_list : forall p e m ts vs, Forall wf_ty ts -> Forall2 (encodable p m) ts vs ->
  decodable_list p e m ts (enc_list e m ts vs).
Proof.
  intros p e m ts vs Hwf H. apply (decodable_user p e m 0). rewrite <- enc_user with (s := 0).
  apply encodable_decodable; [apply wf_ty_user; auto|]. apply encodable_user. auto.
Qed.
