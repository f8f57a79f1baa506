(** Lemmas about the tuple model. *)

From Coq Require Import List ZArith Lia Bool Arith.
From Verif Require Import Base CInt Spec IntModel Conditions MemFacts TypeLevel Serial TupleModel
  TypeLevelProofs IntProofs SignedProofs SerialProofs CodecFacts Bounds.
Import ListNotations.
Open Scope nat_scope.

(** ** A read depends only on the bytes of the element *)

Definition agree (mem mem' : list Z) (off n : nat) : Prop :=
  forall x, off <= x < off + n -> nth_error mem x = nth_error mem' x.

Lemma agree_sub : forall mem mem' off n off' n',
  agree mem mem' off n -> off <= off' -> off' + n' <= off + n -> agree mem mem' off' n'.
Proof. intros mem mem' off n off' n' H H1 H2 x Hx. apply H. lia. Qed.

Lemma load_range_local : forall n mem mem' off, agree mem mem' off n ->
  load_range mem off n = load_range mem' off n.
Proof.
  induction n as [|n IH]; intros mem mem' off H; cbn [load_range]; auto.
  unfold load. rewrite (H off) by lia. rewrite (IH mem mem' (S off)); auto.
  apply (agree_sub mem mem' off (S n)); auto; lia.
Qed.

Lemma content_eq : forall v mem, content v mem = load_range mem (v_begin v) (tuple_size (v_types v)).
Proof. intros v mem. unfold content, v_end. f_equal. lia. Qed.

Lemma fill_tuple_eq : forall (X : Type) (src : X -> res (X * Z)) v x mem,
  fill_tuple src v x mem = fill src (tuple_size (v_types v)) (v_begin v) x mem.
Proof. intros X src v x mem. unfold fill_tuple, v_end. f_equal. lia. Qed.

Lemma from_endianess_local : forall p T e mem mem' off n, agree mem mem' off n ->
  from_endianess p T e mem off n = from_endianess p T e mem' off n.
Proof.
  intros p T e mem mem' off n H. unfold from_endianess, from_endianess_impl.
  destruct (native_endianess p e).
  - rewrite (load_range_local n mem mem') by auto. reflexivity.
  - assert (L : forall k i s r, i + k = n ->
      from_endianess_loop p T e mem off n k i s r = from_endianess_loop p T e mem' off n k i s r).
    { induction k as [|k IH]; intros i s r Hik; cbn [from_endianess_loop]; auto.
      unfold load. rewrite (H (off + byte_index e n i)) by (destruct e; cbn [byte_index]; lia).
      destruct (nth_error mem' _); cbn [bind]; auto. destruct (c_shl _ _ _); cbn [bind]; auto.
      apply IH. lia. }
    apply L. lia.
Qed.

Theorem read_as_local : forall p e m t mem mem' off, layout_ok t -> agree mem mem' off (wire_size t) ->
  read_as p e m t mem off = read_as p e m t mem' off.
Proof.
  intros p e m. induction t using ty_ind_nested; intros mem mem' off Hl Ha.
  - cbn [read_as]. rewrite (from_endianess_local p CBool e mem mem' off (sizeof TBool)) by auto. reflexivity.
  - cbn [read_as]. rewrite (from_endianess_local p _ e mem mem' off (sizeof (TUns w))) by auto. reflexivity.
  - cbn [read_as]. rewrite (from_endianess_local p _ e mem mem' off (sizeof (TSig w))) by auto. reflexivity.
  - rewrite !read_as_arr. cbn [layout_ok wire_size] in *. destruct Hl as (Hl & Hsz & _).
    assert (L : forall k i, i + k = n -> read_loop p e m t mem off k i = read_loop p e m t mem' off k i).
    { induction k as [|k IH]; intros i Hik; cbn [read_loop]; auto.
      fold (read_loop p e m t mem off). fold (read_loop p e m t mem' off).
      rewrite (IHt mem mem') by (auto; apply (agree_sub mem mem' off (n * wire_size t)); auto; nia).
      rewrite IH by lia. reflexivity. }
    rewrite L by lia. reflexivity.
  - rewrite !read_as_user. apply (layout_ok_user s) in Hl. rewrite wire_size_user in Ha.
    assert (L : forall l i, skipn i fs = l -> read_fields p e m fs mem off l i = read_fields p e m fs mem' off l i).
    { induction l as [|f l IH]; intros i Hsk; cbn [read_fields]; auto.
      fold (read_fields p e m fs mem off). fold (read_fields p e m fs mem' off).
      destruct (skipn_cons_nth _ _ _ _ _ Hsk) as [Hi Hsk'].
      assert (Hilt : i < length fs) by (apply nth_error_Some; congruence).
      rewrite element_offset_ok by (auto; lia). cbn [bind].
      pose proof (offset_of_S fs i f Hi). pose proof (offset_of_le fs (S i)).
      assert (In f fs) by (eapply nth_error_In; eauto).
      rewrite Forall_forall in H, Hl.
      rewrite (H f H2 mem mem'); auto.
      - rewrite IH by auto. reflexivity.
      - apply (agree_sub mem mem' off (list_sum (map wire_size fs))); auto; lia. }
    rewrite L by reflexivity. reflexivity.
Qed.

Lemma agree_splice_outside : forall mem a bs off n, a + length bs <= length mem ->
  off + n <= a \/ a + length bs <= off -> agree (splice mem a bs) mem off n.
Proof.
  intros mem a bs off n Hl Hd x Hx. rewrite nth_error_splice by lia.
  destruct (Nat.ltb_spec x a); auto. destruct (Nat.ltb_spec x (a + length bs)); auto. lia.
Qed.

Lemma agree_slice : forall mem off n, off + n <= length mem ->
  forall x, x < n -> nth_error (slice mem off n) x = nth_error mem (off + x).
Proof.
  intros mem off n Hl x Hx. rewrite nth_error_slice. destruct (Nat.ltb_spec x n); [auto|lia].
Qed.

(** Reading at an offset is reading the bytes at that offset. *)
Lemma read_as_shift : forall p e m t mem off, layout_ok t -> off + wire_size t <= length mem ->
  read_as p e m t (slice mem off (wire_size t)) 0 = read_as p e m t mem off.
Proof.
  intros p e m.
  assert (G : forall t mem mem' off off', layout_ok t ->
     (forall x, x < wire_size t -> nth_error mem (off + x) = nth_error mem' (off' + x)) ->
     read_as p e m t mem off = read_as p e m t mem' off').
  { assert (F : forall T n mem mem' off off', (forall x, x < n -> nth_error mem (off + x) = nth_error mem' (off' + x)) ->
       from_endianess p T e mem off n = from_endianess p T e mem' off' n).
    { intros T n mem mem' off off' H. unfold from_endianess, from_endianess_impl.
      destruct (native_endianess p e).
      - assert (L : load_range mem off n = load_range mem' off' n).
        { revert off off' H. induction n as [|n IH]; intros off off' H; cbn [load_range]; auto.
          unfold load. pose proof (H 0 ltac:(lia)) as H0. rewrite !Nat.add_0_r in H0. rewrite H0.
          rewrite (IH (S off) (S off')); auto. intros x Hx. specialize (H (S x) ltac:(lia)).
          rewrite <- !plus_n_Sm in H. exact H. }
        rewrite L. reflexivity.
      - assert (L : forall k i s r, i + k = n ->
          from_endianess_loop p T e mem off n k i s r = from_endianess_loop p T e mem' off' n k i s r).
        { induction k as [|k IH]; intros i s r Hik; cbn [from_endianess_loop]; auto.
          unfold load. rewrite (H (byte_index e n i)) by (destruct e; cbn [byte_index]; lia).
          destruct (nth_error mem' _); cbn [bind]; auto. destruct (c_shl _ _ _); cbn [bind]; auto.
          apply IH. lia. }
        apply L. lia. }
    induction t using ty_ind_nested; intros mem mem' off off' Hl Ha.
    - cbn [read_as]. rewrite (F CBool _ mem mem' off off') by auto. reflexivity.
    - cbn [read_as]. rewrite (F _ _ mem mem' off off') by auto. reflexivity.
    - cbn [read_as]. rewrite (F _ _ mem mem' off off') by auto. reflexivity.
    - rewrite !read_as_arr. cbn [layout_ok wire_size] in *. destruct Hl as (Hl & Hsz & _).
      assert (L : forall k i, i + k = n -> read_loop p e m t mem off k i = read_loop p e m t mem' off' k i).
      { induction k as [|k IH]; intros i Hik; cbn [read_loop]; auto.
        fold (read_loop p e m t mem off). fold (read_loop p e m t mem' off').
        rewrite (IHt mem mem' (off + i * sizeof t) (off' + i * sizeof t)); auto.
        - rewrite IH by lia. reflexivity.
        - intros x Hx. rewrite Hsz, <- !Nat.add_assoc. apply Ha. nia. }
      rewrite L by lia. reflexivity.
    - rewrite !read_as_user. apply (layout_ok_user s) in Hl. rewrite wire_size_user in Ha.
      assert (L : forall l i, skipn i fs = l ->
         read_fields p e m fs mem off l i = read_fields p e m fs mem' off' l i).
      { induction l as [|f l IH]; intros i Hsk; cbn [read_fields]; auto.
        fold (read_fields p e m fs mem off). fold (read_fields p e m fs mem' off').
        destruct (skipn_cons_nth _ _ _ _ _ Hsk) as [Hi Hsk'].
        assert (Hilt : i < length fs) by (apply nth_error_Some; congruence).
        rewrite element_offset_ok by (auto; lia). cbn [bind].
        pose proof (offset_of_S fs i f Hi). pose proof (offset_of_le fs (S i)).
        assert (Hin : In f fs) by (eapply nth_error_In; eauto).
        rewrite Forall_forall in H, Hl.
        rewrite (H f Hin mem mem' (off + offset_of fs i) (off' + offset_of fs i)); auto.
        - rewrite IH by auto. reflexivity.
        - intros x Hx. rewrite <- !Nat.add_assoc. apply Ha. lia. }
      rewrite L by reflexivity. reflexivity. }
  intros t mem off Hl Hb. apply G; auto. intros x Hx. cbn [plus]. apply agree_slice; auto.
Qed.

(** ** Elements of a view *)

Definition elements_ok (p : platform) (v : view) : Prop :=
  Forall (fun t => ty_ok p (v_e v) (v_m v) t /\ (v_kind v = Iterator -> sizeof t = wire_size t)) (v_types v).

Definition total (ts : list ty) : nat := list_sum (map wire_size ts).

Definition in_bounds (v : view) (mem : list Z) : Prop :=
  v_begin v + total (v_types v) <= length mem.

(** Position of element [i]. *)
Definition pos (v : view) (i : nat) : nat := v_begin v + offset_of (v_types v) i.

Lemma elements_layout : forall p v, elements_ok p v -> Forall layout_ok (v_types v).
Proof. intros p v H. eapply Forall_impl; [|exact H]. cbn. intros t [Ht _]. apply Ht. Qed.

Lemma elements_ty : forall p v, elements_ok p v -> Forall (ty_ok p (v_e v) (v_m v)) (v_types v).
Proof. intros p v H. eapply Forall_impl; [|exact H]. cbn. intros t [Ht _]. apply Ht. Qed.

Lemma elements_wf : forall p v, elements_ok p v -> Forall wf_ty (v_types v).
Proof. intros p v H. eapply Forall_impl; [|exact H]. cbn. intros t [Ht _]. apply Ht. Qed.

Lemma elements_nth : forall p v i t, elements_ok p v -> nth_error (v_types v) i = Some t ->
  ty_ok p (v_e v) (v_m v) t /\ (v_kind v = Iterator -> sizeof t = wire_size t).
Proof.
  intros p v i t H Hi. unfold elements_ok in H. rewrite Forall_forall in H. apply H.
  eapply nth_error_In; eauto.
Qed.

Lemma tuple_size_total : forall p v, elements_ok p v -> tuple_size (v_types v) = total (v_types v).
Proof.
  intros p v H. unfold tuple_size, total. rewrite sum17_list_sum, map_serialization_size; auto.
  eapply elements_layout; eauto.
Qed.

Lemma get_eq : forall p v i t mem, elements_ok p v -> nth_error (v_types v) i = Some t ->
  get p v i mem = read_at p (v_e v) (v_m v) (v_kind v) t mem (pos v i).
Proof.
  intros p v i t mem H Hi. unfold get. rewrite at17_nth_error, Hi.
  assert (i < length (v_types v)) by (apply nth_error_Some; congruence).
  rewrite element_offset_ok by (try lia; eapply elements_layout; eauto). reflexivity.
Qed.

Lemma set_eq : forall p v i t x mem, elements_ok p v -> nth_error (v_types v) i = Some t ->
  set p v i x mem = write_at p (v_e v) (v_m v) (v_kind v) t x mem (pos v i).
Proof.
  intros p v i t x mem H Hi. unfold set. rewrite at17_nth_error, Hi.
  assert (i < length (v_types v)) by (apply nth_error_Some; congruence).
  rewrite element_offset_ok by (try lia; eapply elements_layout; eauto). reflexivity.
Qed.

Lemma pos_bound : forall v i t mem, in_bounds v mem -> nth_error (v_types v) i = Some t ->
  pos v i + wire_size t <= length mem.
Proof.
  intros v i t mem Hb Hi. unfold in_bounds, pos, total in *.
  pose proof (offset_of_S _ _ _ Hi). pose proof (offset_of_le (v_types v) (S i)). lia.
Qed.

Lemma pos_disjoint : forall v i j t u, nth_error (v_types v) i = Some t -> nth_error (v_types v) j = Some u ->
  i <> j -> pos v i + wire_size t <= pos v j \/ pos v j + wire_size u <= pos v i.
Proof.
  intros v i j t u Hi Hj Hne. unfold pos.
  pose proof (offset_of_S _ _ _ Hi). pose proof (offset_of_S _ _ _ Hj).
  destruct (Nat.lt_ge_cases i j).
  - left. pose proof (offset_of_mono (v_types v) (S i) j ltac:(lia)). lia.
  - right. pose proof (offset_of_mono (v_types v) (S j) i ltac:(lia)). lia.
Qed.

Lemma set_ok : forall p v i t x mem, wf_platform p -> elements_ok p v -> in_bounds v mem ->
  nth_error (v_types v) i = Some t -> encodable p (v_m v) t x ->
  set p v i x mem = Ok (splice mem (pos v i) (enc (v_e v) (v_m v) t x)).
Proof.
  intros p v i t x mem Hp Hv Hb Hi Hx. rewrite (set_eq p v i t) by auto.
  pose proof (pos_bound v i t mem Hb Hi) as Hpos.
  destruct (elements_nth p v i t Hv Hi) as [Ht Hs].
  assert (Hel : length (enc (v_e v) (v_m v) t x) = wire_size t) by (apply enc_length; apply Hx).
  destruct (v_kind v) eqn:K; cbn [write_at].
  - apply write_as_ok; auto.
  - rewrite Hs by auto. rewrite write_as_ok by (auto; rewrite indet_bytes_length; auto). cbn [bind].
    rewrite splice_all by (rewrite indet_bytes_length; auto). apply store_range_ok. lia.
Qed.

Lemma get_ok : forall p v i t mem, wf_platform p -> elements_ok p v -> in_bounds v mem ->
  Forall is_byte mem -> nth_error (v_types v) i = Some t ->
  decodable p (v_e v) (v_m v) t (slice mem (pos v i) (wire_size t)) ->
  get p v i mem = Ok (dec (v_e v) (v_m v) t (slice mem (pos v i) (wire_size t))).
Proof.
  intros p v i t mem Hp Hv Hb Hm Hi Hd. rewrite (get_eq p v i t) by auto.
  pose proof (pos_bound v i t mem Hb Hi) as Hpos.
  destruct (elements_nth p v i t Hv Hi) as [Ht Hs].
  destruct (v_kind v) eqn:K; cbn [read_at].
  - apply read_as_ok; auto.
  - rewrite Hs by auto. rewrite load_range_ok by auto. cbn [bind].
    rewrite read_as_shift; [apply read_as_ok|apply Ht|]; auto.
Qed.

Lemma get_local : forall p v i t mem mem', elements_ok p v -> nth_error (v_types v) i = Some t ->
  agree mem mem' (pos v i) (wire_size t) -> get p v i mem = get p v i mem'.
Proof.
  intros p v i t mem mem' Hv Hi Ha. rewrite !(get_eq p v i t) by auto.
  destruct (elements_nth p v i t Hv Hi) as [Ht Hs].
  destruct (v_kind v) eqn:K; cbn [read_at].
  - apply read_as_local; auto. apply Ht.
  - rewrite Hs by auto. rewrite (load_range_local (wire_size t) mem mem') by auto. reflexivity.
Qed.

(** The element holds the value [x]. *)
Lemma get_holds : forall p v i t x mem, wf_platform p -> elements_ok p v -> in_bounds v mem ->
  Forall is_byte mem -> nth_error (v_types v) i = Some t -> encodable p (v_m v) t x ->
  slice mem (pos v i) (wire_size t) = enc (v_e v) (v_m v) t x -> get p v i mem = Ok x.
Proof.
  intros p v i t x mem Hp Hv Hb Hm Hi Hx Hs.
  destruct (elements_nth p v i t Hv Hi) as [Ht _].
  rewrite (get_ok p v i t) by (auto; rewrite Hs; apply encodable_decodable; auto; apply Ht).
  rewrite Hs. f_equal. apply (dec_enc p); auto. apply Ht.
Qed.

(** ** The whole content *)

Lemma total_app : forall a b, total (a ++ b) = total a + total b.
Proof. intros. unfold total. rewrite map_app, list_sum_app. reflexivity. Qed.

Lemma skipn_nth_cons : forall (A : Type) (l : list A) i a, nth_error l i = Some a ->
  skipn i l = a :: skipn (S i) l.
Proof.
  induction l as [|b l IH]; intros [|i] a H; try discriminate; cbn in *; [congruence|]. apply IH. auto.
Qed.

Lemma offset_total : forall ts i, offset_of ts i + total (skipn i ts) = total ts.
Proof.
  intros. unfold offset_of, total. rewrite <- list_sum_app, <- map_app, firstn_skipn. reflexivity.
Qed.

Lemma encodable_has : forall p m ts vs, Forall2 (encodable p m) ts vs -> Forall2 has_type ts vs.
Proof. induction 1; constructor; auto. apply H. Qed.

Lemma lay_ok : forall p v, wf_platform p -> elements_ok p v ->
  forall k i args mem, in_bounds v mem -> i + k = length (v_types v) ->
  Forall2 (encodable p (v_m v)) (skipn i (v_types v)) args ->
  lay p v (seq i k) args mem
  = Ok (splice mem (pos v i) (enc_list (v_e v) (v_m v) (skipn i (v_types v)) args)).
Proof.
  intros p v Hp Hv. induction k as [|k IH]; intros i args mem Hb Hik Ha; cbn [seq lay].
  - rewrite skipn_all2 in * by lia. inversion Ha; subst. cbn [enc_list]. rewrite splice_nil. reflexivity.
  - destruct (nth_error (v_types v) i) as [t|] eqn:Hi; [|apply nth_error_None in Hi; lia].
    rewrite (skipn_nth_cons _ _ _ _ Hi) in *. inversion Ha as [|? a ? args' Hx Hxs]; subst.
    rewrite (set_ok p v i t) by auto. cbn [bind].
    assert (Hel : length (enc (v_e v) (v_m v) t a) = wire_size t) by (apply enc_length; apply Hx).
    pose proof (pos_bound v i t mem Hb Hi) as Hpos.
    rewrite IH; auto; try lia.
    2:{ unfold in_bounds. rewrite splice_length by lia. exact Hb. }
    f_equal. cbn [enc_list].
    assert (HS : pos v (S i) = pos v i + length (enc (v_e v) (v_m v) t a)).
    { unfold pos. rewrite (offset_of_S _ _ _ Hi). lia. }
    rewrite HS. apply splice_splice_app.
    rewrite enc_list_length.
    2:{ eapply encodable_has; eauto. }
    fold (total (skipn (S i) (v_types v))). unfold in_bounds in Hb.
    pose proof (offset_total (v_types v) (S i)). unfold pos in *. lia.
Qed.

Lemma lay_all : forall p v args mem, wf_platform p -> elements_ok p v -> in_bounds v mem ->
  Forall2 (encodable p (v_m v)) (v_types v) args ->
  lay p v (make_index_sequence14 (length (v_types v))) args mem
  = Ok (splice mem (v_begin v) (enc_list (v_e v) (v_m v) (v_types v) args)).
Proof.
  intros. unfold make_index_sequence14. rewrite lay_ok; auto.
  unfold pos. rewrite offset_of_0, Nat.add_0_r. reflexivity.
Qed.

Lemma get_each_spec : forall p v mem is xs,
  get_each p v is mem = Ok xs <-> Forall2 (fun i x => get p v i mem = Ok x) is xs.
Proof.
  intros p v mem. induction is as [|i is IH]; intros xs; cbn [get_each].
  - split; intros H; [injection H as <-; constructor|inversion H; reflexivity].
  - split; intros H.
    + apply bind_ok in H. destruct H as (x & Hx & H). apply bind_ok in H. destruct H as (xs' & Hxs & H).
      injection H as <-. constructor; auto. apply IH. auto.
    + inversion H as [|? x ? xs' Hx Hxs]; subst. rewrite Hx. cbn [bind].
      apply IH in Hxs. rewrite Hxs. reflexivity.
Qed.

Lemma Forall2_nth_intro : forall (A B : Type) (R : A -> B -> Prop) l l',
  length l = length l' -> (forall i a b, nth_error l i = Some a -> nth_error l' i = Some b -> R a b) ->
  Forall2 R l l'.
Proof.
  induction l as [|a l IH]; intros [|b l'] Hlen H; try discriminate; constructor.
  - apply (H 0); reflexivity.
  - apply IH; auto. intros i. apply (H (S i)).
Qed.

Lemma Forall2_nth2 : forall (A B : Type) (R : A -> B -> Prop) l l' i a b,
  Forall2 R l l' -> nth_error l i = Some a -> nth_error l' i = Some b -> R a b.
Proof.
  intros A B R l l' i a b H. revert i. induction H; intros [|i] Ha Hb; try discriminate; cbn in *.
  - congruence.
  - eauto.
Qed.

Lemma seq_nth_error : forall n k i j, nth_error (seq k n) i = Some j -> j = k + i /\ i < n.
Proof.
  induction n as [|n IH]; intros k [|i] j H; cbn in *; try discriminate.
  - injection H as <-. lia.
  - apply IH in H. lia.
Qed.

Lemma get_each_all : forall p v mem xs, length xs = length (v_types v) ->
  (forall i x, nth_error xs i = Some x -> get p v i mem = Ok x) ->
  get_each p v (make_index_sequence14 (length (v_types v))) mem = Ok xs.
Proof.
  intros p v mem xs Hl H. apply get_each_spec. unfold make_index_sequence14.
  apply Forall2_nth_intro; [rewrite seq_length; auto|].
  intros i j x Hj Hx. apply seq_nth_error in Hj. destruct Hj as [-> _]. apply H. auto.
Qed.

(** Bytes of element [i] inside of the content. *)
Lemma enc_list_slice : forall e m ts vs i t x, Forall2 has_type ts vs ->
  nth_error ts i = Some t -> nth_error vs i = Some x ->
  slice (enc_list e m ts vs) (offset_of ts i) (wire_size t) = enc e m t x.
Proof.
  intros e m ts vs i t x H. revert i. induction H as [|t0 x0 ts vs H0 H IH]; intros [|i] Ht Hx; try discriminate.
  - cbn in Ht, Hx. injection Ht as ->. injection Hx as ->. cbn [enc_list]. rewrite offset_of_0.
    pose proof (enc_length e m t x H0) as Hel.
    rewrite slice_app_l by lia. apply slice_0_all. auto.
  - cbn [nth_error] in *. cbn [enc_list].
    change (offset_of (t0 :: ts) (S i)) with (wire_size t0 + offset_of ts i).
    rewrite <- (IH i Ht Hx). pose proof (enc_length e m t0 x0 H0) as Hel.
    unfold slice. rewrite <- Hel. rewrite skipn_app.
    rewrite skipn_all2 by lia. cbn [app]. f_equal. f_equal. lia.
Qed.

Lemma get_laid : forall p v args i x mem, wf_platform p -> elements_ok p v -> in_bounds v mem ->
  Forall is_byte mem -> Forall2 (encodable p (v_m v)) (v_types v) args ->
  slice mem (v_begin v) (total (v_types v)) = enc_list (v_e v) (v_m v) (v_types v) args ->
  nth_error args i = Some x -> get p v i mem = Ok x.
Proof.
  intros p v args i x mem Hp Hv Hb Hm Ha Hs Hx.
  destruct (nth_error (v_types v) i) as [t|] eqn:Hi.
  2:{ apply nth_error_None in Hi. pose proof (Forall2_length Ha).
      assert (i < length args) by (apply nth_error_Some; congruence). lia. }
  apply (get_holds p v i t); auto.
  - eapply Forall2_nth2; eauto.
  - pose proof (enc_list_slice (v_e v) (v_m v) _ _ i t x (encodable_has _ _ _ _ Ha) Hi Hx) as E.
    rewrite <- E, <- Hs. pose proof (offset_of_S _ _ _ Hi). pose proof (offset_of_le (v_types v) (S i)).
    rewrite slice_slice; [reflexivity|]. unfold total. lia.
Qed.

(** ** Filling *)

(** A source which yields the bytes [bs] one after the other. *)
Fixpoint yields {X : Type} (src : X -> res (X * Z)) (x : X) (bs : list Z) (x' : X) : Prop :=
  match bs with
  | [] => x' = x
  | b :: bs' => exists x1, src x = Ok (x1, b) /\ yields src x1 bs' x'
  end.

Lemma fill_ok : forall (X : Type) (src : X -> res (X * Z)) bs x x' mem off,
  yields src x bs x' -> off + length bs <= length mem ->
  fill src (length bs) off x mem = Ok (x', splice mem off bs).
Proof.
  intros X src. induction bs as [|b bs IH]; intros x x' mem off Hy Hl; cbn [fill length yields] in *.
  - subst. rewrite splice_nil. reflexivity.
  - destruct Hy as (x1 & Hs & Hy). rewrite Hs. cbn [bind].
    rewrite store_ok by lia. cbn [bind]. rewrite (IH x1 x'); auto.
    + f_equal. f_equal. replace (S off) with (off + length [b]) by (cbn [length]; lia).
      rewrite splice_splice_app by (cbn [length]; lia). reflexivity.
    + rewrite splice_length by (cbn [length]; lia). lia.
Qed.

(** Type identity is equality. *)
Lemma ty_eqb_refl : forall t, ty_eqb t t = true.
Proof.
  induction t using ty_ind_nested; cbn [ty_eqb]; auto using Nat.eqb_refl.
  - rewrite IHt, Nat.eqb_refl. reflexivity.
  - rewrite Nat.eqb_refl. cbn [andb]. induction H; auto. rewrite H. auto.
Qed.

Lemma ty_eqb_eq : forall a b, ty_eqb a b = true -> a = b.
Proof.
  induction a using ty_ind_nested; intros [| | | |] E; cbn [ty_eqb] in E; try discriminate; auto.
  - apply Nat.eqb_eq in E. congruence.
  - apply Nat.eqb_eq in E. congruence.
  - apply andb_prop in E. destruct E as [E1 E2]. apply Nat.eqb_eq in E2. f_equal; auto.
  - apply andb_prop in E. destruct E as [E1 E2]. apply Nat.eqb_eq in E1. subst. f_equal.
    revert fs0 E2. induction H as [|f fs H H' IH]; intros [|g gs] E; try discriminate; auto.
    apply andb_prop in E. destruct E as [E1 E2]. f_equal; auto.
Qed.

Lemma tys_eqb_eq : forall a b, tys_eqb a b = true <-> a = b.
Proof.
  induction a as [|t a IH]; intros [|u b]; cbn [tys_eqb]; split; intros H; try discriminate; auto.
  - apply andb_prop in H. destruct H as [H1 H2]. apply ty_eqb_eq in H1. apply IH in H2. congruence.
  - injection H as -> ->. rewrite ty_eqb_refl. apply IH. reflexivity.
Qed.

(** Both objects are tuples, or both are views, of the same C++ type. *)
Definition same_type (a b : object) : Prop :=
  exists k e m ts x y,
    (a = Tuple (mk_view k e m ts x) /\ b = Tuple (mk_view k e m ts y))
    \/ (a = View (mk_view k e m ts x) /\ b = View (mk_view k e m ts y)).

Lemma same_type_iff : forall a b, same_object_type a b = true <-> same_type a b.
Proof.
  intros a b. split.
  - intros H. assert (G : forall v w,
      iterator_kind_eqb (v_kind v) (v_kind w) && endianess_eqb (v_e v) (v_e w)
      && signed_mode_eqb (v_m v) (v_m w) && tys_eqb (v_types v) (v_types w) = true ->
      v_kind v = v_kind w /\ v_e v = v_e w /\ v_m v = v_m w /\ v_types v = v_types w).
    { intros [k e m ts x] [k' e' m' ts' y] E. cbn [v_kind v_e v_m v_types] in *. rewrite !andb_true_iff in E.
      destruct E as [[[E1 E2] E3] E4]. apply tys_eqb_eq in E4.
      destruct k, k'; try discriminate E1; destruct e, e'; try discriminate E2; destruct m, m'; try discriminate E3; auto. }
    destruct a as [v|v], b as [w|w]; try discriminate H; apply G in H; destruct v as [k e m ts x], w as [k' e' m' ts' y];
      cbn [v_kind v_e v_m v_types] in H; destruct H as (-> & -> & -> & ->);
      exists k', e', m', ts', x, y; [left|right]; auto.
  - intros (k & e & m & ts & x & y & [[-> ->]|[-> ->]]); cbn [same_object_type v_kind v_e v_m v_types];
      rewrite !andb_true_iff; (repeat split; [destruct k|destruct e|destruct m|apply tys_eqb_eq]; reflexivity).
Qed.

Lemma same_type_false : forall a b, ~ same_type a b -> same_object_type a b = false.
Proof. intros a b H. destruct (same_object_type a b) eqn:E; auto. apply same_type_iff in E. contradiction. Qed.
