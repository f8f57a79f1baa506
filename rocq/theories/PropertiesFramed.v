(** Property C65: the packets with a header and a checksum of the documentation. *)

From Coq Require Import List ZArith Lia Bool Arith.
From Verif Require Import Base CInt Spec IntModel Conditions MemFacts TypeLevel Serial TupleModel
  TypeLevelProofs IntProofs SignedProofs SerialProofs CodecFacts Bounds TupleProofs Hosts Closed PropertiesTuple
  PropertiesTypes SpecRpc Rpc RpcProofs Framed.
Import ListNotations.
Open Scope nat_scope.

(** ** Proofs *)

Lemma bytes_ok : forall p e m n, 1 <= n -> ty_ok p e m (TArr (TUns 1) n).
Proof. intros. unfold ty_ok. cbn. repeat split; auto; lia. Qed.

Lemma some_length : forall (A : Type) (l : list A), l <> [] -> 1 <= length l.
Proof. intros A [|a l] H; [congruence|cbn; lia]. Qed.

Lemma one_byte : forall e z, is_byte z -> wire_bytes e 1 z = [z].
Proof.
  intros e z H. assert (E : digit z 0 = z).
  { unfold digit, is_byte in *. change (2 ^ (8 * Z.of_nat 0))%Z with 1%Z. rewrite Z.div_1_r. apply Z.mod_small. lia. }
  destruct e; cbn [wire_bytes seq rev map app]; rewrite E; reflexivity.
Qed.

Lemma enc_bytes_array : forall e m n bs, Forall is_byte bs ->
  enc e m (TArr (TUns 1) n) (VList (map VInt bs)) = bs.
Proof.
  intros e m n bs H. cbn [enc]. induction H as [|b bs Hb H IH]; cbn [map flat_map]; auto.
  cbn [enc]. rewrite IH, one_byte by auto. reflexivity.
Qed.

Lemma bytes_encodable : forall p m bs, Forall is_byte bs ->
  encodable p m (TArr (TUns 1) (length bs)) (VList (map VInt bs)).
Proof.
  intros p m bs H. split; cbn [has_type all_signed].
  - split; [apply map_length|]. apply Forall_map. eapply Forall_impl; [|exact H]. cbn. intros z Hz.
    change (space 1) with 256%Z. exact Hz.
  - apply Forall_map. eapply Forall_impl; [|exact H]. cbn. auto.
Qed.

Lemma bytes_equal_spec : forall a b, bytes_equal (map VInt a) b = true <-> a = b.
Proof.
  induction a as [|x a IH]; intros [|y b]; cbn; split; intros H; try discriminate; auto.
  - apply andb_prop in H as [H1 H2]. apply Z.eqb_eq in H1. apply IH in H2. congruence.
  - injection H as -> ->. rewrite Z.eqb_refl. cbn. apply IH. reflexivity.
Qed.

Lemma firstn_whole : forall (A : Type) n (l l' : list A), length l = n -> firstn n (l ++ l') = l.
Proof. intros A n l l' <-. rewrite firstn_app, firstn_all, Nat.sub_diag. apply app_nil_r. Qed.
Lemma skipn_whole : forall (A : Type) n (l l' : list A), length l = n -> skipn n (l ++ l') = l'.
Proof. intros A n l l' <-. rewrite skipn_app, skipn_all, Nat.sub_diag. reflexivity. Qed.

Lemma slice_middle : forall a b c n n', length a = n -> length b = n' -> slice (a ++ b ++ c) n n' = b.
Proof. intros a b c n n' Ha Hb. unfold slice. rewrite skipn_whole by auto. apply firstn_whole. auto. Qed.

Lemma enc_list_snoc : forall e m ts vs t v, length ts = length vs ->
  enc_list e m (ts ++ [t]) (vs ++ [v]) = enc_list e m ts vs ++ enc e m t v.
Proof.
  induction ts as [|u ts IH]; intros [|x vs] t v H; try discriminate; cbn [enc_list app].
  - apply app_nil_r.
  - rewrite IH by (injection H; auto). apply app_assoc.
Qed.

Lemma dec_list_snoc : forall e m ts t d c, length d = wire_sizes ts -> length c = wire_size t ->
  dec_list e m (ts ++ [t]) (d ++ c) = dec_list e m ts d ++ [dec e m t c].
Proof.
  induction ts as [|u ts IH]; intros t d c Hd Hc; unfold wire_sizes, list_sum in *; cbn [dec_list app map fold_right] in *.
  - destruct d; [|discriminate]. cbn [app]. rewrite <- Hc, firstn_all. reflexivity.
  - rewrite <- (firstn_skipn (wire_size u) d) at 1 2. rewrite <- !app_assoc.
    assert (L : length (firstn (wire_size u) d) = wire_size u) by (rewrite firstn_length; lia).
    rewrite firstn_whole, skipn_whole by auto. f_equal. apply IH; auto. rewrite skipn_length. lia.
Qed.

Lemma decodable_list_snoc : forall p e m ts t d c, length d = wire_sizes ts -> length c = wire_size t ->
  decodable_list p e m ts d -> decodable p e m t c -> decodable_list p e m (ts ++ [t]) (d ++ c).
Proof.
  induction ts as [|u ts IH]; intros t d c Hd Hc H H';
    unfold wire_sizes, list_sum in *; cbn [decodable_list app map fold_right] in *.
  - destruct d; [|discriminate]. cbn [app]. rewrite <- Hc, firstn_all. auto.
  - rewrite <- (firstn_skipn (wire_size u) d). rewrite <- !app_assoc.
    assert (L : length (firstn (wire_size u) d) = wire_size u) by (rewrite firstn_length; lia).
    rewrite firstn_whole, skipn_whole by auto. split; [apply H|]. apply IH; auto; [|apply H]. rewrite skipn_length. lia.
Qed.

Lemma framed_size : forall header w ts, wire_sizes (framed_types header w ts) = length header + (wire_sizes ts + w).
Proof.
  intros header w ts. unfold wire_sizes, framed_types. cbn [map]. unfold list_sum. cbn [fold_right]. fold (list_sum).
  rewrite map_app, fold_right_app. cbn [map fold_right wire_size]. rewrite Nat.mul_1_r. f_equal.
  rewrite Nat.add_0_r. induction (map wire_size ts); cbn; lia.
Qed.

Section Framed.
  Variables (e : endianess) (m : signed_mode) (crc : list Z -> Z) (header : list Z) (w : nat).
  Hypothesis Hne : header <> [].
  Hypothesis Hh : Forall is_byte header.
  Hypothesis Hw : 1 <= w <= 8.

  Lemma framed_ok : forall p ts, Forall (ty_ok p e m) ts -> Forall (ty_ok p e m) (framed_types header w ts).
  Proof.
    intros p ts H. unfold framed_types. constructor; [apply bytes_ok, some_length, Hne|]. apply Forall_app. split; auto.
    constructor; auto. unfold ty_ok. cbn. auto.
  Qed.

  Lemma framed_encodable : forall p ts args z, Forall2 (encodable p m) ts args -> (0 <= z < space w)%Z ->
    Forall2 (encodable p m) (framed_types header w ts) (VList (map VInt header) :: args ++ [VInt z]).
  Proof.
    intros p ts args z H Hz. unfold framed_types. constructor; [apply bytes_encodable; auto|].
    apply Forall2_app; auto. constructor; auto. split; cbn; auto.
  Qed.

  Lemma framed_bytes : forall ts args z, length ts = length args ->
    enc_list e m (framed_types header w ts) (VList (map VInt header) :: args ++ [VInt z])
    = header ++ enc_list e m ts args ++ wire_bytes e w z.
  Proof.
    intros ts args z H. unfold framed_types. cbn [enc_list].
    change (enc e m (TArr (TUns 1) (length header)) (VList (map VInt header)) ++
      enc_list e m (ts ++ [TUns w]) (args ++ [VInt z]) = header ++ enc_list e m ts args ++ wire_bytes e w z).
    rewrite enc_bytes_array, enc_list_snoc by auto. reflexivity.
  Qed.

  Lemma crc_of_ok : forall p ts d c, Forall (ty_ok p e m) ts -> length d = wire_sizes ts -> length c = w ->
    crc_of crc header w (tuple_at e m (framed_types header w ts) 0) (header ++ d ++ c) = Ok (crc d).
  Proof.
    intros p ts d c Hok Hd Hc. unfold crc_of. cbn [tuple_at v_begin v_types].
    rewrite (tuple_size_wire (framed_types header w ts)) by (eapply tys_layout; apply (framed_ok p); auto).
    rewrite framed_size. replace (length header + (wire_sizes ts + w) - length header - w) with (wire_sizes ts) by lia.
    rewrite load_range_ok by (rewrite !app_length; lia). cbn [bind]. do 2 f_equal. apply slice_middle; auto.
  Qed.
End Framed.

(** ** Theorems *)

(** The bytes sent. *)
Theorem C65_sent : forall p e m crc header w ts args storage,
  wf_platform p -> Forall (ty_ok p e m) ts -> Forall2 (encodable p m) ts args ->
  header <> [] -> Forall is_byte header -> 1 <= w <= 8 ->
  let d := enc_list e m ts args in
  (0 <= crc d < space w)%Z ->
  length storage = length header + list_sum (map wire_size ts) + w ->
  send_framed p e m crc header w ts args storage = Ok (header ++ d ++ wire_bytes e w (crc d)).
Proof.
  intros p e m crc header w ts args storage Hp Hok Ha Hn0 Hh Hw d Hc Hl.
  pose proof (framed_ok e m header w Hn0 Hw p ts Hok) as Hf.
  pose proof (framed_size header w ts) as Hs.
  assert (Hd : length d = wire_sizes ts) by (apply enc_list_length; eapply encodable_has; eauto).
  assert (Hz : (0 <= 0 < space w)%Z) by (pose proof (space_pos w); lia).
  assert (Hla : length ts = length args) by (apply (Forall2_length Ha)).
  assert (Hsz : tuple_size (framed_types header w ts) = wire_sizes (framed_types header w ts)).
  { apply tuple_size_wire. eapply tys_layout; eauto. }
  unfold send_framed.
  rewrite (construct_ok p e m Hp _ _ storage Hf (framed_encodable m header w Hh p ts args 0%Z Ha Hz)).
  2:{ rewrite Hs, Hl. unfold wire_sizes. lia. }
  cbn [bind]. rewrite framed_bytes by auto. fold d.
  rewrite (crc_of_ok e m crc header w Hn0 Hw p ts d) by (auto using wire_bytes_length). cbn [bind].
  rewrite (set_ok p (tuple_at e m (framed_types header w ts) 0) (S (length ts)) (TUns w)); auto.
  - cbn [bind tuple_at v_e v_m enc]. rewrite content_eq. cbn [tuple_at v_begin v_types]. rewrite Hsz.
    assert (Hpos : pos (tuple_at e m (framed_types header w ts) 0) (S (length ts)) = length (header ++ d)).
    { unfold pos, offset_of. cbn [tuple_at v_begin v_types framed_types firstn map]. unfold list_sum. cbn [fold_right].
      rewrite firstn_whole by auto. cbn [wire_size]. rewrite app_length, Hd. unfold wire_sizes, list_sum. lia. }
    rewrite Hpos.
    assert (Hsp : splice (header ++ d ++ wire_bytes e w 0) (length (header ++ d)) (wire_bytes e w (crc d))
      = header ++ d ++ wire_bytes e w (crc d)).
    { rewrite app_assoc. unfold splice. rewrite firstn_whole by auto. rewrite skipn_all2.
      - rewrite app_nil_r, app_assoc. reflexivity.
      - rewrite !app_length, !wire_bytes_length. lia. }
    rewrite Hsp, load_range_ok.
    + f_equal. apply slice_0_all. rewrite Hs, !app_length, wire_bytes_length. lia.
    + rewrite Hs, !app_length, wire_bytes_length. lia.
  - apply tuple_elements_ok. auto.
  - unfold in_bounds. cbn [tuple_at v_begin v_types]. change (total (framed_types header w ts)) with (wire_sizes (framed_types header w ts)).
    rewrite Hs, !app_length, wire_bytes_length. lia.
  - cbn [tuple_at v_types framed_types nth_error]. rewrite nth_error_app2, Nat.sub_diag by auto. reflexivity.
  - split; cbn; auto.
Qed.

(** What is accepted, among all that may be received: the packets, and the
    values are those of their data. *)
Theorem C65_received : forall (X : Type) (src : X -> res (X * Z)) p e m crc header w ts bs x x' storage,
  wf_platform p -> Forall (ty_ok p e m) ts -> header <> [] -> Forall is_byte header -> 1 <= w <= 8 ->
  (forall d, (0 <= crc d < space w)%Z) ->
  Forall is_byte bs -> length bs = length header + list_sum (map wire_size ts) + w -> yields src x bs x' ->
  decodable_list p e m ts (slice bs (length header) (list_sum (map wire_size ts))) ->
  length storage = length header + list_sum (map wire_size ts) + w ->
  exists r, receive_framed p e m crc header w src ts x storage = Ok (x', r)
  /\ forall vals, r = Some vals <->
       exists d, length d = list_sum (map wire_size ts) /\ bs = header ++ d ++ wire_bytes e w (crc d)
         /\ vals = dec_list e m ts d.
Proof.
  intros X src p e m crc header w ts bs x x' storage Hp Hok Hn0 Hh Hw Hc Hb Hl Hy Hd Hst.
  pose proof (framed_ok e m header w Hn0 Hw p ts Hok) as Hf.
  pose proof (framed_size header w ts) as Hs.
  assert (Hsz : tuple_size (framed_types header w ts) = wire_sizes (framed_types header w ts)).
  { apply tuple_size_wire. eapply tys_layout; eauto. }
  fold (wire_sizes ts) in *.
  set (h := firstn (length header) bs). set (d := slice bs (length header) (wire_sizes ts)) in *.
  set (c := skipn (length header + wire_sizes ts) bs).
  assert (Ebs : bs = h ++ d ++ c).
  { unfold h, d, c, slice. rewrite <- (firstn_skipn (length header) bs) at 1. f_equal.
    rewrite <- (firstn_skipn (wire_sizes ts) (skipn (length header) bs)) at 1. f_equal. rewrite skipn_skipn. f_equal. }
  assert (Lh : length h = length header) by (unfold h; rewrite firstn_length; lia).
  assert (Ld : length d = wire_sizes ts) by (unfold d; apply slice_length; lia).
  assert (Lc : length c = w) by (unfold c; rewrite skipn_length; lia).
  assert (Hbh : Forall is_byte h) by (apply Forall_firstn'; auto).
  assert (Hbc : Forall is_byte c) by (apply Forall_skipn'; auto).
  assert (Hn1 : h <> []).
  { intros E. rewrite E in Lh. apply Hn0. destruct header; [reflexivity|discriminate]. }
  assert (Ef : framed_types header w ts = framed_types h w ts) by (unfold framed_types; rewrite Lh; reflexivity).
  assert (Evals : dec_list e m (framed_types header w ts) bs
    = VList (map VInt h) :: dec_list e m ts d ++ [VInt (wire_value e c)]).
  { rewrite Ef, Ebs. unfold framed_types. cbn [dec_list].
    assert (L1 : length h = wire_size (TArr (TUns 1) (length h))) by (cbn [wire_size]; lia).
    rewrite (firstn_whole _ _ h) by auto. rewrite (skipn_whole _ _ h) by auto. f_equal.
    - transitivity (dec e m (TArr (TUns 1) (length h)) (enc e m (TArr (TUns 1) (length h)) (VList (map VInt h)))).
      + rewrite enc_bytes_array by auto. reflexivity.
      + apply (dec_enc p); [apply (bytes_ok p e m), some_length, Hn1|apply bytes_encodable; auto].
    - rewrite dec_list_snoc by auto. reflexivity. }
  assert (Hdec : decodable_list p e m (framed_types header w ts) bs).
  { rewrite Ef, Ebs. unfold framed_types. cbn [decodable_list].
    assert (L1 : length h = wire_size (TArr (TUns 1) (length h))) by (cbn [wire_size]; lia).
    rewrite (firstn_whole _ _ h) by auto. rewrite (skipn_whole _ _ h) by auto. split.
    - cbn [decodable]. apply Forall_forall. intros ? _. exact I.
    - apply decodable_list_snoc; auto. exact I. }
  unfold receive_framed, default_construct.
  rewrite (construct_ok p e m Hp _ _ storage Hf).
  2:{ clear - Hf. induction Hf; cbn [map]; constructor; auto. apply default_ok. apply H. }
  2:{ rewrite Hs, Hst. lia. }
  cbn [bind]. rewrite fill_tuple_eq. cbn [tuple_at v_begin v_types]. rewrite Hsz.
  assert (Hlen : length bs = wire_sizes (framed_types header w ts)) by lia.
  rewrite <- Hlen.
  assert (Hdl : length (enc_list e m (framed_types header w ts) (map default_val (framed_types header w ts))) = length bs).
  { rewrite Hlen. apply enc_list_length. clear - Hf. induction Hf; cbn [map]; constructor; auto.
    apply (default_ok p m). apply H. }
  rewrite (fill_ok X src bs x x') by (auto; lia). cbn [bind]. rewrite splice_all by congruence.
  fold (tuple_at e m (framed_types header w ts) 0).
  change (length (framed_types header w ts)) with (length (v_types (tuple_at e m (framed_types header w ts) 0))).
  rewrite (get_each_all p (tuple_at e m (framed_types header w ts) 0) bs (dec_list e m (framed_types header w ts) bs)).
  2:{ apply dec_list_length. }
  2:{ intros i v Hv. destruct (nth_error (framed_types header w ts) i) as [t|] eqn:Ht.
      - rewrite (dec_list_nth e m _ _ _ _ Ht) in Hv. injection Hv as <-. apply get_decodes; auto.
      - apply nth_error_None in Ht.
        assert (i < length (dec_list e m (framed_types header w ts) bs)) by (apply nth_error_Some; congruence).
        rewrite dec_list_length in H. lia. }
  cbn [bind]. rewrite Evals. rewrite Ef, Ebs.
  assert (Ecrc : crc_of crc header w (tuple_at e m (framed_types h w ts) 0) (h ++ d ++ c) = Ok (crc d)).
  { pose proof (crc_of_ok e m crc h w Hn1 Hw p ts d c Hok Ld Lc) as E. unfold crc_of in *. rewrite <- Lh. exact E. }
  rewrite Ecrc. cbn [bind]. rewrite last_last, removelast_last.
  eexists. split; [reflexivity|]. intros vals.
  assert (Ec : (wire_value e c =? crc d)%Z = true <-> c = wire_bytes e w (crc d)).
  { rewrite Z.eqb_eq. split; intros E.
    - rewrite <- E, <- Lc. symmetry. apply wire_bytes_value. auto.
    - rewrite E, wire_value_bytes. apply Z.mod_small. apply Hc. }
  split.
  - intros H. destruct (bytes_equal (map VInt h) header && (wire_value e c =? crc d)%Z) eqn:B; [|discriminate].
    apply andb_prop in B as [B1 B2]. apply bytes_equal_spec in B1. apply Ec in B2. injection H as <-.
    exists d. rewrite <- B2, B1. auto.
  - intros (d' & Ld' & E & ->).
    assert (Eh : h = header).
    { pose proof (f_equal (firstn (length header)) E) as E1. rewrite (firstn_whole _ _ h), firstn_whole in E1 by auto. exact E1. }
    pose proof (f_equal (skipn (length header)) E) as E2. rewrite (skipn_whole _ _ h), skipn_whole in E2 by auto.
    assert (Ed : d = d').
    { pose proof (f_equal (firstn (wire_sizes ts)) E2) as E3. rewrite !firstn_whole in E3 by auto. exact E3. }
    pose proof (f_equal (skipn (wire_sizes ts)) E2) as E3. rewrite !skipn_whole in E3 by auto. subst d'.
    apply Ec in E3. rewrite E3. rewrite Eh. rewrite (proj2 (bytes_equal_spec header header) eq_refl). reflexivity.
Qed.

(** What is sent is accepted. *)
Theorem C65_exchange : forall (X : Type) (src : X -> res (X * Z)) p q e m crc header w ts args bs x x' st_p st_q,
  wf_platform p -> wf_platform q -> Forall (ty_ok p e m) ts -> Forall (ty_ok q e m) ts ->
  Forall2 (encodable p m) ts args -> Forall2 (encodable q m) ts args -> header <> [] -> Forall is_byte header -> 1 <= w <= 8 ->
  (forall d, (0 <= crc d < space w)%Z) ->
  length st_p = length header + list_sum (map wire_size ts) + w ->
  length st_q = length header + list_sum (map wire_size ts) + w ->
  send_framed p e m crc header w ts args st_p = Ok bs -> yields src x bs x' ->
  receive_framed q e m crc header w src ts x st_q = Ok (x', Some args).
Proof.
  intros X src p q e m crc header w ts args bs x x' st_p st_q Hp Hq Hokp Hokq Hap Haq Hn0 Hh Hw Hc Lp Lq Hs Hy.
  rewrite (C65_sent p e m crc header w ts args st_p) in Hs by auto.
  assert (Ebs : bs = header ++ enc_list e m ts args ++ wire_bytes e w (crc (enc_list e m ts args))) by congruence.
  assert (Hd : length (enc_list e m ts args) = list_sum (map wire_size ts)) by (apply enc_list_length; eapply encodable_has; eauto).
  destruct (C65_received X src q e m crc header w ts bs x x' st_q) as (r & R & H); auto.
  - subst bs. rewrite !Forall_app. repeat split; auto; [apply enc_list_bytes|].
    apply (enc_bytes e m (TUns w) (VInt _)).
  - subst bs. rewrite !app_length, wire_bytes_length. lia.
  - subst bs. rewrite slice_middle by auto. apply encodable_decodable_list; auto. eapply tys_wf; eauto.
  - rewrite R. do 2 f_equal. apply H. exists (enc_list e m ts args). split; auto. split; auto.
    symmetry. apply (dec_list_enc_list q); auto. eapply tys_wf; eauto.
Qed.

(** Transmission errors: a packet which is accepted, though it is not the one
    which was sent, has other data, whose checksum is the one it carries. *)
Theorem C65_errors : forall (X : Type) (src : X -> res (X * Z)) p e m crc header w ts d d' h' c' x x' storage,
  wf_platform p -> Forall (ty_ok p e m) ts -> header <> [] -> Forall is_byte header -> 1 <= w <= 8 ->
  (forall d, (0 <= crc d < space w)%Z) ->
  length d = list_sum (map wire_size ts) -> length d' = list_sum (map wire_size ts) ->
  Forall is_byte (h' ++ d' ++ c') -> length h' = length header -> length c' = w ->
  h' ++ d' ++ c' <> header ++ d ++ wire_bytes e w (crc d) ->
  yields src x (h' ++ d' ++ c') x' -> decodable_list p e m ts d' ->
  length storage = length header + list_sum (map wire_size ts) + w ->
  exists r, receive_framed p e m crc header w src ts x storage = Ok (x', r)
  /\ (r <> None <-> h' = header /\ d' <> d /\ c' = wire_bytes e w (crc d')).
Proof.
  intros X src p e m crc header w ts d d' h' c' x x' storage Hp Hok Hn0 Hh Hw Hc Ld Ld' Hb Lh Lc Hne Hy Hd Hst.
  destruct (C65_received X src p e m crc header w ts (h' ++ d' ++ c') x x' storage) as (r & R & H); auto.
  - rewrite !app_length. lia.
  - rewrite slice_middle by auto. exact Hd.
  - exists r. split; auto. split.
    + intros N. destruct r as [vals|]; [|congruence]. destruct (proj1 (H vals) eq_refl) as (d2 & L2 & E & _).
      assert (Eh : h' = header).
      { pose proof (f_equal (firstn (length header)) E) as E1. rewrite !firstn_whole in E1 by auto. exact E1. }
      pose proof (f_equal (skipn (length header)) E) as E2. rewrite !skipn_whole in E2 by auto.
      assert (Ed : d' = d2).
      { pose proof (f_equal (firstn (list_sum (map wire_size ts))) E2) as E3. rewrite !firstn_whole in E3 by auto. exact E3. }
      pose proof (f_equal (skipn (list_sum (map wire_size ts))) E2) as E3. rewrite !skipn_whole in E3 by auto. subst d2.
      split; auto. split; auto. intros ->. apply Hne. rewrite Eh, E3. reflexivity.
    + intros (-> & _ & ->). rewrite (proj2 (H (dec_list e m ts d'))); [discriminate|]. exists d'. auto.
Qed.

(** ** Examples *)

Definition next_byte (l : list Z) : res (list Z * Z) :=
  match l with b :: l' => Ok (l', b) | [] => Fault NoInput end.

(** Sum of the bytes. *)
Definition sum16 (d : list Z) : Z := (fold_right Z.add 0 d mod 65536)%Z.

Lemma sum16_range : forall d, (0 <= sum16 d < space 2)%Z.
Proof. intros. change (space 2) with 65536%Z. apply Z.mod_pos_bound. lia. Qed.

(** test/snippet/detail/serialization.cpp: [calculate_crc] gives 0xabcd. *)
Example C65_example_sent :
  Forall (ty_ok avr_portable BIG ONES_COMPLEMENT) [TUns 4; TUns 4]
  /\ Forall2 (encodable avr_portable ONES_COMPLEMENT) [TUns 4; TUns 4] [VInt 64; VInt 32]
  /\ send_framed avr_portable BIG ONES_COMPLEMENT (fun _ => 43981%Z) [255; 255; 255; 255]%Z 2
       [TUns 4; TUns 4] [VInt 64; VInt 32] (repeat 170%Z 14)
     = Ok [255; 255; 255; 255; 0; 0; 0; 64; 0; 0; 0; 32; 171; 205]%Z.
Proof. split; [tyoks|]. split; [encs|]. vm_compute. reflexivity. Qed.

Example C65_example_received :
  receive_framed avr_portable BIG ONES_COMPLEMENT (fun _ => 43981%Z) [255; 255; 255; 255]%Z 2 next_byte
    [TSig 2; TUns 2] [255; 255; 255; 255; 255; 127; 0; 64; 171; 205]%Z (repeat 170%Z 10)
  = Ok ([], Some [VInt (-128); VInt 64]).
Proof. vm_compute. reflexivity. Qed.

(** One bit of the data is changed: seen by [sum16]. *)
Example C65_example_errors :
  let receive := fun bs => receive_framed pc_native BIG ONES_COMPLEMENT sum16 [255; 255]%Z 2 next_byte
    [TSig 2; TUns 2] bs (repeat 170%Z 8) in
  receive [255; 255; 255; 127; 0; 64; 1; 190]%Z = Ok ([], Some [VInt (-128); VInt 64])
  /\ receive [255; 255; 255; 127; 0; 65; 1; 190]%Z = Ok ([], None)
  /\ receive [255; 255; 255; 127; 64; 0; 1; 190]%Z = Ok ([], Some [VInt (-128); VInt 16384]).
Proof. cbv zeta. split; [|split]; vm_compute; reflexivity. Qed.

Print Assumptions C65_sent.
Print Assumptions C65_received.
Print Assumptions C65_exchange.
Print Assumptions C65_errors.
