(** Property C87: two devices must agree on the format.  Also the exact result
    of reading any bytes as any type (C06). *)

From Coq Require Import List ZArith Bool Arith Lia ZifyBool ZifyNat.
From Verif Require Import Base CInt Spec IntModel Conditions MemFacts TypeLevel Serial TupleModel
  TypeLevelProofs IntProofs SignedProofs SerialProofs CodecFacts Bounds TupleProofs SpecRpc Rpc RpcProofs
  Hosts Closed PropertiesTypes PropertiesInt PropertiesTuple PropertiesRpc.
Import ListNotations.
Open Scope nat_scope.

(** ** C06 for every type *)

Definition undefined_read (r : res val) : Prop := r = Fault TrapRepr \/ r = Fault SignedOverflow.

Section Exact.
  Variables (p : platform) (e : endianess) (m : signed_mode).
  Hypothesis Hp : wf_platform p.

  Lemma read_loop_bad : forall t' mem off,
    sizeof t' = wire_size t' ->
    (forall off, off + wire_size t' <= length mem ->
       (decodable p e m t' (slice mem off (wire_size t'))
        /\ read_as p e m t' mem off = Ok (dec e m t' (slice mem off (wire_size t'))))
       \/ (~ decodable p e m t' (slice mem off (wire_size t')) /\ undefined_read (read_as p e m t' mem off))) ->
    forall k i, off + (i + k) * wire_size t' <= length mem ->
    Forall (decodable p e m t') (map (fun j => slice mem (off + j * wire_size t') (wire_size t')) (seq i k))
    \/ (~ Forall (decodable p e m t') (map (fun j => slice mem (off + j * wire_size t') (wire_size t')) (seq i k))
        /\ undefined_read (vs <- read_loop p e m t' mem off k i;; Ok (VList vs))).
  Proof.
    intros t' mem off Hsz Hr. induction k as [|k IH]; intros i Hlen; cbn [read_loop seq map]; auto.
    assert (Hb : (i + S k) * wire_size t' = i * wire_size t' + wire_size t' + k * wire_size t') by lia.
    rewrite Hsz. fold (read_loop p e m t' mem off).
    destruct (Hr (off + i * wire_size t') ltac:(lia)) as [[Hd E]|[Hd [E|E]]]; rewrite E; cbn [bind].
    - destruct (IH (S i) ltac:(lia)) as [H|[H U]].
      + left. constructor; auto.
      + right. split; [intros F; inversion F; auto|].
        revert U. unfold undefined_read. destruct (read_loop p e m t' mem off k (S i)); cbn [bind]; auto.
        intros [U|U]; discriminate.
    - right. split; [intros F; inversion F; auto|left; reflexivity].
    - right. split; [intros F; inversion F; auto|right; reflexivity].
  Qed.

  Lemma read_fields_bad : forall fs mem off l i,
    Forall layout_ok fs ->
    Forall (fun t => forall off, off + wire_size t <= length mem ->
       (decodable p e m t (slice mem off (wire_size t))
        /\ read_as p e m t mem off = Ok (dec e m t (slice mem off (wire_size t))))
       \/ (~ decodable p e m t (slice mem off (wire_size t)) /\ undefined_read (read_as p e m t mem off))) l ->
    skipn i fs = l ->
    off + list_sum (map wire_size fs) <= length mem ->
    decodable_list p e m l (slice mem (off + offset_of fs i) (list_sum (map wire_size l)))
    \/ (~ decodable_list p e m l (slice mem (off + offset_of fs i) (list_sum (map wire_size l)))
        /\ undefined_read (vs <- read_fields p e m fs mem off l i;; Ok (VList vs))).
  Proof.
    intros fs mem off l. induction l as [|f l IH]; intros i Hl Hr Hsk Hlen;
      cbn [read_fields decodable_list]; auto.
    inversion Hr as [|? ? Hrf Hrl]; subst.
    destruct (skipn_cons_nth _ _ _ _ _ Hsk) as [Hi Hsk'].
    assert (Hilt : i < length fs) by (apply nth_error_Some; congruence).
    rewrite element_offset_ok by (auto; lia). cbn [bind].
    pose proof (offset_of_S fs i f Hi) as HS. pose proof (offset_of_le fs (S i)) as Hle.
    cbn [map].
    change (list_sum (wire_size f :: map wire_size l)) with (wire_size f + list_sum (map wire_size l)) in *.
    rewrite firstn_slice in * by lia. rewrite skipn_slice in *.
    replace (wire_size f + list_sum (map wire_size l) - wire_size f) with (list_sum (map wire_size l)) in * by lia.
    fold (read_fields p e m fs mem off).
    replace (off + offset_of fs i + wire_size f) with (off + offset_of fs (S i)) in * by lia.
    destruct (Hrf (off + offset_of fs i) ltac:(lia)) as [[Hd E]|[Hd [E|E]]]; rewrite E; cbn [bind].
    - destruct (IH (S i) Hl Hrl Hsk' Hlen) as [H|[H U]].
      + left. auto.
      + right. split; [intros [_ F]; auto|].
        revert U. unfold undefined_read. destruct (read_fields p e m fs mem off l (S i)); cbn [bind]; auto.
        intros [U|U]; discriminate.
    - right. split; [intros [F _]; auto|left; reflexivity].
    - right. split; [intros [F _]; auto|right; reflexivity].
  Qed.

  Lemma read_exact : forall t mem off,
    ty_ok p e m t -> Forall is_byte mem -> off + wire_size t <= length mem ->
    (decodable p e m t (slice mem off (wire_size t))
     /\ read_as p e m t mem off = Ok (dec e m t (slice mem off (wire_size t))))
    \/ (~ decodable p e m t (slice mem off (wire_size t)) /\ undefined_read (read_as p e m t mem off)).
  Proof.
    assert (L : forall t mem off,
              (t = TBool \/ exists w, (t = TUns w \/ t = TSig w) /\ 1 <= w <= 8) ->
              ty_ok p e m t -> Forall is_byte mem -> off + wire_size t <= length mem ->
              (decodable p e m t (slice mem off (wire_size t))
               /\ read_as p e m t mem off = Ok (dec e m t (slice mem off (wire_size t))))
              \/ (~ decodable p e m t (slice mem off (wire_size t)) /\ undefined_read (read_as p e m t mem off))).
    { intros t mem off Ht Hok Hb Hl.
      destruct (C06_decode_integers_partial p e m t mem off Hp Ht ltac:(apply Hok) Hb Hl)
        as [(D & R & _)|[(-> & E & V & R)|(w & -> & -> & V & I1 & N & R)]]; auto.
      - right. split; [|left; auto]. cbn [decodable]. intros D. specialize (D E). lia.
      - right. split; [|right; auto]. cbn [decodable]. intros D. specialize (D eq_refl V).
        destruct D as [D|D]; [lia|congruence]. }
    induction t using ty_ind_nested; intros mem off Hok Hmem Hlen.
    - apply L; auto.
    - apply L; auto. right. exists w. split; auto. apply Hok.
    - apply L; auto. right. exists w. split; auto. apply Hok.
    - pose proof Hok as Hok'. apply ty_ok_arr in Hok. destruct Hok as (Hok & Hsz & _ & Hn).
      cbn [wire_size] in Hlen.
      assert (Hch : chunks (wire_size t) n (slice mem off (n * wire_size t))
                    = map (fun j => slice mem (off + j * wire_size t) (wire_size t)) (seq 0 n)).
      { rewrite <- chunks_slice. rewrite Nat.mul_0_l, Nat.add_0_r. reflexivity. }
      destruct (read_loop_bad t mem off Hsz (fun o Ho => IHt mem o Hok Hmem Ho) n 0 ltac:(lia)) as [H|[H U]].
      + left. assert (D : decodable p e m (TArr t n) (slice mem off (wire_size (TArr t n)))).
        { cbn [decodable wire_size]. rewrite Hch. auto. }
        split; auto. apply read_as_ok; auto.
      + right. split.
        * cbn [decodable wire_size]. rewrite Hch. auto.
        * rewrite read_as_arr. auto.
    - pose proof Hok as Hok'. apply ty_ok_user in Hok. rewrite wire_size_user in Hlen.
      destruct (read_fields_bad fs mem off fs 0) as [D|[D U]]; auto.
      + eapply Forall_impl; [|exact Hok]. intros a Ha. apply Ha.
      + rewrite Forall_forall in *. intros t Ht off' Hl. apply H; auto. apply Forall_forall. auto.
      + left. rewrite offset_of_0, Nat.add_0_r in D.
        assert (D' : decodable p e m (TUser s fs) (slice mem off (wire_size (TUser s fs)))).
        { apply decodable_user. rewrite wire_size_user. auto. }
        split; auto. apply read_as_ok; auto.
      + right. rewrite offset_of_0, Nat.add_0_r in D. split.
        * rewrite wire_size_user. intros X. apply decodable_user in X. auto.
        * rewrite read_as_user. auto.
  Qed.
End Exact.

(** Any bytes, read as any type: their decoding, exactly when none of the
    integers inside of them is one of the two bad ones. *)
Theorem C06_decode_exact_partial : forall p e m t mem off,
  wf_platform p -> ty_ok p e m t ->
  Forall is_byte mem -> off + wire_size t <= length mem ->
  (decodable p e m t (slice mem off (wire_size t))
   /\ read_as p e m t mem off = Ok (dec e m t (slice mem off (wire_size t))))
  \/ (~ decodable p e m t (slice mem off (wire_size t))
      /\ (read_as p e m t mem off = Fault TrapRepr \/ read_as p e m t mem off = Fault SignedOverflow)).
Proof. intros. apply read_exact; auto. Qed.

Example C06_exact_example :
  let t := TUser 8 [TUns 2; TArr TBool 2] in
  ty_ok pc_native LITTLE TWOS_COMPLEMENT t
  /\ read_as pc_native LITTLE TWOS_COMPLEMENT t [1; 2; 1; 0]%Z 0 = Ok (VList [VInt 513; VList [VInt 1; VInt 0]])
  /\ read_as pc_native LITTLE TWOS_COMPLEMENT t [1; 2; 1; 7]%Z 0 = Fault TrapRepr
  /\ ~ decodable pc_native LITTLE TWOS_COMPLEMENT t [1; 2; 1; 7]%Z.
Proof.
  cbv zeta. split; [unfold ty_ok; cbn; intuition (auto; try lia)|].
  split; [vm_compute; reflexivity|]. split; [vm_compute; reflexivity|].
  cbn. intros (_ & F & _). inversion F as [|? ? _ F']. inversion F' as [|? ? B _]. vm_compute in B.
  destruct (B eq_refl); discriminate.
Qed.

(** ** C87 *)

(** Two formats give the same meaning to the bytes of a type: the same byte
    order, unless every integer inside of it has one byte; the same
    representation of negative numbers, unless there is no signed integer. *)
Fixpoint compatible (e : endianess) (m : signed_mode) (e' : endianess) (m' : signed_mode) (t : ty) : Prop :=
  match t with
  | TBool => True
  | TUns w => e = e' \/ w = 1
  | TSig w => m = m' /\ (e = e' \/ w = 1)
  | TArr t _ => compatible e m e' m' t
  | TUser _ fs => fold_right (fun f acc => compatible e m e' m' f /\ acc) True fs
  end.

Lemma compatible_user : forall e m e' m' s fs,
  compatible e m e' m' (TUser s fs) <-> Forall (compatible e m e' m') fs.
Proof.
  intros. cbn [compatible]. induction fs; cbn [fold_right]; split; intros H; auto.
  - constructor; [apply H|apply IHfs; apply H].
  - inversion H; subst. split; auto. apply IHfs. auto.
Qed.

Lemma wire_bytes_1 : forall e e' u, wire_bytes e 1 u = wire_bytes e' 1 u.
Proof. intros [] [] u; reflexivity. Qed.

Lemma compatible_enc : forall e m e' m' t v, compatible e m e' m' t -> has_type t v ->
  enc e m t v = enc e' m' t v.
Proof.
  intros e m e' m'. induction t using ty_ind_nested; intros v Hc Hv.
  - destruct v; [|contradiction]. apply wire_bytes_1.
  - destruct v; [|contradiction]. cbn [enc compatible] in *. destruct Hc as [->| ->]; auto using wire_bytes_1.
  - destruct v; [|contradiction]. cbn [enc compatible] in *. destruct Hc as [-> [->| ->]]; auto using wire_bytes_1.
  - destruct v as [|vs]; [contradiction|]. cbn [enc compatible has_type] in *. destruct Hv as [_ Hv].
    induction Hv; cbn [flat_map]; auto. rewrite IHHv. f_equal. auto.
  - destruct v as [|vs]; [contradiction|]. apply compatible_user in Hc. apply has_type_user in Hv.
    rewrite !enc_user. revert vs Hv. induction fs as [|f fs IH]; intros vs Hv; inversion Hv; subst; auto.
    inversion H; subst. inversion Hc; subst. cbn [enc_list]. f_equal; auto.
Qed.

Lemma compatible_enc_list : forall e m e' m' ts vs, Forall (compatible e m e' m') ts ->
  Forall2 has_type ts vs -> enc_list e m ts vs = enc_list e' m' ts vs.
Proof.
  intros e m e' m' ts vs Hc Hv. induction Hv; auto. inversion Hc; subst. cbn [enc_list]. f_equal; auto.
  apply compatible_enc; auto.
Qed.

Lemma firstn_app_len : forall (A : Type) n (l l' : list A), length l = n -> firstn n (l ++ l') = l.
Proof. intros A n l l' <-. rewrite firstn_app, firstn_all, Nat.sub_diag, firstn_O, app_nil_r. reflexivity. Qed.

Lemma skipn_app_len : forall (A : Type) n (l l' : list A), length l = n -> skipn n (l ++ l') = l'.
Proof. intros A n l l' <-. rewrite skipn_app, skipn_all, Nat.sub_diag. reflexivity. Qed.

(** The values both sides may exchange. *)
Definition common (p q : platform) (m m' : signed_mode) (t : ty) (v : val) : Prop :=
  encodable p m t v /\ encodable q m' t v.

Lemma widths : forall w, 1 <= w <= 8 ->
  w = 1 \/ w = 2 \/ w = 3 \/ w = 4 \/ w = 5 \/ w = 6 \/ w = 7 \/ w = 8.
Proof. lia. Qed.

Lemma uns_differ : forall e e' w, 1 <= w <= 8 ->
  wire_value e' (wire_bytes e w 1) = 1%Z -> e = e' \/ w = 1.
Proof.
  intros e e' w Hw H.
  destruct (widths w Hw) as [->|[->|[->|[->|[->|[->|[->| ->]]]]]]]; auto;
    destruct e, e'; auto; vm_compute in H; discriminate.
Qed.

Lemma sig_order_differ : forall e e' m m' w, 1 <= w <= 8 ->
  unrepr m' w (wire_value e' (wire_bytes e w (repr m w 1))) = 1%Z -> e = e' \/ w = 1.
Proof.
  intros e e' m m' w Hw H.
  destruct (widths w Hw) as [->|[->|[->|[->|[->|[->|[->| ->]]]]]]]; auto;
    destruct e, e', m, m'; auto; vm_compute in H; discriminate.
Qed.

Lemma sig_mode_differ : forall e e' m m' w, 1 <= w <= 8 -> e = e' \/ w = 1 ->
  unrepr m' w (wire_value e' (wire_bytes e w (repr m w (-1)))) = (-1)%Z -> m = m'.
Proof.
  intros e e' m m' w Hw He H.
  assert (E : wire_bytes e w (repr m w (-1)) = wire_bytes e' w (repr m w (-1))).
  { destruct He as [->| ->]; auto using wire_bytes_1. }
  rewrite E in H. clear He E.
  destruct (widths w Hw) as [->|[->|[->|[->|[->|[->|[->| ->]]]]]]];
    destruct e', m, m'; auto; vm_compute in H; discriminate.
Qed.

Lemma exchange_list : forall p q e m e' m' ts, Forall wf_ty ts ->
  (forall vs, Forall2 (common p q m m') ts vs -> dec_list e' m' ts (enc_list e m ts vs) = vs) ->
  Forall (fun t => forall v, common p q m m' t v -> dec e' m' t (enc e m t v) = v) ts.
Proof.
  intros p q e m e' m' ts Hwf. induction Hwf as [|t ts Ht Hts IH]; intros H; constructor.
  - intros v Hv.
    assert (E : dec_list e' m' (t :: ts) (enc_list e m (t :: ts) (v :: map default_val ts))
                = v :: map default_val ts).
    { apply H. constructor; auto. clear -Hts. induction Hts; cbn [map]; constructor; auto.
      split; apply default_ok; auto. }
    cbn [dec_list enc_list] in E. injection E as E _.
    rewrite firstn_app_len in E by (apply enc_length; apply Hv). auto.
  - apply IH. intros vs Hvs.
    assert (E : dec_list e' m' (t :: ts) (enc_list e m (t :: ts) (default_val t :: vs)) = default_val t :: vs).
    { apply H. constructor; auto. split; apply default_ok; auto. }
    cbn [dec_list enc_list] in E. injection E as _ E.
    rewrite skipn_app_len in E by (apply enc_length; apply (default_ok p m t Ht)). auto.
Qed.

Lemma exchange_compatible : forall p q e m e' m' t, wf_ty t ->
  (forall v, common p q m m' t v -> dec e' m' t (enc e m t v) = v) -> compatible e m e' m' t.
Proof.
  intros p q e m e' m'. induction t using ty_ind_nested; intros Hwf HX.
  - exact I.
  - cbn [compatible]. cbn [wf_ty] in Hwf. apply uns_differ; auto.
    assert (E : dec e' m' (TUns w) (enc e m (TUns w) (VInt 1)) = VInt 1).
    { apply HX. assert (1 < space w)%Z.
      { destruct (widths w Hwf) as [->|[->|[->|[->|[->|[->|[->| ->]]]]]]]; reflexivity. }
      split; split; cbn [has_type all_signed]; auto; lia. }
    cbn [dec enc] in E. congruence.
  - cbn [compatible]. cbn [wf_ty] in Hwf.
    assert (Hh : (1 < half w)%Z).
    { destruct (widths w Hwf) as [->|[->|[->|[->|[->|[->|[->| ->]]]]]]]; reflexivity. }
    assert (E : forall z, (- half w < z < half w)%Z ->
              unrepr m' w (wire_value e' (wire_bytes e w (repr m w z))) = z).
    { intros z Hz. assert (E : dec e' m' (TSig w) (enc e m (TSig w) (VInt z)) = VInt z).
      { apply HX. split; split; cbn [has_type all_signed]; try lia; left; lia. }
      cbn [dec enc] in E. congruence. }
    assert (O : e = e' \/ w = 1) by (apply (sig_order_differ e e' m m' w); auto; apply E; lia).
    split; auto. apply (sig_mode_differ e e' m m' w); auto. apply E. lia.
  - cbn [compatible]. destruct Hwf as (Hn & _ & Hwf). apply IHt; auto. intros v Hv.
    destruct n as [|n]; [lia|].
    assert (E : dec e' m' (TArr t (S n)) (enc e m (TArr t (S n)) (VList (repeat v (S n)))) = VList (repeat v (S n))).
    { apply HX. split; apply encodable_arr; (split; [apply repeat_length|]);
        apply Forall_forall; intros u Hu; apply repeat_spec in Hu; subst u; apply Hv. }
    cbn [dec enc repeat flat_map chunks map] in E. injection E as E _.
    rewrite firstn_app_len in E by (apply enc_length; apply Hv). auto.
  - apply compatible_user. apply wf_ty_user in Hwf.
    assert (F : Forall (fun t => forall v, common p q m m' t v -> dec e' m' t (enc e m t v) = v) fs).
    { apply exchange_list; auto. intros vs Hvs.
      assert (E : dec e' m' (TUser s fs) (enc e m (TUser s fs) (VList vs)) = VList vs).
      { apply HX. split; apply encodable_user.
        - clear -Hvs. induction Hvs; constructor; auto. apply H.
        - clear -Hvs. induction Hvs; constructor; auto. apply H. }
      rewrite enc_user, dec_user in E. congruence. }
    rewrite Forall_forall in *. auto.
Qed.

(** A host [p] writes with one format, a host [q] reads with another: every
    value goes through if and only if the formats are compatible. *)
Theorem C87_values : forall p q e m e' m' t,
  wf_platform p -> wf_platform q -> ty_ok p e m t -> ty_ok q e' m' t ->
  (compatible e m e' m' t
   <-> forall v mem off, encodable p m t v -> encodable q m' t v ->
         Forall is_byte mem -> off + wire_size t <= length mem ->
         exists mem', write_as p e m t v mem off = Ok mem' /\ read_as q e' m' t mem' off = Ok v).
Proof.
  intros p q e m e' m' t Hp Hq Htp Htq. split.
  - intros Hc v mem off Hvp Hvq Hb Hl. exists (splice mem off (enc e m t v)).
    rewrite write_as_ok by auto. split; auto.
    rewrite (compatible_enc e m e' m') by (auto; apply Hvp).
    destruct (roundtrip q q e' m' t v mem off) as (mem' & H1 & H2 & H3); auto.
    rewrite write_as_ok in H1 by auto. injection H1 as <-. auto.
  - intros H. apply (exchange_compatible p q); [apply Htp|]. intros v [Hvp Hvq].
    assert (Hel : length (enc e m t v) = wire_size t) by (apply enc_length; apply Hvp).
    destruct (H v (repeat 0%Z (wire_size t)) 0 Hvp Hvq) as (mem' & H1 & H2).
    { apply Forall_forall. intros b Hb. apply repeat_spec in Hb. subst b. unfold is_byte. lia. }
    { rewrite repeat_length. lia. }
    rewrite write_as_ok in H1 by (auto; rewrite repeat_length; lia). injection H1 as <-.
    rewrite splice_all in H2 by (rewrite repeat_length; auto).
    destruct (read_exact q e' m' Hq t (enc e m t v) 0 Htq (enc_bytes e m t v) ltac:(lia))
      as [[_ R]|[_ [R|R]]]; rewrite R in H2; try discriminate.
    rewrite slice_0_all in H2 by auto. congruence.
Qed.

Example C87_values_example :
  compatible LITTLE TWOS_COMPLEMENT BIG OFFSET_BINARY (TUser 4 [TBool; TArr (TUns 1) 3])
  /\ ~ compatible LITTLE TWOS_COMPLEMENT BIG TWOS_COMPLEMENT (TUns 2)
  /\ ~ compatible LITTLE TWOS_COMPLEMENT LITTLE OFFSET_BINARY (TSig 1)
  /\ (write_as pc_native LITTLE TWOS_COMPLEMENT (TUns 2) (VInt 258) [0; 0]%Z 0 = Ok [2; 1]%Z
      /\ read_as avr_portable BIG TWOS_COMPLEMENT (TUns 2) [2; 1]%Z 0 = Ok (VInt 513)).
Proof.
  split; [cbn; auto|]. split; [intros [H|H]; discriminate|]. split; [intros [H _]; discriminate|].
  vm_compute. auto.
Qed.

(** ** Requests *)

Section Wires.
  Context {S : Type}.

  Lemma pull_short : forall n (w : wires S), length (w_in w) < n -> pull take_wire n w = Fault NoInput.
  Proof.
    induction n as [|n IH]; intros [inp out s] H; cbn [w_in] in H; [lia|].
    destruct inp as [|b inp]; cbn [pull take_wire w_in w_out w_user bind]; auto.
    cbn [length] in H. rewrite IH by (cbn [w_in]; lia). reflexivity.
  Qed.

  Lemma pull_wires : forall n bs rest out (s : S), length bs = n ->
    pull take_wire n (mk_wires (bs ++ rest) out s) = Ok (mk_wires rest out s, bs).
  Proof. intros n bs rest out s <-. apply take_wires. Qed.

  (** What the caller sends. *)
  Lemma packet_sent : forall p (kr : keyring S) i name f k args,
    wf_platform p -> keyring_ok p kr ->
    nth_error (kr_funcs kr) i = Some (name, f) -> kr_get kr name f = Some k ->
    Forall2 (encodable p (kr_m kr)) (sig_params (f_sig f)) args ->
    key_write p k args give_wire (mk_wires [] [] tt)
    = Ok (mk_wires [] (request (kr_e kr) (kr_m kr) (kr_index_size kr) i (sig_params (f_sig f)) args) tt).
  Proof.
    intros p kr i name f k args Hp [Hl Hsigs] Hi Hk Ha.
    destruct (kr_get_nth S kr name f k Hk (nth_error_In _ _ Hi)) as (Hik & Hu & Ek).
    assert (Ei : k_index k = i) by (symmetry; apply (Hu i f); auto).
    assert (Hs : sig_ok p (kr_e kr) (kr_m kr) (f_sig f)).
    { rewrite Forall_forall in Hsigs. apply (Hsigs (name, f) (nth_error_In _ _ Hi)). }
    assert (Hlt : i < length (kr_funcs kr)) by (apply nth_error_Some; congruence).
    destruct (index_size S kr Hl) as (_ & Hsp & _).
    rewrite Ek, Ei. unfold key_write. cbn [k_index_size k_index k_sig k_e k_m].
    rewrite write_tuple_ok; auto.
    - rewrite request_enc. apply give_wires.
    - constructor; [apply index_ty_ok; auto|apply Hs].
    - constructor; auto. split; cbn [has_type all_signed]; auto. lia.
  Qed.

  (** What the callee does of the bytes it receives. *)
  Lemma lift_ok : forall q (kr : keyring S), keyring_ok q kr -> keyring_ok q (lift_keyring kr).
  Proof.
    intros q kr [L F]. split; [rewrite lift_funcs_length; auto|].
    unfold lift_keyring. cbn [kr_funcs kr_e kr_m]. rewrite Forall_map. exact F.
  Qed.

  Lemma lift_index_size : forall (kr : keyring S), kr_index_size (lift_keyring kr) = kr_index_size kr.
  Proof. intros kr. unfold kr_index_size. rewrite lift_funcs_length. reflexivity. Qed.

  Lemma dispatch_wires : forall q (kr : keyring S) ft idx rest s,
    wf_platform q -> keyring_ok q kr -> length idx = kr_index_size kr -> Forall is_byte idx ->
    let i := Z.to_nat (wire_value (kr_e kr) idx) in
    dispatch q (make_dispatcher (lift_keyring kr) ft) take_wire give_wire (mk_wires (idx ++ rest) [] s)
    = match nth_error (kr_funcs kr) i with
      | Some nf =>
          x <- call q (kr_e kr) (kr_m kr) (lift_func (snd nf)) take_wire give_wire (mk_wires rest [] s);;
          Ok (x, i)
      | None => Ok (mk_wires rest [] s, i)
      end.
  Proof.
    intros q kr ft idx rest s Hq Hk Hl Hb i. pose proof (lift_ok q kr Hk) as [L F].
    destruct (index_size _ _ L) as (_ & _ & Hsize).
    assert (E : pull take_wire (kr_index_size (lift_keyring kr)) (mk_wires (idx ++ rest) [] s)
                = Ok (mk_wires rest [] s, idx)) by (apply pull_wires; rewrite lift_index_size; auto).
    unfold dispatch. rewrite get_index_ok; auto; cbn [make_dispatcher d_keyring].
    2:{ intros x1 bs H. rewrite E in H. injection H as <- <-. auto. }
    rewrite E. cbn [bind]. change (kr_e (lift_keyring kr)) with (kr_e kr). fold i.
    unfold d_size. cbn [make_dispatcher d_keyring]. rewrite Hsize, lift_funcs_length.
    destruct (nth_error (kr_funcs kr) i) as [[n f]|] eqn:Hi.
    - assert (i < length (kr_funcs kr)) by (apply nth_error_Some; congruence).
      destruct (Nat.ltb_spec i (length (kr_funcs kr))); [|lia].
      unfold action_at. cbn [make_dispatcher d_actions lift_keyring kr_funcs]. rewrite !nth_error_map, Hi.
      cbn [option_map bind snd fst kr_e kr_m].
      rewrite (run_call q _ _ (mk_model (kr_e kr) (kr_m kr) (lift_func f))) by (destruct ft; reflexivity).
      reflexivity.
    - apply nth_error_None in Hi. destruct (Nat.ltb_spec i (length (kr_funcs kr))); [lia|]. reflexivity.
  Qed.

  Lemma dispatch_short : forall q (kr : keyring S) ft inp s,
    wf_platform q -> keyring_ok q kr -> length inp < kr_index_size kr ->
    dispatch q (make_dispatcher (lift_keyring kr) ft) take_wire give_wire (mk_wires inp [] s) = Fault NoInput.
  Proof.
    intros q kr ft inp s Hq Hk Hl. pose proof (lift_ok q kr Hk) as [L F].
    assert (E : pull take_wire (kr_index_size (lift_keyring kr)) (mk_wires inp [] s) = Fault NoInput).
    { apply pull_short. rewrite lift_index_size. auto. }
    unfold dispatch. rewrite get_index_ok; auto; cbn [make_dispatcher d_keyring].
    - rewrite E. reflexivity.
    - intros x1 bs H. rewrite E in H. discriminate.
  Qed.

  Lemma read_element_inv : forall q e m ts bs i t v, wf_platform q -> Forall (ty_ok q e m) ts ->
    length bs = wire_sizes ts -> Forall is_byte bs -> nth_error ts i = Some t ->
    get q (tuple_at e m ts 0) i bs = Ok v -> v = dec e m t (slice bs (offset_of ts i) (wire_size t)).
  Proof.
    intros q e m ts bs i t v Hq Hok Hl Hb Hi H.
    rewrite (get_eq q (tuple_at e m ts 0) i t) in H by (auto using tuple_elements_ok).
    cbn [tuple_at v_e v_m v_kind read_at] in H. unfold pos in H. cbn [v_begin v_types tuple_at Nat.add] in H.
    assert (Ht : ty_ok q e m t) by (rewrite Forall_forall in Hok; apply Hok; eapply nth_error_In; eauto).
    assert (Hr : offset_of ts i + wire_size t <= length bs).
    { rewrite Hl. pose proof (offset_of_S _ _ _ Hi). pose proof (offset_of_le ts (Datatypes.S i)).
      unfold wire_sizes. lia. }
    destruct (read_exact q e m Hq t bs (offset_of ts i) Ht Hb Hr) as [[_ R]|[_ [R|R]]];
      rewrite R in H; congruence.
  Qed.

  Lemma read_elements_inv : forall q e m ts bs vs, wf_platform q -> Forall (ty_ok q e m) ts ->
    length bs = wire_sizes ts -> Forall is_byte bs ->
    get_each q (tuple_at e m ts 0) (make_index_sequence14 (length ts)) bs = Ok vs -> vs = dec_list e m ts bs.
  Proof.
    intros q e m ts bs vs Hq Hok Hl Hb H. apply get_each_spec in H. unfold make_index_sequence14 in H.
    pose proof (Forall2_length H) as Hlen. rewrite seq_length in Hlen.
    apply nth_error_ext. intros i. destruct (nth_error ts i) as [t|] eqn:Hi.
    - rewrite (dec_list_nth e m ts bs i t Hi).
      assert (i < length ts) by (apply nth_error_Some; congruence).
      destruct (nth_error vs i) as [v|] eqn:Hv; [|apply nth_error_None in Hv; lia].
      f_equal. eapply read_element_inv; eauto.
      apply (Forall2_nth2 _ _ _ _ _ i i v H); auto.
      rewrite (nth_error_nth' _ 0) by (rewrite seq_length; auto). rewrite seq_nth by auto. reflexivity.
    - apply nth_error_None in Hi.
      assert (N : nth_error vs i = None) by (apply nth_error_None; lia).
      assert (N' : nth_error (dec_list e m ts bs) i = None) by (apply nth_error_None; rewrite dec_list_length; auto).
      congruence.
  Qed.

  (** A call which ends took the bytes of the parameters, and the callback got
      their decoding. *)
  Lemma call_wires_inv : forall q e m (f : func S) bs rest s x,
    wf_platform q -> sig_ok q e m (f_sig f) ->
    length bs = wire_sizes (sig_params (f_sig f)) -> Forall is_byte bs ->
    call q e m (lift_func f) take_wire give_wire (mk_wires (bs ++ rest) [] s) = Ok x ->
    w_in x = rest /\ w_user x = fst (f_call f (dec_list e m (sig_params (f_sig f)) bs) s).
  Proof.
    intros q e m f bs rest s x Hq [Hps Hr] Hl Hb H. unfold call in H.
    rewrite (lift_sig S f) in H. rewrite !read_tuple_ok in H by auto.
    rewrite !(pull_wires _ bs) in H by auto. cbn [bind] in H.
    assert (I : forall y, invoke q (tuple_at e m (sig_params (f_sig f)) 0) (f_call (lift_func f)) bs
                            (mk_wires rest [] s) = Ok y ->
                w_in (fst y) = rest /\ w_user (fst y) = fst (f_call f (dec_list e m (sig_params (f_sig f)) bs) s)).
    { intros y Hy. unfold invoke in Hy. apply bind_ok in Hy. destruct Hy as (args & Ha & Hy).
      cbn [tuple_at v_types] in Ha. apply read_elements_inv in Ha; auto. subst args.
      injection Hy as <-. cbn [lift_func f_call w_user w_in w_out].
      destruct (f_call f (dec_list e m (sig_params (f_sig f)) bs) s); auto. }
    destruct (sig_ret (f_sig f)) as [t|].
    - apply bind_ok in H. destruct H as ([x2 r] & H1 & H2). apply I in H1. cbn [fst] in H1.
      unfold insert, write_tuple in H2. apply bind_ok in H2. destruct H2 as (st & _ & H2).
      apply bind_ok in H2. destruct H2 as (out & _ & H2). rewrite put_each_push in H2.
      destruct x2 as [i2 o2 s2]. rewrite give_wires in H2. injection H2 as <-. exact H1.
    - apply bind_ok in H. destruct H as ([x2 r] & H1 & H2). apply I in H1. injection H2 as <-. exact H1.
  Qed.

  (** A request received in the format it was sent in. *)
  Lemma request_served : forall q (kr : keyring S) ft i name f args s rest,
    wf_platform q -> keyring_ok q kr ->
    nth_error (kr_funcs kr) i = Some (name, f) ->
    Forall2 (encodable q (kr_m kr)) (sig_params (f_sig f)) args ->
    ret_encodable q (kr_m kr) (sig_ret (f_sig f)) (snd (f_call f args s)) ->
    dispatch q (make_dispatcher (lift_keyring kr) ft) take_wire give_wire
      (mk_wires (request (kr_e kr) (kr_m kr) (kr_index_size kr) i (sig_params (f_sig f)) args ++ rest) [] s)
    = Ok (mk_wires rest (response (kr_e kr) (kr_m kr) (sig_ret (f_sig f)) (snd (f_call f args s)))
            (fst (f_call f args s)), i).
  Proof.
    intros q kr ft i name f args s rest Hq Hk Hi Ha Hr. pose proof Hk as [L F].
    assert (Hs : sig_ok q (kr_e kr) (kr_m kr) (f_sig f)).
    { rewrite Forall_forall in F. apply (F (name, f) (nth_error_In _ _ Hi)). }
    assert (Hlt : i < length (kr_funcs kr)) by (apply nth_error_Some; congruence).
    unfold request. rewrite <- app_assoc.
    rewrite dispatch_wires; auto using wire_bytes_bytes; [|apply wire_bytes_length].
    rewrite wire_index, Hi by auto. cbn [snd].
    set (ts := sig_params (f_sig f)) in *.
    assert (Epull : pull take_wire (wire_sizes ts)
                      (mk_wires (enc_list (kr_e kr) (kr_m kr) ts args ++ rest) [] s)
                    = Ok (mk_wires rest [] s, enc_list (kr_e kr) (kr_m kr) ts args)).
    { apply pull_wires. apply enc_list_length. eapply encodable_has; eauto. }
    assert (Hwf : Forall wf_ty ts) by (eapply tys_wf; apply Hs).
    assert (Edec : dec_list (kr_e kr) (kr_m kr) ts (enc_list (kr_e kr) (kr_m kr) ts args) = args).
    { apply (dec_list_enc_list q); auto. }
    rewrite call_ok; auto.
    - unfold call_spec. rewrite (lift_sig S f). fold ts. rewrite Epull. cbn [bind]. rewrite Edec.
      cbn [lift_func f_call w_user w_in w_out]. destruct (f_call f args s) as [s' r].
      rewrite give_wires. reflexivity.
    - rewrite (lift_sig S f). fold ts. intros x1 bs H1. rewrite Epull in H1.
      injection H1 as <- <-. split; [apply enc_list_bytes|].
      split; [apply encodable_decodable_list; auto|].
      rewrite Edec. cbn [lift_func f_call w_user w_in w_out].
      destruct (f_call f args s) as [s' r]. cbn [snd] in *. auto.
  Qed.
End Wires.

Lemma Forall2_common : forall p q m m' ts vs,
  Forall2 (common p q m m') ts vs <-> Forall2 (encodable p m) ts vs /\ Forall2 (encodable q m') ts vs.
Proof.
  intros p q m m' ts vs. split.
  - intros H. induction H as [|t v ts vs Hc H [IH1 IH2]]; split; constructor; auto; apply Hc.
  - intros [H1 H2]. induction H1; inversion H2; subst; constructor; auto. split; auto.
Qed.

(** Callbacks which record their arguments. *)
Definition recorder (s : signature) : func (list (list val)) :=
  mk_func s (fun args l => (args :: l, match sig_ret s with Some t => default_val t | None => VInt 0 end)).

Definition recorders (sigs : list signature) : list (nat * func (list (list val))) :=
  combine (seq 0 (length sigs)) (map recorder sigs).

Lemma recorders_sigs : forall sigs, map (fun nf => f_sig (snd nf)) (recorders sigs) = sigs.
Proof.
  intros sigs. unfold recorders. generalize 0. induction sigs as [|s sigs IH]; intros k; cbn; auto.
  f_equal. apply IH.
Qed.

Lemma recorders_names : forall sigs, map fst (recorders sigs) = seq 0 (length sigs).
Proof.
  intros sigs. unfold recorders. generalize 0. induction sigs as [|s sigs IH]; intros k; cbn; auto.
  f_equal. apply IH.
Qed.

Lemma recorders_nth : forall sigs i s, nth_error sigs i = Some s ->
  nth_error (recorders sigs) i = Some (i, recorder s).
Proof.
  intros sigs i s. unfold recorders. change i with (0 + i) at 3. generalize 0. revert i.
  induction sigs as [|s' sigs IH]; intros [|i] k H; try discriminate; cbn in *.
  - rewrite Nat.add_0_r. congruence.
  - rewrite (IH i (Datatypes.S k) H). do 2 f_equal. lia.
Qed.

Lemma sigs_ok : forall (S : Type) p e m sigs (funcs : list (nat * func S)),
  map (fun nf => f_sig (snd nf)) funcs = sigs ->
  (Z.of_nat (length sigs) < 2 ^ 64)%Z -> Forall (sig_ok p e m) sigs -> keyring_ok p (mk_keyring e m funcs).
Proof.
  intros S p e m sigs funcs <- Hl F. split; cbn [kr_funcs kr_e kr_m].
  - rewrite map_length in Hl. auto.
  - rewrite Forall_map in F. exact F.
Qed.

(** Two devices with the same callbacks, but their own formats.  All their
    requests are served (the callback runs on the arguments which were given)
    if and only if the formats are compatible on the type of the indices and on
    the types of all the parameters. *)
Theorem C87_requests : forall p q e m e' m' sigs,
  wf_platform p -> wf_platform q -> (Z.of_nat (length sigs) < 2 ^ 64)%Z ->
  Forall (sig_ok p e m) sigs -> Forall (sig_ok q e' m') sigs ->
  let index := TUns (smallest_unsigned (Z.of_nat (length sigs))) in
  (compatible e m e' m' index
   /\ Forall (fun s => Forall (compatible e m e' m') (sig_params s)) sigs
   <->
   forall (S : Type) (funcs : list (nat * func S)) ft i name f k args s rest,
     map (fun nf => f_sig (snd nf)) funcs = sigs ->
     nth_error funcs i = Some (name, f) -> kr_get (mk_keyring e m funcs) name f = Some k ->
     Forall2 (encodable p m) (sig_params (f_sig f)) args ->
     Forall2 (encodable q m') (sig_params (f_sig f)) args ->
     ret_encodable q m' (sig_ret (f_sig f)) (snd (f_call f args s)) ->
     exists packet out,
       key_write p k args give_wire (mk_wires [] [] tt) = Ok (mk_wires [] packet tt)
       /\ dispatch q (make_dispatcher (lift_keyring (mk_keyring e' m' funcs)) ft) take_wire give_wire
            (mk_wires (packet ++ rest) [] s)
          = Ok (mk_wires rest out (fst (f_call f args s)), i)).
Proof.
  intros p q e m e' m' sigs Hp Hq Hl Hsp Hsq index. split.
  - intros [Hci Hcs] S funcs ft i name f k args s rest Hsigs Hi Hk Hap Haq Hr.
    pose proof (sigs_ok S p e m sigs funcs Hsigs Hl Hsp) as Kp.
    pose proof (sigs_ok S q e' m' sigs funcs Hsigs Hl Hsq) as Kq.
    eexists. eexists. split; [apply (packet_sent p (mk_keyring e m funcs) i name f k args); auto|].
    cbn [kr_e kr_m].
    assert (Eq : request e m (kr_index_size (mk_keyring e m funcs)) i (sig_params (f_sig f)) args
                 = request e' m' (kr_index_size (mk_keyring e' m' funcs)) i (sig_params (f_sig f)) args).
    { assert (Ew : forall e0 m0, kr_index_size (mk_keyring e0 m0 funcs)
                                 = smallest_unsigned (Z.of_nat (length sigs))).
      { intros. unfold kr_index_size. cbn [kr_funcs]. rewrite <- Hsigs, map_length. reflexivity. }
      rewrite !Ew. unfold request. f_equal.
      - cbn [index compatible] in Hci. destruct Hci as [->|Hw]; auto.
        rewrite Hw. apply wire_bytes_1.
      - apply compatible_enc_list; [|eapply encodable_has; eauto].
        rewrite Forall_forall in Hcs. apply Hcs. rewrite <- Hsigs.
        apply (in_map (fun nf => f_sig (snd nf)) _ _ (nth_error_In _ _ Hi)). }
    rewrite Eq. apply (request_served q (mk_keyring e' m' funcs) ft i name f args s rest Hq Kq Hi); auto.
  - intros H.
    set (funcs := recorders sigs).
    pose proof (sigs_ok _ p e m sigs funcs (recorders_sigs sigs) Hl Hsp) as Kp.
    pose proof (sigs_ok _ q e' m' sigs funcs (recorders_sigs sigs) Hl Hsq) as Kq.
    set (w := smallest_unsigned (Z.of_nat (length sigs))) in *.
    assert (Ew : forall e0 m0, kr_index_size (mk_keyring e0 m0 funcs) = w).
    { intros. unfold kr_index_size. cbn [kr_funcs]. unfold funcs.
      rewrite <- (map_length fst), recorders_names, seq_length. reflexivity. }
    assert (Hw : 1 <= w <= 8).
    { destruct (index_size _ _ (proj1 Kp)) as (Hw & _). rewrite Ew in Hw. auto. }
    assert (Hn : length funcs = length sigs).
    { unfold funcs. rewrite <- (map_length fst), recorders_names, seq_length. reflexivity. }
    (* what is known about each request *)
    assert (R : forall i s args, nth_error sigs i = Some s -> Forall2 (common p q m m') (sig_params s) args ->
              Z.to_nat (wire_value e' (wire_bytes e w (Z.of_nat i))) = i
              /\ dec_list e' m' (sig_params s) (enc_list e m (sig_params s) args) = args).
    { intros i s args Hi Ha. apply Forall2_common in Ha. destruct Ha as [Hap Haq].
      pose proof (recorders_nth sigs i s Hi) as Hni. fold funcs in Hni.
      assert (Hss : sig_ok q e' m' s).
      { rewrite Forall_forall in Hsq. apply Hsq. eapply nth_error_In; eauto. }
      assert (Hk : exists k, kr_get (mk_keyring e m funcs) i (recorder s) = Some k).
      { unfold kr_get. cbn [kr_funcs]. rewrite (find17_nodup nat Nat.eqb i _ i).
        - eauto.
        - intros. apply Nat.eqb_eq.
        - rewrite nth_error_map, Hni. reflexivity.
        - unfold funcs. rewrite recorders_names. apply seq_NoDup. }
      destruct Hk as [k Hk].
      destruct (H _ funcs ANY i i (recorder s) k args [] [] (recorders_sigs sigs) Hni Hk Hap Haq)
        as (packet & out & Hw1 & Hd).
      { cbn [recorder f_sig f_call snd]. destruct Hss as [_ Hr]. destruct (sig_ret s); cbn [ret_encodable ret_ty_ok] in *; auto.
        apply default_ok. apply Hr. }
      rewrite (packet_sent p (mk_keyring e m funcs) i i (recorder s) k args) in Hw1 by auto.
      cbn [kr_e kr_m] in Hw1. rewrite Ew in Hw1. injection Hw1 as <-.
      unfold request in Hd. rewrite app_nil_r in Hd. cbn [recorder f_sig] in Hd.
      rewrite dispatch_wires in Hd;
        [|auto|auto|rewrite Ew; apply wire_bytes_length|apply wire_bytes_bytes].
      cbn [kr_e kr_m kr_funcs] in Hd.
      set (j := Z.to_nat (wire_value e' (wire_bytes e w (Z.of_nat i)))) in *.
      assert (Hj : j = i).
      { destruct (nth_error funcs j) as [nf|].
        - apply bind_ok in Hd. destruct Hd as (x & _ & Hd). congruence.
        - congruence. }
      split; auto. rewrite Hj, Hni in Hd. cbn [snd] in Hd.
      apply bind_ok in Hd. destruct Hd as (x & Hc & Hd).
      rewrite <- (app_nil_r (enc_list e m (sig_params s) args)) in Hc.
      apply call_wires_inv in Hc; auto using enc_list_bytes.
      - destruct Hc as [_ Hu]. assert (Ex : x = mk_wires [] out (fst (f_call (recorder s) args []))) by congruence.
        rewrite Ex in Hu. cbn [w_user recorder f_call fst f_sig] in Hu. congruence.
      - apply enc_list_length. eapply encodable_has; eauto. }
    assert (D : forall s, In s sigs -> Forall2 (common p q m m') (sig_params s) (map default_val (sig_params s))).
    { intros s Hs. assert (W : Forall wf_ty (sig_params s)).
      { rewrite Forall_forall in Hsp. eapply tys_wf. apply (Hsp s Hs). }
      clear -W. induction W; cbn [map]; constructor; auto. split; apply default_ok; auto. }
    split.
    + cbn [index compatible]. destruct (Nat.eq_dec w 1) as [E1|E1]; auto.
      apply uns_differ; auto.
      assert (H1 : 1 < length sigs).
      { destruct (Nat.lt_ge_cases 1 (length sigs)); auto. exfalso. apply E1. unfold w.
        destruct (length sigs) as [|[|]]; [reflexivity|reflexivity|lia]. }
      destruct (nth_error sigs 1) as [s|] eqn:Hs1; [|apply nth_error_None in Hs1; lia].
      destruct (R 1 s _ Hs1 (D s (nth_error_In _ _ Hs1))) as [Hi _].
      change (Z.of_nat 1) with 1%Z in Hi.
      pose proof (wire_value_bounds e' (wire_bytes e w 1) (wire_bytes_bytes e w 1)). lia.
    + apply Forall_forall. intros s Hs. apply In_nth_error in Hs. destruct Hs as [i Hi].
      assert (W : Forall wf_ty (sig_params s)).
      { rewrite Forall_forall in Hsp. eapply tys_wf. apply (Hsp s (nth_error_In _ _ Hi)). }
      pose proof (exchange_list p q e m e' m' (sig_params s) W (fun vs Hvs => proj2 (R i s vs Hi Hvs))) as X.
      rewrite Forall_forall in *. intros t Ht. apply (exchange_compatible p q); auto.
Qed.

(** The same for the responses: what a callback returned is what the key reads. *)
Theorem C87_responses : forall p q e m e' m' t k,
  wf_platform p -> wf_platform q -> ty_ok p e m t -> ty_ok q e' m' t ->
  sig_ret (k_sig k) = Some t -> k_e k = e' -> k_m k = m' ->
  (compatible e m e' m' t
   <->
   forall v rest, encodable p m t v -> encodable q m' t v ->
     exists resp,
       insert p e m give_wire t v (mk_wires [] [] tt) = Ok (mk_wires [] resp tt)
       /\ key_read q k take_wire (mk_wires (resp ++ rest) [] tt) = Ok (mk_wires rest [] tt, Some v)).
Proof.
  intros p q e m e' m' t k Hp Hq Htp Htq Hk <- <-. split.
  - intros Hc v rest Hvp Hvq. exists (enc e m t v). split.
    + rewrite insert_ok by auto. apply give_wires.
    + rewrite (compatible_enc e m (k_e k) (k_m k)) by (auto; apply Hvp).
      assert (Hel : length (enc (k_e k) (k_m k) t v) = wire_size t) by (apply enc_length; apply Hvp).
      rewrite (C28_returns _ q k take_wire _ (mk_wires rest [] tt) v); rewrite ?Hk; auto.
      cbn [wire_size_ret response]. apply pull_wires. auto.
  - intros H. apply (exchange_compatible p q); [apply Htp|]. intros v [Hvp Hvq].
    assert (Hel : length (enc e m t v) = wire_size t) by (apply enc_length; apply Hvp).
    destruct (H v [] Hvp Hvq) as (resp & H1 & H2).
    rewrite insert_ok in H1 by auto. rewrite give_wires in H1. injection H1 as <-.
    unfold key_read in H2. rewrite Hk, read_tuple_ok in H2 by auto.
    rewrite (pull_wires _ (enc e m t v)) in H2 by (cbn; lia). cbn [bind] in H2.
    apply bind_ok in H2. destruct H2 as (v' & H2 & H3).
    apply (read_element_inv q (k_e k) (k_m k) [t] _ 0 t) in H2; auto using enc_bytes.
    + rewrite slice_0_all in H2 by auto. congruence.
    + cbn. lia.
Qed.

(** Requests of a caller in big endian, served by a callee in little endian:
    the callback runs, on other arguments. *)
Example C87_requests_example :
  let callee := mk_keyring LITTLE TWOS_COMPLEMENT (kr_funcs ex_keyring) in
  Forall (sig_ok pc_native BIG TWOS_COMPLEMENT) (kr_signatures ex_keyring)
  /\ kr_get ex_keyring 10 ex_add = Some ex_key_add
  /\ key_write pc_native ex_key_add [VInt (-2); VInt 5] give_wire (mk_wires [] [] tt)
     = Ok (mk_wires [] [0; 255; 254; 5]%Z tt)
  /\ dispatch avr_portable (make_dispatcher (lift_keyring callee) ANY) take_wire give_wire
       (mk_wires [0; 255; 254; 5]%Z [] [])
     = Ok (mk_wires [] [4; 255; 255; 255]%Z [(0, [VInt (-257); VInt 5])], 0)
  /\ ~ Forall (compatible BIG TWOS_COMPLEMENT LITTLE TWOS_COMPLEMENT) (sig_params (f_sig ex_add)).
Proof.
  cbv zeta. split.
  { destruct ex_keyring_ok as [_ H]. unfold kr_signatures. rewrite Forall_map. exact H. }
  split; [vm_compute; reflexivity|]. split; [vm_compute; reflexivity|]. split; [vm_compute; reflexivity|].
  intros H. inversion H as [|? ? Hc _]. destruct Hc as [_ [X|X]]; discriminate.
Qed.

Example C87_responses_example :
  compatible BIG TWOS_COMPLEMENT LITTLE ONES_COMPLEMENT (TArr (TUns 1) 2)
  /\ key_read avr_portable (mk_key 1 0 (mk_sig [] (Some (TSig 1))) BIG ONES_COMPLEMENT) take_wire
       (mk_wires [255]%Z [] tt)
     = Ok (mk_wires [] [] tt, Some (VInt 0))
  /\ insert pc_native BIG TWOS_COMPLEMENT give_wire (TSig 1) (VInt (-1)) (mk_wires [] [] tt)
     = Ok (mk_wires [] [255]%Z tt).
Proof. split; [cbn; auto|]. split; vm_compute; reflexivity. Qed.

Print Assumptions C06_decode_exact_partial.
Print Assumptions C87_values.
Print Assumptions C87_requests.
Print Assumptions C87_responses.
