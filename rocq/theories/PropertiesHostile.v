(** Property C90: what the bytes of a stranger can do to a dispatcher.  The
    dispatchers commit no undefined behaviour whatever they receive if and only
    if every byte sequence can be read as the parameters and the buffers are
    large enough. *)

From Coq Require Import List ZArith Lia Bool Arith.
From Verif Require Import Base CInt Spec IntModel Conditions MemFacts TypeLevel Serial TupleModel
  TypeLevelProofs IntProofs SignedProofs SerialProofs CodecFacts Bounds TupleProofs PropertiesTuple SpecRpc Rpc RpcProofs
  Hosts Closed PropertiesTypes PropertiesRpc Buffered SpecBuffered BufferedProofs PropertiesBuffered
  PropertiesBuffers PropertiesDuplex PropertiesFormats.
Import ListNotations.
Open Scope nat_scope.

(** ** Types which any bytes can be read as *)

(** No [bool] read by copying its representation, no signed integer whose
    minimum is computed by negating it. *)
Fixpoint robust (p : platform) (e : endianess) (m : signed_mode) (t : ty) : Prop :=
  match t with
  | TBool => native_endianess p e = false
  | TUns _ => True
  | TSig w => m = TWOS_COMPLEMENT -> twos_min_ok p w
  | TArr t _ => robust p e m t
  | TUser _ fs => fold_right (fun f acc => robust p e m f /\ acc) True fs
  end.

Lemma robust_user : forall p e m s fs, robust p e m (TUser s fs) <-> Forall (robust p e m) fs.
Proof.
  intros p e m s fs. cbn [robust]. induction fs as [|f fs IH]; cbn [fold_right].
  - split; auto.
  - rewrite IH. split; [intros [H1 H2]; constructor; auto|intros H; inversion H; auto].
Qed.

Section Robust.
  Variables (p : platform) (e : endianess) (m : signed_mode).

  Lemma robust_decodable : forall t bs, robust p e m t -> decodable p e m t bs.
  Proof.
    induction t using ty_ind_nested; intros bs Hr.
    - cbn [decodable robust] in *. intros E. congruence.
    - exact I.
    - cbn [decodable robust] in *. intros E _. auto.
    - cbn [decodable robust] in *. apply Forall_forall. intros l _. auto.
    - apply robust_user in Hr. apply decodable_user. revert bs.
      induction H as [|f fs Hf Hfs IH]; intros bs; cbn [decodable_list]; auto.
      inversion Hr; subst. split; auto.
  Qed.

  Lemma robust_list : forall ts bs, Forall (robust p e m) ts -> decodable_list p e m ts bs.
  Proof.
    intros ts bs H. revert bs. induction H as [|t ts Ht _ IH]; intros bs; cbn [decodable_list]; auto.
    split; auto. apply robust_decodable. auto.
  Qed.

  Lemma robust_dec : forall t, robust p e m t \/ ~ robust p e m t.
  Proof.
    induction t using ty_ind_nested.
    - cbn [robust]. destruct (native_endianess p e); [right; discriminate|left; reflexivity].
    - left. exact I.
    - cbn [robust]. destruct m; try (left; discriminate). unfold twos_min_ok.
      destruct (lt_dec w (p_int_size p)); auto. destruct (native_signed_mode p TWOS_COMPLEMENT); auto.
      right. intros H. destruct (H eq_refl); [auto|discriminate].
    - exact IHt.
    - rewrite robust_user. induction H as [|f fs Hf _ IH]; auto.
      destruct Hf as [Hf|Hf]; [|right; intros F; inversion F; auto].
      destruct IH as [IH|IH]; [left; auto|right; intros F; inversion F; auto].
  Qed.

  (** Bytes which cannot be read, for every other type. *)
  Lemma not_robust : forall t, wf_ty t -> layout_ok t -> ~ robust p e m t ->
    exists bs, length bs = wire_size t /\ Forall is_byte bs /\ ~ decodable p e m t bs.
  Proof.
    induction t using ty_ind_nested; intros Hwf Hlay Hr.
    - cbn [robust] in Hr. exists [2%Z]. split; [reflexivity|]. split; [constructor; auto; unfold is_byte; lia|].
      cbn [decodable]. unfold bool_decodable. destruct (native_endianess p e) eqn:E; [|congruence].
      intros D. specialize (D eq_refl). destruct e; vm_compute in D; intuition congruence.
    - cbn in Hr. tauto.
    - cbn [robust] in Hr. exists (wire_bytes e w (half w)). split; [apply wire_bytes_length|].
      split; [apply wire_bytes_bytes|]. cbn [decodable]. unfold sig_decodable. intros D. apply Hr. intros E.
      apply D; auto. cbn [wf_ty] in Hwf.
      rewrite wire_value_bytes. apply Z.mod_small. pose proof (half_pos w ltac:(lia)). pose proof (space_half w ltac:(lia)). lia.
    - cbn [robust wf_ty layout_ok] in *. destruct Hlay as (Hlay & Hsz & Hn).
      destruct (IHt ltac:(apply Hwf) Hlay Hr) as (bs & Hl & Hb & Hd).
      exists (bs ++ repeat 0%Z ((n - 1) * wire_size t)). split; [|split].
      + rewrite app_length, repeat_length, Hl. cbn [wire_size]. nia.
      + apply Forall_app. split; auto. apply Forall_forall. intros z Hz. apply repeat_spec in Hz. subst.
        unfold is_byte. lia.
      + cbn [decodable]. intros F. destruct n as [|n]; [lia|]. cbn [chunks] in F. inversion F as [|? ? F1 F2]; subst.
        rewrite <- Hl in F1. rewrite firstn_app, firstn_all, Nat.sub_diag in F1. cbn [firstn] in F1. rewrite app_nil_r in F1. auto.
    - apply wf_ty_user in Hwf.
      assert (Hlays : Forall layout_ok fs).
      { clear - Hlay. cbn [layout_ok] in Hlay. induction fs as [|f fs IH]; cbn [fold_right] in *; constructor; tauto. }
      assert (Hr' : ~ Forall (robust p e m) fs) by (intros F; apply Hr; apply robust_user; auto).
      assert (G : exists bs, length bs = list_sum (map wire_size fs) /\ Forall is_byte bs /\ ~ decodable_list p e m fs bs).
      { clear Hlay Hr. induction H as [|f fs Hf Hfs IH]; [exfalso; apply Hr'; constructor|].
        inversion Hwf; subst. inversion Hlays; subst. cbn [map decodable_list].
        change (list_sum (wire_size f :: map wire_size fs)) with (wire_size f + list_sum (map wire_size fs)).
        destruct (robust_dec f) as [R|R].
        - destruct IH as (bs & Hl & Hb & Hd); auto.
          exists (repeat 0%Z (wire_size f) ++ bs). split; [rewrite app_length, repeat_length; lia|]. split.
          + apply Forall_app. split; auto. apply Forall_forall. intros z Hz. apply repeat_spec in Hz. subst.
            unfold is_byte. lia.
          + intros [_ D]. rewrite skipn_app, repeat_length, Nat.sub_diag, skipn_all2 in D by (rewrite repeat_length; lia). auto.
        - destruct Hf as (bs & Hl & Hb & Hd); auto.
          exists (bs ++ repeat 0%Z (list_sum (map wire_size fs))). split; [rewrite app_length, repeat_length; lia|]. split.
          + apply Forall_app. split; auto. apply Forall_forall. intros z Hz. apply repeat_spec in Hz. subst.
            unfold is_byte. lia.
          + intros [D _]. rewrite <- Hl, firstn_app, firstn_all, Nat.sub_diag in D. cbn [firstn] in D.
            rewrite app_nil_r in D. auto. }
      destruct G as (bs & Hl & Hb & Hd). exists bs. rewrite wire_size_user. split; auto. split; auto.
      intros D. apply decodable_user in D. auto.
  Qed.

  Lemma not_robust_list : forall ts, Forall (ty_ok p e m) ts -> ~ Forall (robust p e m) ts ->
    exists bs, length bs = wire_sizes ts /\ Forall is_byte bs /\ ~ decodable_list p e m ts bs.
  Proof.
    intros ts Hts Hr. destruct (not_robust (TUser 0 ts)) as (bs & Hl & Hb & Hd).
    - apply wf_ty_user. eapply Forall_impl; [|exact Hts]. intros t Ht. apply Ht.
    - pose proof (tys_layout p e m ts Hts) as Hl. clear - Hl. cbn [layout_ok].
      induction Hl; cbn [fold_right]; auto.
    - rewrite robust_user. auto.
    - exists bs. rewrite wire_size_user in Hl. split; auto. split; auto.
      intros D. apply Hd. apply decodable_user. auto.
  Qed.

  (** The bytes of some values can always be read. *)
  Lemma some_decodable : forall ts, Forall (ty_ok p e m) ts ->
    exists bs, length bs = wire_sizes ts /\ Forall is_byte bs /\ decodable_list p e m ts bs.
  Proof.
    intros ts Hts. exists (enc_list e m ts (map default_val ts)).
    assert (He : Forall2 (encodable p m) ts (map default_val ts)).
    { induction Hts as [|t ts Ht _ IH]; cbn [map]; constructor; auto. apply default_ok. apply Ht. }
    split; [apply enc_list_length; eapply encodable_has; eauto|]. split; [apply enc_list_bytes|].
    apply encodable_decodable_list; auto.
    eapply Forall_impl; [|exact Hts]. intros t Ht. apply Ht.
  Qed.
End Robust.

(** ** C90 *)

(** A type is robust when, and only when, every sequence of bytes is read as a
    value of it without undefined behaviour. *)
Theorem C90_types : forall p e m t, wf_platform p -> ty_ok p e m t ->
  (robust p e m t <->
   forall mem, Forall is_byte mem -> length mem = wire_size t -> exists v, read_as p e m t mem 0 = Ok v).
Proof.
  intros p e m t Hp Ht. split.
  - intros Hr mem Hb Hl.
    destruct (read_exact p e m Hp t mem 0 Ht Hb ltac:(lia)) as [[_ R]|[D _]]; eauto.
    exfalso. apply D. apply robust_decodable. auto.
  - intros H. destruct (robust_dec p e m t) as [|R]; auto. exfalso.
    destruct (not_robust p e m t) as (bs & Hl & Hb & Hd); auto; try apply Ht.
    destruct (H bs Hb Hl) as [v Hv].
    destruct (read_exact p e m Hp t bs 0 Ht Hb ltac:(lia)) as [[D _]|[_ [R'|R']]]; try congruence.
    unfold slice in D. cbn [skipn] in D. rewrite firstn_all2 in D by lia. auto.
Qed.

(** A user type with a table of signed integers on a microcontroller, and a
    [bool] sent in the order of the host. *)
Example C90_types_example :
  ty_ok avr_portable BIG OFFSET_BINARY (TUser 0 [TBool; TArr (TSig 4) 3])
  /\ robust avr_portable BIG OFFSET_BINARY (TUser 0 [TBool; TArr (TSig 4) 3])
  /\ ty_ok pc_native LITTLE TWOS_COMPLEMENT (TUser 0 [TUns 2; TBool])
  /\ ~ robust pc_native LITTLE TWOS_COMPLEMENT (TUser 0 [TUns 2; TBool])
  /\ read_as pc_native LITTLE TWOS_COMPLEMENT (TUser 0 [TUns 2; TBool]) [5; 6; 2]%Z 0 = Fault TrapRepr.
Proof.
  split; [tyoks|]. split; [cbn; intuition discriminate|]. split; [tyoks|].
  split; [cbn; intuition discriminate|]. vm_compute. reflexivity.
Qed.

(** ** Reading what cannot be read *)

Lemma decodable_nth : forall p e m ts bs,
  (forall i t, nth_error ts i = Some t -> decodable p e m t (slice bs (offset_of ts i) (wire_size t))) ->
  decodable_list p e m ts bs.
Proof.
  intros p e m ts. induction ts as [|t ts IH]; intros bs H; cbn [decodable_list]; auto. split.
  - specialize (H 0 t eq_refl). exact H.
  - apply IH. intros i t' Hi. specialize (H (S i) t' Hi). revert H. unfold slice.
    rewrite skipn_skipn. unfold offset_of. cbn [firstn map].
    change (list_sum (wire_size t :: map wire_size (firstn i ts)))
      with (wire_size t + list_sum (map wire_size (firstn i ts))).
    rewrite (Nat.add_comm (wire_size t)). auto.
Qed.

Lemma call_decodable : forall p (X : Type) e m (f : func X) src dest x x' x1 bs,
  wf_platform p -> sig_ok p e m (f_sig f) ->
  pull src (wire_sizes (sig_params (f_sig f))) x = Ok (x1, bs) -> Forall is_byte bs ->
  call p e m f src dest x = Ok x' -> decodable_list p e m (sig_params (f_sig f)) bs.
Proof.
  intros p X e m f src dest x x' x1 bs Hp [Hps _] E Hb H.
  assert (Hl : length bs = wire_sizes (sig_params (f_sig f))) by (eapply pull_length; eauto).
  assert (Hi : exists args, get_each p (tuple_at e m (sig_params (f_sig f)) 0)
                              (make_index_sequence14 (length (sig_params (f_sig f)))) bs = Ok args).
  { unfold call in H. rewrite !read_tuple_ok in H by auto. rewrite E in H. cbn [bind] in H.
    unfold invoke in H. cbn [tuple_at v_types] in H.
    destruct (get_each _ _ _ _) as [args|]; eauto. destruct (sig_ret (f_sig f)); discriminate. }
  destruct Hi as [args Ha]. set (ts := sig_params (f_sig f)) in *.
  apply get_each_spec in Ha. unfold make_index_sequence14 in Ha.
  apply decodable_nth. intros i t Hi.
  assert (Hlt : i < length ts) by (apply nth_error_Some; congruence).
  pose proof (Forall2_length Ha) as Hlen. rewrite seq_length in Hlen.
  destruct (nth_error args i) as [v|] eqn:Hv; [|apply nth_error_None in Hv; lia].
  assert (G : get p (tuple_at e m ts 0) i bs = Ok v).
  { apply (Forall2_nth2 _ _ _ _ _ i i v Ha); auto.
    rewrite (nth_error_nth' _ 0) by (rewrite seq_length; auto). rewrite seq_nth by auto. reflexivity. }
  rewrite (get_eq p (tuple_at e m ts 0) i t) in G by (auto using tuple_elements_ok).
  cbn [tuple_at v_e v_m v_kind read_at] in G. unfold pos in G. cbn [v_begin v_types tuple_at Nat.add] in G.
  assert (Ht : ty_ok p e m t) by (rewrite Forall_forall in Hps; apply Hps; eapply nth_error_In; eauto).
  assert (Hr : offset_of ts i + wire_size t <= length bs).
  { rewrite Hl. pose proof (offset_of_S _ _ _ Hi). pose proof (offset_of_le ts (S i)). unfold wire_sizes. lia. }
  destruct (read_exact p e m Hp t bs (offset_of ts i) Ht Hb Hr) as [[D _]|[_ [R|R]]]; auto; congruence.
Qed.

(** ** Histories of a stranger *)

Section Hostile.
  Context {X : Type}.
  Variables (p : platform) (kr : keyring X) (ft : action_features).

  (** A callback which returns values which can be sent. *)
  Definition well_behaved (f : func X) : Prop :=
    forall args x, Forall2 has_type (sig_params (f_sig f)) args ->
      ret_encodable p (kr_m kr) (sig_ret (f_sig f)) (snd (f_call f args x)).

  (** A source which always gives a byte, a destination which takes every one. *)
  Definition steady (src : source X) : Prop := forall x, exists x' b, src x = Ok (x', b) /\ is_byte b.
  Definition willing (dest : destination X) : Prop := forall b x, exists x', dest b x = Ok x'.

  (** Nothing is asked of the bytes, of their number and of their order. *)
  Definition harmless (o : op X) : Prop :=
    match o with
    | Put byte => is_byte byte
    | ReadFrom src => steady src
    | WriteTo dest => willing dest
    | Process src dest => steady src /\ willing dest
    | Replace i r => replaceable ft (kr_signatures kr) i r /\ well_behaved (replacing r)
    | _ => True
    end.
End Hostile.

(** The position of the next byte to send set aside. *)
Definition with_next {X : Type} (n : nat) (b : buffered X) : buffered X :=
  mk_buffered (b_dispatcher b) (b_is_index_loaded b) (b_load_count b) (b_ibuf_next b) n (b_obuf_bottom b) (b_bufs b).
Definition drained {X : Type} (b : buffered X) : buffered X := with_next (b_obuf_bottom b) b.

(** Reception does not depend on it. *)
Lemma put_next : forall (X : Type) p byte n (b : buffered X) x b' x' s,
  put p byte (with_next n b) x = Ok (b', x', s) ->
  exists b'', put p byte b x = Ok (b'', x', s)
    /\ (s = RESOLVED_PACKET /\ b'' = b' /\ b_obuf_next b' = 0
        \/ s <> RESOLVED_PACKET /\ b'' = with_next (b_obuf_next b) b' /\ b_obuf_next b' = n
           /\ b_obuf_bottom b' = b_obuf_bottom b
           /\ exists mem, store (ibuf (b_bufs b)) (b_ibuf_next b) byte = Ok mem /\ b_bufs b' = set_ibuf mem (b_bufs b)).
Proof.
  intros X p byte n b x b' x' s H. unfold put in H |- *.
  cbn [with_next b_dispatcher b_is_index_loaded b_load_count b_ibuf_next b_obuf_next b_obuf_bottom b_bufs] in H.
  ok_inv H mem. cbn [bind]. cbv zeta. destruct (b_load_count b) as [|count]; [discriminate|].
  assert (C : forall l c k o bt bufs, call_loaded p (mk_buffered (b_dispatcher b) l c k o bt bufs) x
                = call_loaded p (mk_buffered (b_dispatcher b) l c k (b_obuf_next b) bt bufs) x) by reflexivity.
  assert (Z : forall b1 b2 y, call_loaded p b1 x = Ok (b2, y) -> b_obuf_next b2 = 0).
  { intros b1 b2 y Hc. unfold call_loaded in Hc. ok_inv Hc r. destruct r as [w1 i]. ok_inv Hc a. ok_inv Hc w2.
    assert (E' : b2 = mk_buffered (b_dispatcher b1) false (index_length (b_dispatcher b1)) 0 0 (fr_bottom w2)
                       (fr_bufs w2)) by congruence.
    rewrite E'. reflexivity. }
  destruct (0 <? count).
  { injection H as <- <- <-. eexists. split; [reflexivity|]. right. split; [discriminate|].
    repeat (split; [reflexivity|]). eauto. }
  destruct (b_is_index_loaded b).
  { rewrite C in H. ok_inv H r. destruct r as [b2 y]. injection H as <- <- <-.
    cbn [bind]. eexists. split; [reflexivity|]. left. split; auto. split; auto. eapply Z; eauto. }
  ok_inv H r. destruct r as [w i]. cbn [bind]. destruct (i <? d_size (b_dispatcher b)).
  - ok_inv H a. cbn [bind]. ok_inv H k. cbn [bind]. destruct (k =? 0).
    + rewrite C in H. ok_inv H r. destruct r as [b2 y]. injection H as <- <- <-.
      cbn [bind]. eexists. split; [reflexivity|]. left. split; auto. split; auto. eapply Z; eauto.
    + injection H as <- <- <-. eexists. split; [reflexivity|]. right. split; [discriminate|].
      repeat (split; [reflexivity|]). eauto.
  - injection H as <- <- <-. eexists. split; [reflexivity|]. right. split; [discriminate|].
    repeat (split; [reflexivity|]). eauto.
Qed.

Section Safe.
  Context {X : Type}.
  Variables (p : platform) (dbl : bool) (kr : keyring X) (ft : action_features) (ni no : nat).
  Hypothesis Hp : wf_platform p.
  Hypothesis Hk : keyring_ok p kr.
  Hypothesis Hroom : kr_index_size kr <= ni.
  Hypothesis Hframing : Forall (framing_ok ft ni no (kr_index_size kr)) (kr_signatures kr).
  Hypothesis Hrob : Forall (fun s => Forall (robust p (kr_e kr) (kr_m kr)) (sig_params s)) (kr_signatures kr).
  Let fm := format_of kr.

  Definition safe (b : buffered X) : Prop :=
    exists a, represents kr ft ni no dbl (drained b) a /\ mc_out a = []
      /\ b_obuf_next b <= b_obuf_bottom b /\ Forall (well_behaved p kr) (mc_table a).

  Lemma always_servable : forall table bs x, map f_sig table = kr_signatures kr ->
    Forall (well_behaved p kr) table -> Forall is_byte bs -> 
    (forall f, designated fm table bs = Some f -> length bs <= kr_index_size kr + wire_sizes (params f)) ->
    servable fm p table bs x.
  Proof.
    intros table bs x Ht Hw Hb Hlen. unfold servable, examine. cbn [fm format_of fm_w fm_e fm_m]. fold fm.
    destruct (Nat.ltb_spec (length bs) (kr_index_size kr)); auto.
    destruct (designated fm table bs) as [f|] eqn:Ed; auto.
    destruct (Nat.ltb_spec (length bs) (kr_index_size kr + wire_sizes (params f))); auto.
    unfold designated in Ed. apply nth_error_In in Ed.
    assert (Hs : In (f_sig f) (kr_signatures kr)) by (rewrite <- Ht; apply in_map; auto).
    split.
    - apply robust_list. rewrite Forall_forall in Hrob. apply (Hrob _ Hs).
    - rewrite Forall_forall in Hw. apply (Hw f Ed). apply dec_list_has_types.
      + eapply Forall_impl; [|apply (keyring_sig p kr Hk _ Hs)]. intros t Ht'. apply Ht'.
      + rewrite skipn_length. specialize (Hlen f eq_refl).
        change (list_sum (map wire_size (params f))) with (wire_sizes (params f)). lia.
      + apply skipn_bytes. auto.
  Qed.

  Lemma safe_put : forall b x byte, safe b -> is_byte byte ->
    exists b' x' s, put p byte b x = Ok (b', x', s) /\ safe b'.
  Proof.
    intros b x byte (a & Hr & Ho & Hn & Hw) Hb.
    assert (Hsv : servable fm p (mc_table a) (mc_in a ++ [byte]) x).
    { apply always_servable; auto.
      - apply Hr.
      - apply Forall_app. split; [apply Hr|auto].
      - intros f Hd. pose proof Hr as (_ & _ & _ & _ & _ & _ & _ & _ & _ & _ & Hprog).
        unfold progress in Hprog. fold fm in Hprog. rewrite app_length. cbn [length].
        destruct (b_is_index_loaded (drained b)).
        + destruct Hprog as (g & Hg & H1 & H2 & _).
          unfold fm in Hd, Hg. rewrite (designated_app kr ni Hroom) in Hd by auto. assert (g = f) by congruence. subst. lia.
        + destruct Hprog as [H1 _]. lia. }
    pose proof (put_ok p kr ft ni no dbl Hp Hk Hroom Hframing (drained b) a x byte Hr Hb (or_intror Ho) Hsv) as H.
    fold fm in H. destruct (mc_put fm byte a x) as [[a' x'] s] eqn:Em. destruct H as (b1 & E & Hr1).
    unfold drained in E. destruct (put_next X p byte _ b x b1 x' s E) as (b2 & E2 & Hc).
    exists b2, x', s. split; auto.
    assert (Ha' : mc_table a' = mc_table a /\ (s <> RESOLVED_PACKET -> mc_out a' = [])).
    { unfold mc_put, received in Em. destruct (examine fm (mc_table a) (mc_in a ++ [byte])) as [| |f pl].
      - injection Em as <- _ <-. cbn. auto.
      - injection Em as <- _ <-. cbn. auto.
      - destruct (serve fm f pl x). injection Em as <- _ <-. cbn. split; auto. congruence. }
    destruct Ha' as [Ht' Ho'].
    destruct Hc as [(-> & -> & Hz)|(Hs & -> & Hn1 & Hb1 & _)].
    - exists (mk_machine (mc_in a') [] (mc_table a')). split; [|split; [reflexivity|]].
      + destruct Hr1 as (R1 & R2 & R3 & R4 & R5 & R6 & R7 & R8 & R9 & R10 & R11).
        unfold represents, drained, with_next.
        cbn [b_dispatcher b_bufs b_ibuf_next b_obuf_next b_obuf_bottom mc_in mc_out mc_table length slice firstn].
        repeat (split; [solve [auto | lia]|]). exact R11.
      + cbn [mc_table]. rewrite Hz, Ht'. split; [lia|auto].
    - exists a'. rewrite Ht'. split; [|split; [auto|]].
      + replace (drained (with_next (b_obuf_next b) b1)) with b1; auto.
        destruct b1 as [d l c k o bt bufs]. unfold drained, with_next.
        cbn [b_obuf_next b_obuf_bottom b_dispatcher b_is_index_loaded b_load_count b_ibuf_next b_bufs] in *. congruence.
      + cbn [with_next b_obuf_next b_obuf_bottom]. rewrite Hb1. auto.
  Qed.

  Lemma safe_get : forall b, safe b -> exists b' c, get_byte b = Ok (b', c) /\ safe b'
    /\ length (obuf (b_bufs b')) = length (obuf (b_bufs b))
    /\ (is_loaded b = true -> b_obuf_next b < length (obuf (b_bufs b)) /\ b_obuf_next b' = S (b_obuf_next b)).
  Proof.
    intros b (a & Hr & Ho & Hn & Hw). unfold get_byte. destruct (is_loaded b) eqn:El.
    - unfold is_loaded in El. apply negb_true_iff, Nat.eqb_neq in El.
      pose proof Hr as (_ & _ & R3 & _ & _ & _ & _ & R8 & _).
      cbn [drained with_next b_bufs b_obuf_bottom] in R3, R8.
      destruct (nth_error (obuf (b_bufs b)) (b_obuf_next b)) as [c|] eqn:Ec; [|apply nth_error_None in Ec; lia].
      unfold load. rewrite Ec. cbn [bind]. do 2 eexists. split; [reflexivity|]. split; [|split; [reflexivity|]].
      + exists a. split; [exact Hr|]. split; auto. split; auto. cbn [b_obuf_next b_obuf_bottom]. lia.
      + intros _. cbn [b_obuf_next]. lia.
    - do 2 eexists. split; [reflexivity|]. split; [exists a; auto|]. split; auto. discriminate.
  Qed.

  Lemma safe_read_index : forall src fuel b x s, steady src -> safe b -> b_load_count b < fuel ->
    exists b' x' s', read_index p fuel src b x s = Ok (b', x', s') /\ safe b'.
  Proof.
    intros src fuel b x s Hs. revert b x s. induction fuel as [|fuel IH]; intros b x s Hb Hf; [lia|].
    cbn [read_index]. destruct (negb (b_is_index_loaded b) && is_loading s); [|eauto].
    destruct (Hs x) as (x1 & c & E & Hc). rewrite E. cbn [bind].
    destruct (safe_put b x1 c Hb Hc) as (b1 & x2 & s1 & E1 & H1). rewrite E1. cbn [bind].
    destruct (put_progress p X c b x1 b1 x2 s1 E1) as [(Hlt & _)|[(_ & Hl & _)|(_ & Hn)]].
    - apply IH; auto. lia.
    - exists b1, x2, s1. split; auto. destruct fuel; cbn [read_index]; rewrite Hl; reflexivity.
    - exists b1, x2, s1. split; auto.
      assert (N : is_loading s1 = false) by (destruct s1; auto; congruence).
      destruct fuel; cbn [read_index]; rewrite N, andb_false_r; reflexivity.
  Qed.

  Lemma safe_read_payload : forall src fuel b x s, steady src -> safe b -> b_load_count b < fuel ->
    exists b' x' s', read_payload p fuel src b x s = Ok (b', x', s') /\ safe b'.
  Proof.
    intros src fuel b x s Hs. revert b x s. induction fuel as [|fuel IH]; intros b x s Hb Hf; [lia|].
    cbn [read_payload]. destruct (b_is_index_loaded b) eqn:El; [|eauto].
    destruct (Hs x) as (x1 & c & E & Hc). rewrite E. cbn [bind].
    destruct (safe_put b x1 c Hb Hc) as (b1 & x2 & s1 & E1 & H1). rewrite E1. cbn [bind].
    destruct (put_progress p X c b x1 b1 x2 s1 E1) as [(Hlt & _)|[(Hl & _)|(Hl & _)]].
    - apply IH; auto. lia.
    - congruence.
    - exists b1, x2, s1. split; auto. destruct fuel; cbn [read_payload]; rewrite Hl; reflexivity.
  Qed.

  Lemma safe_read_from : forall src b x, steady src -> safe b ->
    exists b' x' s, read_from p src b x = Ok (b', x', s) /\ safe b'.
  Proof.
    intros src b x Hs Hb. unfold read_from.
    destruct (safe_read_index src (S (b_load_count b)) b x LOADING_PACKET Hs Hb ltac:(lia)) as (b1 & x1 & s1 & E & H1).
    rewrite E. cbn [bind]. apply safe_read_payload; auto.
  Qed.

  Lemma safe_write_loop : forall (dest : destination X) fuel b x, willing dest -> safe b ->
    length (obuf (b_bufs b)) - b_obuf_next b < fuel ->
    exists b' x', write_loop fuel dest b x = Ok (b', x') /\ safe b'.
  Proof.
    intros dest fuel b x Hd. revert b x. induction fuel as [|fuel IH]; intros b x Hb Hf; [lia|].
    cbn [write_loop]. destruct (is_loaded b) eqn:El; [|eauto].
    destruct (safe_get b Hb) as (b1 & c & E & H1 & Hl & Hn). rewrite E. cbn [bind].
    destruct (Hd c x) as [x1 Ex]. rewrite Ex. cbn [bind]. specialize (Hn El). apply IH; auto. lia.
  Qed.

  Lemma safe_step : forall o b x, harmless p kr ft o -> safe b ->
    exists b' x' v, step p o b x = Ok (b', x', v) /\ safe b'.
  Proof.
    intros o b x Ho Hb. destruct o as [byte| | |src|dest|src dest|i r|g|]; cbn [step harmless] in *.
    - destruct (safe_put b x byte Hb Ho) as (b' & x' & s & E & H). rewrite E. cbn [bind]. eauto 6.
    - destruct (safe_get b Hb) as (b' & c & E & H & _). rewrite E. cbn [bind]. eauto 6.
    - eauto 6.
    - destruct (safe_read_from src b x Ho Hb) as (b' & x' & s & E & H). rewrite E. cbn [bind]. eauto 6.
    - destruct (safe_write_loop dest (S (length (obuf (b_bufs b)))) b x Ho Hb ltac:(lia)) as (b' & x' & E & H).
      unfold write_to. rewrite E. cbn [bind]. eauto 6.
    - destruct Ho as [Hs Hd]. unfold process.
      destruct (safe_read_from src b x Hs Hb) as (b1 & x1 & s & E & H). rewrite E. cbn [bind].
      destruct (safe_write_loop dest (S (length (obuf (b_bufs b1)))) b1 x1 Hd H ltac:(lia)) as (b' & x' & E' & H').
      unfold write_to. destruct s; cbn [bind]; eauto 6. rewrite E'. cbn [bind]. eauto 6.
    - destruct Ho as [Hr Hw]. destruct Hb as (a & Ha & Hout & Hn & Hf).
      pose proof (step_refines p kr ft ni no dbl Hp Hk Hroom Hframing (Replace i r) (drained b) a x Ha Hr (or_intror I)) as S.
      unfold agrees in S. cbn [mc_step step] in S. destruct S as (b1 & E & H1).
      unfold replace_buffered in E |- *. cbn [drained with_next b_dispatcher] in E.
      destruct (replace (b_dispatcher b) i r) as [[d|f]|]; try discriminate. cbn [bind] in E |- *.
      injection E as <-. do 3 eexists. split; [reflexivity|].
      exists (mc_replace i (replacing r) a). split; [exact H1|]. split; [exact Hout|]. split; [exact Hn|].
      cbn [mc_replace mc_table]. clear - Hf Hw. revert i.
      induction Hf as [|f l Hf1 Hf2 IH]; intros [|i]; cbn [update]; constructor; auto.
    - eauto 6.
    - rewrite move_same. eauto 6.
  Qed.

  Lemma safe_run : forall ops b x, Forall (harmless p kr ft) ops -> safe b ->
    exists b' x' vs, run_ops p ops b x = Ok (b', x', vs) /\ safe b'.
  Proof.
    intros ops b x H. revert b x. induction H as [|o ops Ho _ IH]; intros b x Hb; cbn [run_ops]; [eauto 6|].
    destruct (safe_step o b x Ho Hb) as (b1 & x1 & v & E & H1). rewrite E. cbn [bind].
    destruct (IH b1 x1 H1) as (b2 & x2 & vs & E2 & H2). rewrite E2. cbn [bind]. eauto 6.
  Qed.
End Safe.

(** Whatever the bytes, their number, the way they are given and the other
    operations in between, even while a response is pending: a buffered
    dispatcher ends every operation, without undefined behaviour, if and only
    if its buffers are large enough for every request and every response and
    every parameter can be read from any bytes. *)
Theorem C90_buffered : forall (X : Type) p dbl (kr : keyring X) ft g g' b0 (x0 : X),
  wf_platform p -> keyring_ok p kr -> make_buffered dbl kr ft g g' = Some b0 ->
  (ft = WEAK_REFERENCE -> Forall (fun s => native_sizes s = wire_sizes (sig_params s)) (kr_signatures kr)) ->
  Forall (fun nf => well_behaved p kr (snd nf)) (kr_funcs kr) ->
  ((forall ops x, Forall (harmless p kr ft) ops -> exists b x' vs, run_ops p ops b0 x = Ok (b, x', vs))
   <-> Forall (fun s => wire_sizes (sig_params s) <= max_native kr
                        /\ wire_size_ret (sig_ret s) <= out_capacity dbl kr
                        /\ Forall (robust p (kr_e kr) (kr_m kr)) (sig_params s)) (kr_signatures kr)).
Proof.
  intros X p dbl kr ft g g' b0 x0 Hp Hk Hb Hweak Hwell. split.
  - intros H. apply Forall_forall. intros s Hs.
    destruct (make_buffered_spec dbl kr ft g g' b0 Hb) as (bufs & Eb & _ & Hl & Hlo).
    pose proof (w_pos p kr Hk) as Hw. set (w := kr_index_size kr) in *.
    destruct (In_nth_error _ _ Hs) as [i Hi].
    unfold kr_signatures in Hi. rewrite nth_error_map in Hi.
    destruct (nth_error (kr_funcs kr) i) as [[name f]|] eqn:Ei; [|discriminate]. cbn [option_map snd] in Hi.
    assert (Esf : f_sig f = s) by congruence. subst s.
    pose proof (keyring_sig p kr Hk _ Hs) as Hsig.
    set (idx := wire_bytes (kr_e kr) w (Z.of_nat i)).
    assert (Hli : length idx = w) by apply wire_bytes_length.
    assert (Hbi : Forall is_byte idx) by apply wire_bytes_bytes.
    assert (Hwf : well_behaved p kr f).
    { rewrite Forall_forall in Hwell. apply (Hwell (name, f) (nth_error_In _ _ Ei)). }
    assert (Hput : forall bs, Forall is_byte bs -> exists b x' vs, run_ops p (map Put bs) b0 x0 = Ok (b, x', vs)).
    { intros bs Hbs. apply H. apply Forall_map. exact Hbs. }
    assert (Hfit : wire_sizes (sig_params (f_sig f)) <= max_native kr).
    { destruct ft eqn:Eft.
      2:{ specialize (Hweak eq_refl). rewrite Forall_forall in Hweak. rewrite <- (Hweak _ Hs). apply native_le. auto. }
      destruct (Nat.le_gt_cases (wire_sizes (sig_params (f_sig f))) (max_native kr)) as [|Hgt]; auto. exfalso.
      assert (E1 : run_ops p (map Put idx) b0 x0
                   = Ok (index_read kr b0 (wire_sizes (sig_params (f_sig f))) idx, x0, repeat (OStatus LOADING_PACKET) w)).
      { rewrite (feed_index p kr ANY Hp Hk b0 (map snd (kr_funcs kr)) idx f (wire_sizes (sig_params (f_sig f)))).
        - destruct (Nat.eqb_spec (wire_sizes (sig_params (f_sig f))) 0); [lia|reflexivity].
        - rewrite Eb. apply make_table_ok.
        - rewrite Eb. reflexivity.
        - rewrite Eb. reflexivity.
        - rewrite Eb. reflexivity.
        - rewrite Eb. cbn [init_buffered b_bufs]. fold w. lia.
        - exact Hli.
        - exact Hbi.
        - apply (wire_index_nth X p kr i (name, f)); auto.
        - cbn [make_action input_size m_func]. rewrite tuple_size_wire; auto. eapply tys_layout. apply Hsig. }
      set (b1 := index_read kr b0 (wire_sizes (sig_params (f_sig f))) idx) in *.
      assert (L1 : length (ibuf (b_bufs b1)) = max_native kr + w).
      { unfold b1, index_read. cbn [b_bufs]. rewrite ibuf_set_ibuf, Eb. cbn [init_buffered b_bufs].
        rewrite splice_length; lia. }
      assert (E2 := feed_more p kr (repeat 0%Z (max_native kr)) b1 x0).
      rewrite repeat_length in E2.
      specialize (E2 ltac:(unfold b1, index_read; cbn [b_load_count]; lia)
                     ltac:(rewrite L1; unfold b1, index_read; cbn [b_ibuf_next]; fold w; lia)).
      destruct (Hput (idx ++ repeat 0%Z (max_native kr) ++ [0%Z])) as (b & x' & vs & R).
      { apply Forall_app. split; auto. apply Forall_app. split.
        - apply Forall_forall. intros z Hz. apply repeat_spec in Hz. subst. unfold is_byte. lia.
        - constructor; auto. unfold is_byte. lia. }
      rewrite map_app, run_ops_app, E1 in R. cbn [bind] in R. rewrite map_app, run_ops_app, E2 in R.
      cbn [bind map run_ops step] in R. unfold put in R.
      rewrite store_oob in R; [discriminate|]. cbn [b_bufs b_ibuf_next]. rewrite ibuf_set_ibuf, splice_length.
      - rewrite L1. unfold b1, index_read. cbn [b_ibuf_next]. fold w. lia.
      - rewrite repeat_length, L1. unfold b1, index_read. cbn [b_ibuf_next]. fold w. lia. }
    split; [exact Hfit|].
    assert (Hin : input_size (make_action ft (kr_e kr) (kr_m kr) f) = Ok (wire_sizes (params f))).
    { destruct ft; cbn [make_action input_size m_func].
      - rewrite tuple_size_wire; auto. eapply tys_layout. apply Hsig.
      - rewrite parameters_native. specialize (Hweak eq_refl). rewrite Forall_forall in Hweak.
        rewrite (Hweak _ Hs). reflexivity. }
    assert (Hreq : forall payload, length payload = wire_sizes (params f) -> Forall is_byte payload ->
              decodable_list p (kr_e kr) (kr_m kr) (params f) payload
              /\ wire_size_ret (ret f) <= out_capacity dbl kr).
    { intros payload Hlp Hbp.
      destruct (Hput (idx ++ payload) ltac:(apply Forall_app; auto)) as (b & x' & vs & R).
      destruct (feed_request p kr ft Hp Hk b0 (map snd (kr_funcs kr)) idx payload f x0) as (l & c & n & E); auto.
      { rewrite Eb. apply make_table_ok. } { rewrite Eb. reflexivity. } { rewrite Eb. reflexivity. } { rewrite Eb. reflexivity. }
      { rewrite Eb. cbn [init_buffered b_bufs]. unfold params. fold w. lia. }
      { apply (wire_index_nth X p kr i (name, f)); auto. }
      rewrite R in E. symmetry in E. ok_inv E q. destruct q as [b2 y]. clear E.
      set (b3 := mk_buffered _ _ _ _ _ _ _) in E0.
      assert (Hlk : length (idx ++ payload) = w + wire_sizes (params f)) by (rewrite app_length; lia).
      assert (L3 : length (ibuf (b_bufs b3)) = max_native kr + w).
      { unfold b3. cbn [b_bufs]. rewrite ibuf_set_ibuf, Eb. cbn [init_buffered b_bufs].
        unfold params in Hlk. rewrite splice_length; lia. }
      assert (S3 : slice (ibuf (b_bufs b3)) 0 (length (idx ++ payload)) = idx ++ payload).
      { unfold b3. cbn [b_bufs]. rewrite ibuf_set_ibuf. apply slice_splice_same. rewrite Eb. cbn [init_buffered b_bufs].
        unfold params in Hlk. lia. }
      assert (T3 : table_ok kr ft (b_dispatcher b3) (map snd (kr_funcs kr))).
      { unfold b3. cbn [b_dispatcher]. rewrite Eb. apply make_table_ok. }
      assert (O3 : length (obuf (b_bufs b3)) = out_capacity dbl kr).
      { unfold b3. cbn [b_bufs]. rewrite Eb. cbn [init_buffered b_bufs]. rewrite obuf_set_ibuf; auto.
        unfold params in Hlk. rewrite splice_length; lia. }
      assert (F1 : firstn w (idx ++ payload) = idx) by (rewrite <- Hli, firstn_app, firstn_all, Nat.sub_diag; apply app_nil_r).
      assert (F2 : skipn w (idx ++ payload) = payload) by (rewrite <- Hli, skipn_app, skipn_all, Nat.sub_diag; reflexivity).
      assert (Hb3 : Forall is_byte (idx ++ payload)) by (apply Forall_app; auto).
      assert (D : decodable_list p (kr_e kr) (kr_m kr) (params f) payload).
      { pose proof E0 as C. unfold call_loaded in C.
        rewrite (get_index_frame p kr ft w Hp Hk (le_n _) _ (map snd (kr_funcs kr)) _ _ _ (idx ++ payload)) in C; auto.
        2:{ fold w. lia. }
        2:{ rewrite L3. unfold params in Hlk. lia. }
        fold w in C. cbn [bind] in C. rewrite F1 in C. unfold action_at, framed_dispatcher in C. cbn [d_actions] in C.
        destruct T3 as (K1 & K2 & K3 & K4). rewrite K3, map_map, nth_error_map in C.
        pose proof (wire_index_nth X p kr i (name, f) Hk Ei) as Hn. cbn [snd] in Hn. fold w idx in Hn. rewrite Hn in C.
        cbn [option_map bind] in C.
        assert (Efa : framed_action (make_action ft (kr_e kr) (kr_m kr) f) = make_action ft (kr_e kr) (kr_m kr) (framed f))
          by (destruct ft; reflexivity).
        rewrite Efa in C. ok_inv C w2.
        rewrite (run_call p _ _ (mk_model (kr_e kr) (kr_m kr) (framed f))) in E by (destruct ft; reflexivity).
        cbn [m_e m_m m_func] in E.
        eapply (call_decodable p _ (kr_e kr) (kr_m kr) (framed f)); [exact Hp|exact Hsig| |exact Hbp|exact E].
        change (sig_params (f_sig (framed f))) with (params f).
        rewrite pull_frame by (rewrite L3; unfold params in *; lia). do 2 f_equal.
        transitivity (skipn w (slice (ibuf (b_bufs b3)) 0 (length (idx ++ payload)))); [|rewrite S3; auto].
        rewrite skipn_slice. cbn [Nat.add]. f_equal. lia. }
      split; [exact D|].
      pose proof (call_loaded_push p kr ft Hp Hk b3 (map snd (kr_funcs kr)) (idx ++ payload) f x0 T3 Hsig Hlk) as C.
      specialize (C ltac:(rewrite L3; unfold params in Hlk; lia) S3 Hb3).
      fold w in C. rewrite F1, F2 in C. specialize (C (wire_index_nth X p kr i (name, f) Hk Ei) D).
      assert (Hret := Hwf (dec_list (kr_e kr) (kr_m kr) (params f) payload) x0).
      specialize (Hret ltac:(apply dec_list_has_types; auto;
                             eapply Forall_impl; [|apply Hsig]; intros t Ht; apply Ht)).
      destruct (f_call f _ x0) as [x1 r]. cbn [snd] in Hret. specialize (C Hret). rewrite O3 in C.
      destruct (Nat.leb_spec (wire_size_ret (ret f)) (out_capacity dbl kr)); auto. congruence. }
    split.
    + destruct (some_decodable p (kr_e kr) (kr_m kr) (params f)) as (bs & B1 & B2 & _); [apply Hsig|].
      apply (Hreq bs B1 B2).
    + destruct (robust_dec p (kr_e kr) (kr_m kr) (TUser 0 (params f))) as [R|R].
      * apply robust_user in R. exact R.
      * exfalso. destruct (not_robust_list p (kr_e kr) (kr_m kr) (params f)) as (bs & B1 & B2 & B3); [apply Hsig| |].
        { intros F. apply R. apply robust_user. auto. }
        apply B3. apply (Hreq bs B1 B2).
  - intros Hall ops x Hops.
    assert (Hs : well_sized dbl kr ft).
    { unfold well_sized. rewrite Forall_forall in Hall |- *. intros s Hs. destruct (Hall s Hs) as (A1 & A2 & _).
      split; auto. intros E. specialize (Hweak E). rewrite Forall_forall in Hweak. auto. }
    destruct (make_buffered_represents X p dbl kr ft g g' b0 Hk Hs Hb) as (ni & no & Hw & Hf & Hrep).
    destruct (safe_run p dbl kr ft ni no Hp Hk Hw Hf) with (ops := ops) (b := b0) (x := x) as (b & x' & vs & E & _); eauto.
    + rewrite Forall_forall in Hall |- *. intros s Hin. apply (Hall s Hin).
    + exists (fresh kr). destruct (make_buffered_spec dbl kr ft g g' b0 Hb) as (bufs & Eb & _).
      split; [|split; [reflexivity|split]].
      * rewrite Eb in *. exact Hrep.
      * rewrite Eb. cbn. lia.
      * cbn [fresh mc_table]. apply Forall_map. exact Hwell.
Qed.

(** The same of a dispatcher which reads the request and writes the response
    right away, as long as it does not run out of bytes. *)
Theorem C90_dispatcher : forall (S : Type) p (kr : keyring S) ft (s0 : S),
  wf_platform p -> keyring_ok p kr ->
  Forall (fun nf => well_behaved p kr (snd nf)) (kr_funcs kr) ->
  ((forall bytes s, Forall is_byte bytes ->
      Forall (fun sg => kr_index_size kr + wire_sizes (sig_params sg) <= length bytes) (kr_signatures kr) ->
      kr_index_size kr <= length bytes ->
      exists x i, dispatch p (make_dispatcher (lift_keyring kr) ft) take_wire give_wire (mk_wires bytes [] s) = Ok (x, i))
   <-> Forall (fun s => Forall (robust p (kr_e kr) (kr_m kr)) (sig_params s)) (kr_signatures kr)).
Proof.
  intros S p kr ft s0 Hp Hk Hwell. split.
  - intros H. apply Forall_forall. intros sg Hs.
    destruct (robust_dec p (kr_e kr) (kr_m kr) (TUser 0 (sig_params sg))) as [R|R]; [apply robust_user in R; exact R|].
    exfalso. pose proof (keyring_sig p kr Hk _ Hs) as Hsig.
    destruct (not_robust_list p (kr_e kr) (kr_m kr) (sig_params sg)) as (bs & B1 & B2 & B3); [apply Hsig| |].
    { intros F. apply R. apply robust_user. auto. }
    apply B3. clear B3 R.
    destruct (In_nth_error _ _ Hs) as [i Hi]. unfold kr_signatures in Hi. rewrite nth_error_map in Hi.
    destruct (nth_error (kr_funcs kr) i) as [[name f]|] eqn:Ei; [|discriminate]. cbn [option_map snd] in Hi.
    assert (Esf : f_sig f = sg) by congruence. subst sg.
    set (idx := wire_bytes (kr_e kr) (kr_index_size kr) (Z.of_nat i)).
    assert (Hli : length idx = kr_index_size kr) by apply wire_bytes_length.
    set (n := list_max (map (fun s => wire_sizes (sig_params s)) (kr_signatures kr))).
    destruct (H (idx ++ bs ++ repeat 0%Z n) s0) as (x & j & E).
    { apply Forall_app. split; [apply wire_bytes_bytes|]. apply Forall_app. split; auto.
      apply Forall_forall. intros z Hz. apply repeat_spec in Hz. subst. unfold is_byte. lia. }
    { apply Forall_forall. intros s Hin. rewrite !app_length, repeat_length.
      pose proof (proj1 (list_max_le (map (fun s => wire_sizes (sig_params s)) (kr_signatures kr)) n) (le_n _)) as M.
      rewrite Forall_forall in M. specialize (M _ (in_map (fun s => wire_sizes (sig_params s)) _ _ Hin)). lia. }
    { rewrite app_length. lia. }
    rewrite dispatch_wires in E; auto; [|apply wire_bytes_bytes].
    assert (Hj : Z.to_nat (wire_value (kr_e kr) idx) = i).
    { unfold idx. apply wire_index; [apply Hk|]. apply nth_error_Some. congruence. }
    rewrite Hj, Ei in E. cbn [snd] in E. ok_inv E y.
    eapply (call_decodable p _ (kr_e kr) (kr_m kr) (lift_func f)); [exact Hp|exact Hsig| |exact B2|exact E0].
    change (sig_params (f_sig (lift_func f))) with (sig_params (f_sig f)). apply pull_wires. auto.
  - intros Hrob bytes s Hb Hlen Hw.
    rewrite <- (firstn_skipn (kr_index_size kr) bytes). set (idx := firstn (kr_index_size kr) bytes).
    assert (Hli : length idx = kr_index_size kr) by (unfold idx; rewrite firstn_length; lia).
    rewrite dispatch_wires; auto; [|unfold idx; apply firstn_bytes; auto].
    destruct (nth_error (kr_funcs kr) _) as [[name f]|] eqn:Ei; [|eauto]. cbn [snd].
    assert (Hs : In (f_sig f) (kr_signatures kr)).
    { unfold kr_signatures. apply nth_error_In in Ei. apply in_map_iff. exists (name, f). auto. }
    pose proof (keyring_sig p kr Hk _ Hs) as Hsig. rewrite Forall_forall in Hlen, Hrob, Hwell.
    specialize (Hlen _ Hs). specialize (Hrob _ Hs). specialize (Hwell _ (nth_error_In _ _ Ei)). cbn [snd] in Hwell.
    set (rest := skipn (kr_index_size kr) bytes).
    assert (Hlr : wire_sizes (sig_params (f_sig f)) <= length rest) by (unfold rest; rewrite skipn_length; lia).
    assert (Er : rest = firstn (wire_sizes (sig_params (f_sig f))) rest ++ skipn (wire_sizes (sig_params (f_sig f))) rest)
      by (symmetry; apply firstn_skipn).
    set (bs := firstn (wire_sizes (sig_params (f_sig f))) rest) in *.
    assert (Hlb : length bs = wire_sizes (sig_params (f_sig f))) by (unfold bs; rewrite firstn_length; lia).
    assert (Hbb : Forall is_byte bs) by (unfold bs, rest; apply firstn_bytes, skipn_bytes; auto).
    rewrite Er. rewrite call_ok; auto.
    + unfold call_spec. change (sig_params (f_sig (lift_func f))) with (sig_params (f_sig f)).
      rewrite pull_wires by auto. cbn [bind]. destruct (f_call (lift_func f) _ _) as [[i2 o2 s2] r].
      rewrite give_wires. cbn [bind]. eauto.
    + intros x1 l E. change (sig_params (f_sig (lift_func f))) with (sig_params (f_sig f)) in *.
      rewrite pull_wires in E by auto. injection E as <- <-. split; auto. split; [apply robust_list; auto|].
      change (sig_ret (f_sig (lift_func f))) with (sig_ret (f_sig f)).
      specialize (Hwell (dec_list (kr_e kr) (kr_m kr) (sig_params (f_sig f)) bs) s).
      cbn [lift_func f_call w_user]. destruct (f_call f _ s) as [s2 r]. apply Hwell.
      apply dec_list_has_types; auto. eapply Forall_impl; [|apply Hsig]. intros t Ht. apply Ht.
Qed.

(** Callbacks over a state which records the calls: one which answers to any
    arguments, one which takes a [bool]. *)
Definition ex_sum : func log :=
  mk_func (mk_sig [TSig 4; TUns 1] (Some (TUns 2)))
    (fun args s => ((1, args) :: s, match args with [VInt a; VInt b] => VInt ((a + b) mod 65536) | _ => VInt 0 end)).
Definition ex_lamp : func log :=
  mk_func (mk_sig [TBool] None) (fun args s => ((2, args) :: s, VInt 0)).

Definition ex_guarded : keyring log := mk_keyring LITTLE TWOS_COMPLEMENT [(1, ex_sum)].
Definition ex_exposed : keyring log := mk_keyring LITTLE TWOS_COMPLEMENT [(1, ex_sum); (2, ex_lamp)].

Lemma ex_sum_behaves : forall p (kr : keyring log), well_behaved p kr ex_sum.
Proof.
  intros p kr args x H. cbn [ex_sum f_sig sig_params sig_ret ret_encodable f_call snd] in *.
  split; [|exact I]. inversion H as [|? a ? l Ha H1]; subst. inversion H1 as [|? b ? l2 Hb H2]; subst. inversion H2; subst.
  destruct a as [a|]; [|contradiction]. destruct b as [b|]; [|contradiction].
  cbn [has_type]. pose proof (Z.mod_pos_bound (a + b) 65536 ltac:(lia)). change (space 2) with 65536%Z. lia.
Qed.

Lemma ex_guarded_runs :
  match make_single ex_guarded ANY [] with
  | Some b => match run_ops pc_native (map Put [0; 0; 0; 0; 128; 255; 77; 0; 1]%Z) b [] with
              | Ok (_, _, outs) => outs = repeat (OStatus LOADING_PACKET) 5
                  ++ [OStatus RESOLVED_PACKET; OStatus DROPPED_PACKET; OStatus LOADING_PACKET; OStatus LOADING_PACKET]
              | _ => False
              end
  | None => False
  end.
Proof. vm_compute. reflexivity. Qed.

Example C90_example : exists b,
  keyring_ok pc_native ex_guarded /\ make_single ex_guarded ANY [] = Some b
  /\ Forall (fun nf => well_behaved pc_native ex_guarded (snd nf)) (kr_funcs ex_guarded)
  /\ Forall (fun s => wire_sizes (sig_params s) <= max_native ex_guarded
                      /\ wire_size_ret (sig_ret s) <= out_capacity false ex_guarded
                      /\ Forall (robust pc_native LITTLE TWOS_COMPLEMENT) (sig_params s)) (kr_signatures ex_guarded)
  /\ (exists b' x', run_ops pc_native (map Put [0; 0; 0; 0; 128; 255; 77; 0; 1]%Z) b [] = Ok
        (b', x', repeat (OStatus LOADING_PACKET) 5 ++ [OStatus RESOLVED_PACKET; OStatus DROPPED_PACKET;
                 OStatus LOADING_PACKET; OStatus LOADING_PACKET])).
Proof.
  pose proof ex_guarded_runs as R. destruct (make_single ex_guarded ANY []) as [b|]; [|contradiction].
  exists b. split; [|split; [reflexivity|split; [|split]]].
  - split; [vm_compute; reflexivity|]. cbn [ex_guarded kr_funcs kr_e kr_m].
    list_cases; split; cbn [snd f_sig sig_params sig_ret ex_sum ret_ty_ok]; tyoks.
  - constructor; [apply ex_sum_behaves|constructor].
  - constructor; [|constructor]. split; [vm_compute; lia|]. split; [vm_compute; lia|].
    constructor; [intros _; vm_compute; auto|constructor; [exact I|constructor]].
  - destruct (run_ops pc_native (map Put [0; 0; 0; 0; 128; 255; 77; 0; 1]%Z) b []) as [[[b' x'] outs]|];
      try contradiction.
    subst outs. exists b', x'. reflexivity.
Qed.

(** A [bool] among the parameters is enough for a stranger to cause undefined
    behaviour on a host which declares its byte order; a signed integer is
    enough on a host which does not declare how it represents them. *)
Theorem C90_refuted : exists (kr : keyring log) b b' b'',
  keyring_ok pc_native kr /\ Forall (fun nf => well_behaved pc_native kr (snd nf)) (kr_funcs kr)
  /\ make_double kr ANY [] [] = Some b /\ make_single kr ANY [] = Some b'
  /\ run_ops pc_native [Put 1; Put 2]%Z b [] = Fault TrapRepr
  /\ run_ops pc_native [Put 1; Put 2]%Z b' [] = Fault TrapRepr
  /\ keyring_ok pc_portable ex_guarded /\ make_double ex_guarded ANY [] [] = Some b''
  /\ run_ops pc_portable (map Put [0; 0; 0; 0; 128; 7]%Z) b'' [] = Fault SignedOverflow.
Proof.
  exists ex_exposed. do 3 eexists. split; [|split; [|split; [reflexivity|split; [reflexivity|split; [|split; [|split; [|split; [reflexivity|]]]]]]]].
  - split; [vm_compute; reflexivity|]. cbn [ex_exposed kr_funcs kr_e kr_m].
    list_cases; split; cbn [snd f_sig sig_params sig_ret ex_sum ex_lamp ret_ty_ok]; tyoks.
  - constructor; [apply ex_sum_behaves|constructor; [|constructor]].
    intros args x H. cbn [snd ex_lamp f_sig sig_ret ret_encodable]. exact I.
  - vm_compute. reflexivity.
  - vm_compute. reflexivity.
  - split; [vm_compute; reflexivity|]. cbn [ex_guarded kr_funcs kr_e kr_m].
    list_cases; split; cbn [snd f_sig sig_params sig_ret ex_sum ret_ty_ok]; tyoks.
  - vm_compute. reflexivity.
Qed.

Print Assumptions C90_types.
Print Assumptions C90_buffered.
Print Assumptions C90_dispatcher.
Print Assumptions C90_refuted.
