(** Property C104: a buffered dispatcher and a plain dispatcher which hold the
    same callbacks are interchangeable. *)

From Coq Require Import List ZArith Lia Bool Arith.
From Verif Require Import Base CInt Spec IntModel Conditions MemFacts TypeLevel Serial TupleModel
  TypeLevelProofs IntProofs SignedProofs SerialProofs CodecFacts Bounds TupleProofs SpecRpc Rpc RpcProofs
  Hosts Closed PropertiesTypes PropertiesRpc Buffered SpecBuffered BufferedProofs PropertiesBuffered
  PropertiesBuffers PropertiesPackets PropertiesStreams Firmware PropertiesCallee PropertiesRecovery
  PropertiesNoise.
Import ListNotations.
Open Scope nat_scope.

(** The dispatcher [d], whatever the storage of its actions, is made for the
    keyring [kr] and holds the callbacks [table]. *)
Definition holds {X : Type} (kr : keyring X) (table : list (func X)) (d : dispatcher X) : Prop :=
  exists ft, d_keyring d = kr /\ d_features d = ft /\ d_actions d = map (make_action ft (kr_e kr) (kr_m kr)) table.

(** What the source will give are bytes. *)
Definition byte_source {X : Type} (src : source X) (x : X) : Prop :=
  forall n x' bs, pull src n x = Ok (x', bs) -> Forall is_byte bs.

(** The next request of the source, if it is one, can be decoded and answered
    without undefined behaviour. *)
Definition good_request {X : Type} (p : platform) (kr : keyring X) (table : list (func X)) (src : source X) (x : X) : Prop :=
  forall x1 idx f x2 bs,
    pull src (kr_index_size kr) x = Ok (x1, idx) ->
    nth_error table (Z.to_nat (wire_value (kr_e kr) idx)) = Some f ->
    pull src (wire_sizes (sig_params (f_sig f))) x1 = Ok (x2, bs) ->
    decodable_list p (kr_e kr) (kr_m kr) (sig_params (f_sig f)) bs
    /\ ret_encodable p (kr_m kr) (sig_ret (f_sig f))
         (snd (f_call f (dec_list (kr_e kr) (kr_m kr) (sig_params (f_sig f)) bs) x2)).

(** ** Proofs *)

Lemma byte_source_after : forall (X : Type) (src : source X) n x x' bs, byte_source src x ->
  pull src n x = Ok (x', bs) -> byte_source src x'.
Proof.
  intros X src n x x' bs H E k y l El. assert (Forall is_byte (bs ++ l)) as H2.
  { apply (H (n + k) y). rewrite pull_app, E. cbn [bind]. rewrite El. reflexivity. }
  apply Forall_app in H2. apply H2.
Qed.

Section Same.
  Context {X : Type}.
  Variables (p : platform) (kr : keyring X) (table : list (func X)).
  Hypothesis Hp : wf_platform p.
  Hypothesis Hk : keyring_ok p kr.
  Hypothesis Ht : map f_sig table = kr_signatures kr.
  Let w := kr_index_size kr.
  Let e := kr_e kr.
  Let m := kr_m kr.

  Lemma same_length : length table = length (kr_funcs kr).
  Proof. rewrite <- (map_length f_sig table), Ht. unfold kr_signatures. apply map_length. Qed.

  Lemma table_sig_ok : forall i f, nth_error table i = Some f -> sig_ok p e m (f_sig f).
  Proof.
    intros i f H. destruct Hk as [_ Hf].
    assert (H1 : nth_error (map f_sig table) i = Some (f_sig f)) by (rewrite nth_error_map, H; reflexivity).
    rewrite Ht in H1. unfold kr_signatures in H1. rewrite nth_error_map in H1.
    destruct (nth_error (kr_funcs kr) i) as [nf|] eqn:E; [|discriminate]. cbn in H1.
    assert (E' : f_sig (snd nf) = f_sig f) by congruence. rewrite <- E'.
    rewrite Forall_forall in Hf. apply (Hf nf). eapply nth_error_In; eauto.
  Qed.

  (** What a plain dispatcher does with one request. *)
  Definition one_request (src : source X) (dest : destination X) (x : X) : res (X * nat) :=
    '(x1, idx) <- pull src w x;;
    let i := Z.to_nat (wire_value e idx) in
    match nth_error table i with
    | None => Ok (x1, i)
    | Some f => x2 <- call_spec e m f src dest x1;; Ok (x2, i)
    end.

  Lemma dispatch_one : forall d src dest x, holds kr table d -> byte_source src x -> good_request p kr table src x ->
    dispatch p d src dest x = one_request src dest x.
  Proof.
    intros d src dest x (ft & Ed & _ & Ea) Hb Hg. unfold dispatch, one_request.
    rewrite get_index_ok; auto.
    2:{ rewrite Ed. apply Hk. }
    2:{ intros x1 bs E. eapply Hb; eauto. }
    rewrite Ed. fold w e. destruct (pull src w x) as [[x1 idx]|flt] eqn:E; cbn [bind]; auto.
    set (i := Z.to_nat (wire_value e idx)).
    destruct (index_size X kr (proj1 Hk)) as (_ & _ & Hsz). unfold d_size. rewrite Ed, Hsz, <- same_length.
    destruct (nth_error table i) as [f|] eqn:Ei.
    - destruct (Nat.ltb_spec i (length table)) as [_|L].
      2:{ apply nth_error_None in L. congruence. }
      unfold action_at. rewrite Ea, nth_error_map, Ei. cbn [bind option_map].
      rewrite (run_call p X _ (mk_model e m f)) by (destruct ft; reflexivity). cbn [m_e m_m m_func].
      rewrite call_ok; auto.
      + eapply table_sig_ok; eauto.
      + intros x2 bs E2. split; [eapply byte_source_after; eauto|].
        exact (Hg x1 idx f x2 bs E Ei E2).
    - apply nth_error_None in Ei. destruct (Nat.ltb_spec i (length table)); [lia|]. reflexivity.
  Qed.

  (** What a buffered dispatcher which awaits a request does with it. *)
  Lemma process_one : forall src dest x a, mc_table a = table -> mc_in a = [] -> byte_source src x ->
    mc_process (format_of kr) src dest a x
    = ('(x', i) <- one_request src dest x;;
       Ok (if i <? length table then (mk_machine [] [] table, x', RESOLVED_PACKET)
           else (mk_machine [] (mc_out a) table, x', DROPPED_PACKET))).
  Proof.
    intros src dest x a Et Ei Hb. destruct (index_size X kr (proj1 Hk)) as (Hw & _ & _). fold w in Hw.
    assert (Hfw : fm_w (format_of kr) = w) by reflexivity.
    assert (Hfe : fm_e (format_of kr) = e) by reflexivity.
    assert (Hfm : fm_m (format_of kr) = m) by reflexivity.
    revert Hfw Hfe Hfm. generalize (format_of kr) as fm. intros fm Hfw Hfe Hfm.
    unfold mc_process, mc_read, mc_fetch, one_request. rewrite Et, Ei.
    unfold missing at 1. cbn [length]. rewrite Hfw.
    destruct (Nat.ltb_spec 0 w) as [_|]; [|lia]. rewrite Nat.sub_0_r.
    destruct (pull src w x) as [[x1 idx]|flt] eqn:E; cbn [bind]; auto.
    pose proof (pull_length X src w x x1 idx E) as L. set (i := Z.to_nat (wire_value e idx)).
    assert (Hd : forall l, designated fm table (idx ++ l) = nth_error table i).
    { intros l. unfold designated. rewrite Hfw, Hfe, <- L, firstn_app, firstn_all, Nat.sub_diag, app_nil_r. reflexivity. }
    assert (Hd0 : designated fm table idx = nth_error table i) by (rewrite <- (Hd []), app_nil_r; reflexivity).
    cbn [app]. unfold missing. rewrite L, Hfw, Hd0.
    destruct (Nat.ltb_spec w w) as [|_]; [lia|].
    destruct (nth_error table i) as [f|] eqn:Ef.
    - unfold params. replace (w + wire_sizes (sig_params (f_sig f)) - w) with (wire_sizes (sig_params (f_sig f))) by lia.
      unfold call_spec.
      destruct (pull src (wire_sizes (sig_params (f_sig f))) x1) as [[x2 bs]|flt] eqn:E2; cbn [bind]; auto.
      pose proof (pull_length X src _ x1 x2 bs E2) as L2.
      unfold received. rewrite Et. unfold examine. rewrite Hd, Hfw, app_length, L, L2.
      destruct (Nat.ltb_spec (w + wire_sizes (sig_params (f_sig f))) w) as [|_]; [lia|]. unfold params.
      destruct (Nat.ltb_spec (w + wire_sizes (sig_params (f_sig f))) (w + wire_sizes (sig_params (f_sig f)))) as [|_]; [lia|].
      unfold serve. rewrite Hfe, Hfm.
      replace (skipn w (idx ++ bs)) with bs by (rewrite <- L, skipn_app, skipn_all, Nat.sub_diag; reflexivity).
      unfold params, ret.
      destruct (f_call f (dec_list e m (sig_params (f_sig f)) bs) x2) as [x3 r]. unfold mc_write. cbn [mc_out mc_in mc_table].
      destruct (push dest (response e m (sig_ret (f_sig f)) r) x3) as [x4|flt]; cbn [bind]; auto.
      destruct (Nat.ltb_spec i (length table)) as [_|Hge]; auto. apply nth_error_None in Hge. congruence.
    - cbn [pull bind]. rewrite app_nil_r. unfold received, examine. rewrite Et, L, Hfw, Hd0.
      destruct (Nat.ltb_spec w w) as [|_]; [lia|].
      apply nth_error_None in Ef. destruct (Nat.ltb_spec i (length table)); [lia|]. reflexivity.
  Qed.

  (** The request is one the buffered dispatcher may read. *)
  Lemma good_readable : forall src x a, mc_table a = table -> mc_in a = [] -> byte_source src x ->
    good_request p kr table src x -> readable (format_of kr) p src a x.
  Proof.
    intros src x a Et Ei Hb Hg. destruct (index_size X kr (proj1 Hk)) as (Hw & _ & _). fold w in Hw.
    unfold readable, gives_bytes. split; [|split].
    - intros k y bs _ E. eapply Hb; eauto.
    - intros y bs E0 k y' bs' _ E. eapply byte_source_after; eauto.
    - intros x' bs E. unfold mc_fetch in E. rewrite Et, Ei in *. cbn [app] in E.
      assert (M0 : missing (format_of kr) table [] = w).
      { unfold missing. cbn [length]. change (fm_w (format_of kr)) with w.
        destruct (Nat.ltb_spec 0 w); lia. }
      rewrite M0 in E. ok_inv E r. destruct r as [x1 idx]. pose proof (pull_length X src w x x1 idx E0) as L.
      ok_inv E r. destruct r as [x2 bs2]. assert (bs = idx ++ bs2 /\ x' = x2) as [-> ->] by (split; congruence).
      unfold servable. destruct (examine (format_of kr) table (idx ++ bs2)) as [| |f payload] eqn:Ex; auto.
      assert (Hd : designated (format_of kr) table (idx ++ bs2)
                   = nth_error table (Z.to_nat (wire_value e idx))).
      { unfold designated. change (fm_w (format_of kr)) with w. change (fm_e (format_of kr)) with e.
        rewrite <- L, firstn_app, firstn_all, Nat.sub_diag, app_nil_r. reflexivity. }
      assert (Hd0 : designated (format_of kr) table idx = nth_error table (Z.to_nat (wire_value e idx))).
      { unfold designated. change (fm_w (format_of kr)) with w. change (fm_e (format_of kr)) with e.
        rewrite <- L, firstn_all. reflexivity. }
      unfold examine in Ex. rewrite Hd in Ex. change (fm_w (format_of kr)) with w in Ex.
      destruct (Nat.ltb_spec (length (idx ++ bs2)) w); [discriminate|].
      destruct (nth_error table (Z.to_nat (wire_value e idx))) as [g|] eqn:Eg; [|discriminate].
      destruct (Nat.ltb_spec (length (idx ++ bs2)) (w + wire_sizes (params g))); [discriminate|].
      assert (g = f) by congruence. subst g.
      assert (payload = bs2).
      { assert (payload = skipn w (idx ++ bs2)) by congruence. subst payload.
        rewrite <- L, skipn_app, skipn_all, Nat.sub_diag. reflexivity. }
      subst payload. unfold params, ret in *.
      unfold missing in E1. rewrite Hd0, L in E1. change (fm_w (format_of kr)) with w in E1.
      destruct (Nat.ltb_spec w w); [lia|]. unfold params in E1.
      replace (w + wire_sizes (sig_params (f_sig f)) - w) with (wire_sizes (sig_params (f_sig f))) in E1 by lia.
      exact (Hg x1 idx f x2 bs2 E0 Eg E1).
  Qed.
End Same.

(** ** C104 *)

(** One request: the same effects on the world, in the same order, the same
    failures of the source and of the destination; the index which
    [operator()] of the plain dispatcher returns is the status. *)
Theorem C104_request : forall (X : Type) p dbl (kr : keyring X) ft b a x d src (dest : destination X),
  wf_platform p -> keyring_ok p kr -> well_sized dbl kr ft -> reached p dbl kr ft b a x ->
  mc_in a = [] -> quiet dbl a -> holds kr (mc_table a) d -> byte_source src x -> good_request p kr (mc_table a) src x ->
  match dispatch p d src dest x with
  | Ok (x', i) =>
      exists b', process p src dest b x
                 = Ok (b', x', if i <? length (kr_funcs kr) then RESOLVED_PACKET else DROPPED_PACKET)
        /\ reached p dbl kr ft b'
             (mk_machine [] (if i <? length (kr_funcs kr) then [] else mc_out a) (mc_table a)) x'
  | Fault flt => process p src dest b x = Fault flt
  end.
Proof.
  intros X p dbl kr ft b a x d src dest Hp Hk Hs H Hin Hq Hd Hb Hg.
  pose proof (reached_table p dbl kr ft Hp Hk Hs b a x H) as Ht.
  assert (Hl : legitimate p dbl kr ft (Process src dest) a x).
  { split; [|exact Hq]. exact (good_readable p kr (mc_table a) Hk src x a eq_refl Hin Hb Hg). }
  pose proof (process_one p kr (mc_table a) Hk src dest x a eq_refl Hin Hb) as E.
  rewrite (dispatch_one p kr (mc_table a) Hp Hk Ht d src dest x Hd Hb Hg).
  rewrite <- (same_length kr (mc_table a) Ht).
  destruct (one_request kr (mc_table a) src dest x) as [[x' i]|flt]; cbn [bind] in E.
  - destruct (reached_step p dbl kr ft Hp Hk Hs (Process src dest) b a x
                (mk_machine [] (if i <? length (mc_table a) then [] else mc_out a) (mc_table a)) x'
                (OStatus (if i <? length (mc_table a) then RESOLVED_PACKET else DROPPED_PACKET)) H Hl) as (b' & E' & H').
    { cbn [mc_step]. rewrite E. destruct (i <? length (mc_table a)); reflexivity. }
    exists b'. split; auto. cbn [step] in E'. ok_inv E' q. destruct q as [[b1 y] s]. congruence.
  - assert (E' : mc_step (format_of kr) (Process src dest) a x = Fault flt) by (cbn [mc_step]; rewrite E; reflexivity).
    pose proof (reached_fault p dbl kr ft Hp Hk Hs _ b a x flt H Hl E') as E2.
    cbn [step] in E2. destruct (process p src dest b x) as [[[b1 y] s]|]; [discriminate|]. cbn [bind] in E2. congruence.
Qed.

(** [n] requests in a row. *)
Fixpoint dispatches {X : Type} (p : platform) (d : dispatcher X) (src : source X) (dest : destination X) (n : nat) (x : X)
    : res (X * list nat) :=
  match n with
  | 0 => Ok (x, [])
  | S n' =>
      '(x1, i) <- dispatch p d src dest x;;
      '(x2, is) <- dispatches p d src dest n' x1;;
      Ok (x2, i :: is)
  end.

Theorem C104_requests : forall (X : Type) p dbl (kr : keyring X) ft d src (dest : destination X) n b a x,
  wf_platform p -> keyring_ok p kr -> well_sized dbl kr ft -> reached p dbl kr ft b a x ->
  mc_in a = [] -> mc_out a = [] -> holds kr (mc_table a) d ->
  (forall k x' is, k < n -> dispatches p d src dest k x = Ok (x', is) ->
     byte_source src x' /\ good_request p kr (mc_table a) src x') ->
  observe (run_ops p (repeat (Process src dest) n) b x)
  = ('(x', is) <- dispatches p d src dest n x;;
     Ok (x', map (fun i => OStatus (if i <? length (kr_funcs kr) then RESOLVED_PACKET else DROPPED_PACKET)) is)).
Proof.
  intros X p dbl kr ft d src dest n. induction n as [|n IH]; intros b a x Hp Hk Hs H Hin Hout Hd Hg.
  - reflexivity.
  - cbn [repeat run_ops dispatches step].
    assert (Hq : quiet dbl a) by (right; exact Hout).
    pose proof (C104_request X p dbl kr ft b a x d src dest Hp Hk Hs H Hin Hq Hd (proj1 (Hg 0 x [] ltac:(lia) eq_refl))
                  (proj2 (Hg 0 x [] ltac:(lia) eq_refl))) as E.
    destruct (dispatch p d src dest x) as [[x1 i]|flt] eqn:Ed; cbn [bind].
    2:{ rewrite E. reflexivity. }
    destruct E as (b' & E & H'). rewrite E. cbn [bind].
    replace (if i <? length (kr_funcs kr) then [] else mc_out a) with (@nil Z) in H'
      by (rewrite Hout; destruct (i <? length (kr_funcs kr)); reflexivity).
    assert (Hg' : forall k x' is, k < n -> dispatches p d src dest k x1 = Ok (x', is) ->
                    byte_source src x' /\ good_request p kr (mc_table a) src x').
    { intros k x' is Hlt Ek. apply (Hg (S k) x' (i :: is)); [lia|]. cbn [dispatches]. rewrite Ed. cbn [bind].
      rewrite Ek. reflexivity. }
    pose proof (IH b' _ x1 Hp Hk Hs H' eq_refl eq_refl Hd Hg') as R. unfold observe in R.
    destruct (run_ops p (repeat (Process src dest) n) b' x1) as [[[b2 x2] vs]|flt];
      destruct (dispatches p d src dest n x1) as [[y is]|flt']; cbn [bind] in R; try discriminate.
    + cbn [bind observe map]. congruence.
    + cbn [bind observe]. congruence.
Qed.

(** The bytes of a request given one by one, then the response: as if a plain
    dispatcher had taken them from a source. *)
Theorem C104_bytes : forall (X : Type) p dbl (kr : keyring X) ft b a x d src (dest : destination X) bs f x1,
  wf_platform p -> keyring_ok p kr -> well_sized dbl kr ft -> reached p dbl kr ft b a x1 ->
  mc_in a = [] -> quiet dbl a -> holds kr (mc_table a) d -> byte_source src x -> good_request p kr (mc_table a) src x ->
  nth_error (mc_table a) (Z.to_nat (wire_value (kr_e kr) (firstn (kr_index_size kr) bs))) = Some f ->
  length bs = kr_index_size kr + wire_sizes (sig_params (f_sig f)) -> pull src (length bs) x = Ok (x1, bs) ->
  let statuses := repeat (OStatus LOADING_PACKET) (length bs - 1) ++ [OStatus RESOLVED_PACKET] in
  match dispatch p d src dest x with
  | Ok (x', i) =>
      i = Z.to_nat (wire_value (kr_e kr) (firstn (kr_index_size kr) bs))
      /\ exists b', run_ops p (map Put bs ++ [WriteTo dest]) b x1 = Ok (b', x', statuses ++ [ONone])
           /\ reached p dbl kr ft b' (mk_machine [] [] (mc_table a)) x'
  | Fault flt => run_ops p (map Put bs ++ [WriteTo dest]) b x1 = Fault flt
  end.
Proof.
  intros X p dbl kr ft b a x d src dest bs f x1 Hp Hk Hs H Hin Hq Hd Hb Hg Hf Hl Hpull statuses.
  pose proof (reached_table p dbl kr ft Hp Hk Hs b a x1 H) as Ht.
  rewrite (dispatch_one p kr (mc_table a) Hp Hk Ht d src dest x Hd Hb Hg). unfold one_request, call_spec. cbv zeta.
  rewrite Hl, pull_app in Hpull.
  ok_inv Hpull r. destruct r as [y idx]. ok_inv Hpull r. destruct r as [y' bs2].
  assert (bs = idx ++ bs2 /\ y' = x1) as [Ebs ->] by (split; congruence).
  pose proof (pull_length X src _ x y idx E) as L. pose proof (pull_length X src _ y x1 bs2 E0) as L2.
  assert (Efirst : firstn (kr_index_size kr) bs = idx)
    by (rewrite Ebs, <- L, firstn_app, firstn_all, Nat.sub_diag, app_nil_r; reflexivity).
  assert (Eskip : skipn (kr_index_size kr) bs = bs2)
    by (rewrite Ebs, <- L, skipn_app, skipn_all, Nat.sub_diag; reflexivity).
  rewrite Efirst in Hf |- *. cbn [bind]. rewrite Hf, E0. cbn [bind].
  destruct (Hg y idx f x1 bs2 E Hf E0) as [Hdec Hret].
  destruct (f_call f (dec_list (kr_e kr) (kr_m kr) (sig_params (f_sig f)) bs2) x1) as [x2 r] eqn:Ef. cbn [snd] in Hret.
  assert (Hbytes : Forall is_byte bs).
  { rewrite Ebs. apply Forall_app. split; [eapply Hb; eauto|eapply byte_source_after; eauto]. }
  set (i := Z.to_nat (wire_value (kr_e kr) idx)) in *.
  assert (Hh : heard p kr i f bs x1 x2 r).
  { unfold heard. rewrite Efirst, Eskip. split; [exact Hl|]. split; [exact Hbytes|]. split; [|auto].
    unfold i. rewrite Z2Nat.id; [reflexivity|]. apply wire_value_bounds. rewrite Ebs in Hbytes. apply Forall_app in Hbytes. apply Hbytes. }
  destruct (heard_bytes p dbl kr ft Hk i f bs x1 x2 r a Hf Hh Hin Hq) as [Em Hal].
  destruct (reached_run p dbl kr ft Hp Hk Hs _ b a x1 _ _ _ H Hal Em) as (b1 & R & H1).
  rewrite run_ops_app, R. cbn [bind run_ops].
  assert (Hw : legitimate p dbl kr ft (WriteTo dest) (mk_machine [] (answer kr f r) (mc_table a)) x2).
  { split; [exact I|]. right. exact I. }
  assert (Ew : mc_step (format_of kr) (WriteTo dest) (mk_machine [] (answer kr f r) (mc_table a)) x2
               = (x3 <- push dest (answer kr f r) x2;; Ok (mk_machine [] [] (mc_table a), x3, ONone))).
  { cbn [mc_step]. unfold mc_write. cbn [mc_out mc_in mc_table]. destruct (push dest (answer kr f r) x2); reflexivity. }
  unfold answer in *.
  destruct (push dest (response (kr_e kr) (kr_m kr) (sig_ret (f_sig f)) r) x2) as [x3|flt]; cbn [bind] in *.
  - split; auto. destruct (reached_step p dbl kr ft Hp Hk Hs _ b1 _ x2 _ _ _ H1 Hw Ew) as (b' & E' & H').
    exists b'. split; auto. rewrite E'. cbn [bind]. reflexivity.
  - rewrite (reached_fault p dbl kr ft Hp Hk Hs _ b1 _ x2 flt H1 Hw Ew). reflexivity.
Qed.

Theorem C104_dropped_bytes : forall (X : Type) p dbl (kr : keyring X) ft b a x d src (dest : destination X) idx x1,
  wf_platform p -> keyring_ok p kr -> well_sized dbl kr ft -> reached p dbl kr ft b a x1 ->
  mc_in a = [] -> quiet dbl a -> holds kr (mc_table a) d -> byte_source src x ->
  nth_error (mc_table a) (Z.to_nat (wire_value (kr_e kr) idx)) = None ->
  pull src (kr_index_size kr) x = Ok (x1, idx) ->
  dispatch p d src dest x = Ok (x1, Z.to_nat (wire_value (kr_e kr) idx))
  /\ exists b', run_ops p (map Put idx) b x1
                = Ok (b', x1, repeat (OStatus LOADING_PACKET) (length idx - 1) ++ [OStatus DROPPED_PACKET])
       /\ reached p dbl kr ft b' (mk_machine [] (mc_out a) (mc_table a)) x1.
Proof.
  intros X p dbl kr ft b a x d src dest idx x1 Hp Hk Hs H Hin Hq Hd Hb Hn Hpull.
  pose proof (reached_table p dbl kr ft Hp Hk Hs b a x1 H) as Ht.
  assert (Hg : good_request p kr (mc_table a) src x).
  { intros y idx' f y' bs E Ef _. assert (idx' = idx) by congruence. subst. congruence. }
  rewrite (dispatch_one p kr (mc_table a) Hp Hk Ht d src dest x Hd Hb Hg). unfold one_request. cbv zeta. rewrite Hpull. cbn [bind].
  rewrite Hn. split; auto.
  pose proof (pull_length X src _ x x1 idx Hpull) as L. pose proof (Hb _ x1 idx Hpull) as Hbytes.
  assert (Hbad : bad_index kr idx).
  { split; [exact L|]. split; [exact Hbytes|]. apply nth_error_None in Hn.
    rewrite (table_len kr (mc_table a) Ht) in Hn. pose proof (wire_value_bounds (kr_e kr) idx Hbytes). lia. }
  pose proof (index_size X kr (proj1 Hk)) as ((Hw & _) & _ & _).
  destruct (mc_feed_bad p dbl kr ft (length idx) 0 idx x1 a Ht Hbad Hin ltac:(lia) ltac:(lia) Hq) as [Hr Hal].
  cbn [skipn] in Hr, Hal.
  destruct (reached_run p dbl kr ft Hp Hk Hs (map Put idx) b a x1 _ _ _ H Hal Hr) as (b' & E & H').
  exists b'. auto.
Qed.

(** The dispatcher a user makes for the keyring holds its callbacks, and so does
    the one inside a buffered dispatcher. *)
Theorem C104_made : forall (X : Type) (kr : keyring X) ft, holds kr (map snd (kr_funcs kr)) (make_dispatcher kr ft).
Proof.
  intros X kr ft. exists ft. split; [reflexivity|]. split; [reflexivity|]. cbn [make_dispatcher d_actions]. rewrite map_map. reflexivity.
Qed.

Theorem C104_inside : forall (X : Type) p dbl (kr : keyring X) ft b a x,
  wf_platform p -> keyring_ok p kr -> well_sized dbl kr ft -> reached p dbl kr ft b a x ->
  holds kr (mc_table a) (b_dispatcher b).
Proof.
  intros X p dbl kr ft b a x Hp Hk Hs H.
  destruct (reached_represents p dbl kr ft Hp Hk Hs b a x H) as (ni & no & _ & _ & ((E1 & E2 & E3 & _) & _)).
  exists ft. auto.
Qed.

(** Replacing a callback in both. *)
Lemma map_set_nth : forall (X : Type) (g : func X -> action X) i l (f : func X),
  set_nth (map g l) i (g f) = map g (update l i f).
Proof. intros X g. induction i as [|i IH]; intros [|h l] f; cbn [map set_nth update]; auto. rewrite IH. reflexivity. Qed.

Theorem C104_replaced : forall (X : Type) (kr : keyring X) table d i r d',
  map f_sig table = kr_signatures kr -> holds kr table d -> replace d i r = Some (Ok d') ->
  holds kr (update table i (replacing r)) d' /\ map f_sig (update table i (replacing r)) = kr_signatures kr.
Proof.
  intros X kr table d i r d' Ht (ft & Ek & Ef & Ea) H.
  assert (Hc : conform d).
  { unfold conform. rewrite Ek, Ef, Ea, <- Ht. clear. induction table as [|f l IH]; cbn [map]; constructor; auto.
    exists f. auto. }
  destruct (replace_inv X d i r d' Hc H) as (Hi & Hn & ->). split.
  - exists ft. cbn [d_keyring d_features d_actions]. split; auto. split; auto.
    rewrite Ek, Ef, Ea. apply map_set_nth.
  - rewrite Ek in Hn. rewrite <- Ht in Hn |- *. clear - Hn.
    revert table Hn. induction i as [|i IH]; intros [|g l] H; cbn [map update nth_error] in *; auto; try congruence.
    rewrite IH; auto.
Qed.

(** ** Streams of bytes *)

Lemma take_wire_bytes : forall (S : Type) (w : wires S), Forall is_byte (w_in w) -> byte_source take_wire w.
Proof.
  intros S w Hw n. revert w Hw. induction n as [|n IH]; intros w Hw x' bs E; cbn [pull] in E.
  - assert (bs = []) by congruence. subst. constructor.
  - destruct w as [inp out s]. cbn [w_in] in Hw. destruct inp as [|c inp]; [discriminate|].
    cbn [take_wire bind w_in w_out w_user] in E. ok_inv E r. destruct r as [y l]. assert (bs = c :: l) by congruence. subst.
    inversion_clear Hw as [|? ? Hc Hw']. constructor; auto. eapply IH; [|eauto]. exact Hw'.
Qed.

Lemma pull_wire_rest : forall (S : Type) n (w w' : wires S) bs, pull take_wire n w = Ok (w', bs) -> w_in w = bs ++ w_in w'.
Proof.
  intros S n. induction n as [|n IH]; intros w w' bs E; cbn [pull] in E.
  - assert (bs = [] /\ w' = w) as [-> ->] by (split; congruence). reflexivity.
  - destruct w as [inp out s]. destruct inp as [|c inp]; [discriminate|].
    cbn [take_wire bind w_in w_out w_user] in E. ok_inv E r. destruct r as [y l].
    assert (bs = c :: l /\ y = w') as [-> ->] by (split; congruence). apply IH in E0. cbn [w_in] in *. rewrite E0. reflexivity.
Qed.

Lemma push_wire_in : forall (S : Type) bs (w w' : wires S), push give_wire bs w = Ok w' -> w_in w' = w_in w.
Proof.
  intros S. induction bs as [|c bs IH]; intros w w' E; cbn [push] in E.
  - congruence.
  - cbn [give_wire bind] in E. apply IH in E. rewrite E. reflexivity.
Qed.

Section Streams.
  Context {S : Type}.
  Variables (p : platform) (kr : keyring S).
  Hypothesis Hp : wf_platform p.
  Hypothesis Hk : keyring_ok p kr.
  Hypothesis Hacc : accepts_any p kr (map snd (kr_funcs kr)).
  Let kr' := lift_keyring kr.
  Let table := map snd (kr_funcs kr').

  Lemma lift_table : forall i f, nth_error table i = Some f ->
    exists g, In g (map snd (kr_funcs kr)) /\ f = lift_func g.
  Proof.
    intros i f H. unfold table, kr', lift_keyring in H. cbn [kr_funcs] in H. rewrite map_map in H. cbn [snd] in H.
    rewrite nth_error_map in H. destruct (nth_error (kr_funcs kr) i) as [nf|] eqn:E; [|discriminate]. cbn in H.
    exists (snd nf). split; [|congruence]. apply in_map. eapply nth_error_In; eauto.
  Qed.

  Lemma stream_good : forall w, Forall is_byte (w_in w) -> good_request p kr' table take_wire w.
  Proof.
    intros w Hw x1 idx f x2 bs E Hf E2. destruct (lift_table _ f Hf) as (g & Hin & ->). rewrite lift_sig in *.
    pose proof (byte_source_after _ take_wire _ _ _ _ (take_wire_bytes S w Hw) E _ _ _ E2) as Hb.
    pose proof (pull_length _ _ _ _ _ _ E2) as L. unfold accepts_any in Hacc. rewrite Forall_forall in Hacc.
    destruct (Hacc g Hin bs (w_user x2) Hb L) as [H1 H2]. split; [exact H1|].
    unfold lift_func. cbn [f_call]. change (kr_e kr') with (kr_e kr). change (kr_m kr') with (kr_m kr).
    destruct (f_call g (dec_list (kr_e kr) (kr_m kr) (sig_params (f_sig g)) bs) (w_user x2)) as [s' r]. exact H2.
  Qed.

  Lemma lift_same : map f_sig table = kr_signatures kr'.
  Proof. unfold table, kr_signatures. rewrite map_map. reflexivity. Qed.

  Lemma dispatch_stream : forall d w w' i, holds kr' table d -> Forall is_byte (w_in w) ->
    dispatch p d take_wire give_wire w = Ok (w', i) -> exists bs, w_in w = bs ++ w_in w'.
  Proof.
    intros d w w' i Hd Hw E.
    rewrite (dispatch_one p kr' table Hp (lift_keyring_ok S p kr Hk) lift_same d take_wire give_wire w Hd
               (take_wire_bytes S w Hw) (stream_good w Hw)) in E.
    unfold one_request in E. cbv zeta in E. ok_inv E r. destruct r as [w1 idx].
    pose proof (pull_wire_rest S _ w w1 idx E0) as E1.
    destruct (nth_error table (Z.to_nat (wire_value (kr_e kr') idx))) as [f|] eqn:Ef.
    - destruct (lift_table _ f Ef) as (g & _ & ->). unfold call_spec in E. ok_inv E r.
      assert (w' = r) by congruence. subst r. ok_inv E2 q. destruct q as [w2 bs].
      pose proof (pull_wire_rest S _ w1 w2 bs E3) as E4.
      unfold lift_func in E2. cbn [f_call f_sig] in E2.
      destruct (f_call g (dec_list (kr_e kr') (kr_m kr') (sig_params (f_sig g)) bs) (w_user w2)) as [s' r].
      apply push_wire_in in E2. cbn [w_in] in E2. exists (idx ++ bs). rewrite <- app_assoc, E2, <- E4. exact E1.
    - assert (w' = w1) by congruence. subst. eauto.
  Qed.

  Lemma dispatches_stream : forall d n w w' is, holds kr' table d -> Forall is_byte (w_in w) ->
    dispatches p d take_wire give_wire n w = Ok (w', is) -> Forall is_byte (w_in w').
  Proof.
    intros d. induction n as [|n IH]; intros w w' is Hd Hw E; cbn [dispatches] in E.
    - assert (w = w') by congruence. subst. auto.
    - ok_inv E r. destruct r as [w1 i]. ok_inv E r. destruct r as [w2 is']. assert (w2 = w') by congruence. subst.
      apply (IH w1 w' is'); auto. destruct (dispatch_stream d w w1 i Hd Hw E0) as [bs Eb].
      rewrite Eb in Hw. apply Forall_app in Hw. apply Hw.
  Qed.
End Streams.

(** Whatever the bytes of a stream are: a plain dispatcher and a buffered one
    serve the same requests, give the same responses, refuse the same indices,
    and run out of bytes at the same place. *)
Theorem C104_streams : forall (S : Type) p dbl (kr : keyring S) ft ft' g g' b0 input out s n,
  wf_platform p -> keyring_ok p kr -> well_sized dbl kr ft -> accepts_any p kr (map snd (kr_funcs kr)) ->
  make_buffered dbl (lift_keyring kr) ft g g' = Some b0 -> Forall is_byte input ->
  observe (run_ops p (repeat (Process take_wire give_wire) n) b0 (mk_wires input out s))
  = ('(w, is) <- dispatches p (make_dispatcher (lift_keyring kr) ft') take_wire give_wire n (mk_wires input out s);;
     Ok (w, map (fun i => OStatus (if i <? length (kr_funcs kr) then RESOLVED_PACKET else DROPPED_PACKET)) is)).
Proof.
  intros S p dbl kr ft ft' g g' b0 input out s n Hp Hk Hs Hacc Hm Hb.
  pose proof (lift_keyring_ok S p kr Hk) as Hk'. pose proof (lift_well_sized S dbl kr ft Hs) as Hs'.
  rewrite <- (lift_funcs_length S kr).
  apply (C104_requests (wires S) p dbl (lift_keyring kr) ft (make_dispatcher (lift_keyring kr) ft') take_wire give_wire n b0
           (fresh (lift_keyring kr)) (mk_wires input out s)); auto.
  - eapply reached_new; eauto.
  - apply C104_made.
  - intros k w is _ E.
    pose proof (dispatches_stream p kr Hp Hk Hacc _ k (mk_wires input out s) w is (C104_made _ _ ft') Hb E) as Hw.
    split; [apply take_wire_bytes; auto|]. exact (stream_good p kr Hacc w Hw).
Qed.

(** ** Examples *)

Lemma ex_min_ok : min_ok pc_native TWOS_COMPLEMENT 2 /\ twos_min_ok pc_native 2.
Proof. split; range. Qed.

Lemma ex_accepts : accepts_any pc_native ex_keyring (map snd (kr_funcs ex_keyring)).
Proof.
  unfold accepts_any. list_cases; intros payload x Hb Hl.
  - split.
    + cbn [snd f_sig ex_add sig_params decodable_list decodable]. split; [intros _ _; apply ex_min_ok|]. cbn. auto.
    + assert (Hty : Forall2 has_type (sig_params (f_sig ex_add))
                      (dec_list BIG TWOS_COMPLEMENT (sig_params (f_sig ex_add)) payload)).
      { apply dec_list_has_types; auto. tyoks. }
      revert Hty. cbn [ex_keyring kr_e kr_m snd].
      generalize (dec_list BIG TWOS_COMPLEMENT (sig_params (f_sig ex_add)) payload). intros vs Hty.
      cbn [ex_add f_sig sig_params] in Hty. inversion_clear Hty as [|? v ? vs' Hv Hty']. inversion_clear Hty' as [|? v2 ? vs2 Hv2 Hty2].
      inversion_clear Hty2. destruct v as [a|]; [|contradiction]. destruct v2 as [b|]; [|contradiction].
      cbn [has_type] in Hv, Hv2. change (half 2) with 32768%Z in Hv. change (space 1) with 256%Z in Hv2.
      cbn [ex_add f_call snd ret_encodable f_sig sig_ret]. unfold encodable, sig_encodable. cbn [has_type all_signed].
      change (half 4) with 2147483648%Z. lia.
  - split; exact I.
  - split.
    + cbn. unfold sig_decodable. split; auto. split; auto. split; auto. intros _ _. apply ex_min_ok.
    + cbn [ex_swap f_call snd ret_encodable f_sig sig_ret]. encs.
Qed.

Definition ex_stream : list Z := [0; 255; 254; 5; 9; 2; 1; 0; 7; 1; 0; 3]%Z.

Lemma ex_stream_bytes : Forall is_byte ex_stream.
Proof. unfold ex_stream. repeat (apply Forall_cons; [split; [discriminate|reflexivity]|]). apply Forall_nil. Qed.

(** Four requests, one of which is refused: the same for both.  A fifth one is
    cut: both find no input. *)
Example C104_streams_example :
  keyring_ok pc_native ex_keyring /\ well_sized false ex_keyring ANY
  /\ accepts_any pc_native ex_keyring (map snd (kr_funcs ex_keyring)) /\ Forall is_byte ex_stream
  /\ exists b0, make_buffered false (lift_keyring ex_keyring) ANY [] [] = Some b0
  /\ let w := mk_wires [0; 3]%Z [0; 0; 0; 3; 7; 9]%Z
                [(1, []); (2, [VList [VInt 1; VInt 7]]); (0, [VInt (-2); VInt 5])] in
     observe (run_ops pc_native (repeat (Process take_wire give_wire) 4) b0 (mk_wires ex_stream [] []))
       = Ok (w, map OStatus [RESOLVED_PACKET; DROPPED_PACKET; RESOLVED_PACKET; RESOLVED_PACKET])
     /\ dispatches pc_native (make_dispatcher (lift_keyring ex_keyring) WEAK_REFERENCE) take_wire give_wire 4
          (mk_wires ex_stream [] []) = Ok (w, [0; 9; 2; 1])
     /\ observe (run_ops pc_native (repeat (Process take_wire give_wire) 5) b0 (mk_wires ex_stream [] [])) = Fault NoInput
     /\ dispatches pc_native (make_dispatcher (lift_keyring ex_keyring) WEAK_REFERENCE) take_wire give_wire 5
          (mk_wires ex_stream [] []) = Fault NoInput.
Proof.
  split; [exact ex_keyring_ok|]. split; [apply ex_well_sized|]. split; [exact ex_accepts|]. split; [exact ex_stream_bytes|].
  eexists. split; [reflexivity|]. cbn zeta. repeat split; vm_compute; reflexivity.
Qed.

(** The hypotheses of [C104_request], [C104_requests], [C104_bytes] and
    [C104_dropped_bytes] are met by the first requests of this stream. *)
Example C104_request_example : exists b0,
  make_buffered false (lift_keyring ex_keyring) ANY [] [] = Some b0
  /\ reached pc_native false (lift_keyring ex_keyring) ANY b0 (fresh (lift_keyring ex_keyring)) (mk_wires ex_stream [] [])
  /\ holds (lift_keyring ex_keyring) (mc_table (fresh (lift_keyring ex_keyring)))
       (make_dispatcher (lift_keyring ex_keyring) WEAK_REFERENCE)
  /\ byte_source take_wire (mk_wires ex_stream [] (@nil (nat * list val)))
  /\ good_request pc_native (lift_keyring ex_keyring) (mc_table (fresh (lift_keyring ex_keyring))) take_wire
       (mk_wires ex_stream [] [])
  /\ pull take_wire 4 (mk_wires ex_stream [] (@nil (nat * list val)))
     = Ok (mk_wires (skipn 4 ex_stream) [] [], [0; 255; 254; 5]%Z)
  /\ nth_error (mc_table (fresh (lift_keyring ex_keyring))) 0 = Some (lift_func ex_add)
  /\ nth_error (mc_table (fresh (lift_keyring ex_keyring))) 9 = None
  /\ exists b1, run_ops pc_native (map Put [0; 255; 254; 5]%Z ++ [WriteTo give_wire]) b0 (mk_wires (skipn 4 ex_stream) [] [])
       = Ok (b1, mk_wires (skipn 4 ex_stream) [0; 0; 0; 3]%Z [(0, [VInt (-2); VInt 5])],
             map OStatus [LOADING_PACKET; LOADING_PACKET; LOADING_PACKET; RESOLVED_PACKET] ++ [ONone]).
Proof.
  assert (Hb : Forall is_byte (w_in (mk_wires ex_stream [] (@nil (nat * list val))))) by exact ex_stream_bytes.
  eexists. split; [reflexivity|]. split; [apply (reached_new _ _ _ _ [] []); reflexivity|]. split; [apply C104_made|].
  split; [apply take_wire_bytes; exact Hb|]. split; [exact (stream_good pc_native ex_keyring ex_accepts _ Hb)|].
  split; [reflexivity|]. split; [reflexivity|]. split; [reflexivity|]. eexists. vm_compute. reflexivity.
Qed.

Example C104_replaced_example :
  let d := make_dispatcher (lift_keyring ex_keyring) ANY in
  exists d', replace d 0 (ByFunctor (lift_func ex_sub)) = Some (Ok d')
    /\ holds (lift_keyring ex_keyring) (update (map snd (kr_funcs (lift_keyring ex_keyring))) 0 (lift_func ex_sub)) d'
    /\ dispatch pc_native d' take_wire give_wire (mk_wires [0; 255; 254; 5]%Z [] [])
       = Ok (mk_wires [] [255; 255; 255; 249]%Z [(3, [VInt (-2); VInt 5])], 0).
Proof.
  cbn zeta. eexists. split; [reflexivity|]. split.
  - exists ANY. split; [reflexivity|]. split; reflexivity.
  - vm_compute. reflexivity.
Qed.

Print Assumptions C104_request.
Print Assumptions C104_requests.
Print Assumptions C104_bytes.
Print Assumptions C104_dropped_bytes.
Print Assumptions C104_made.
Print Assumptions C104_inside.
Print Assumptions C104_replaced.
Print Assumptions C104_streams.
