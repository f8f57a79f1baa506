(** Property C67: bytes received while the response is sent in interrupts. *)

From Coq Require Import List ZArith Lia Bool Arith.
From Verif Require Import Base CInt Spec IntModel Conditions MemFacts TypeLevel Serial TupleModel
  TypeLevelProofs IntProofs SignedProofs SerialProofs CodecFacts Bounds TupleProofs SpecRpc Rpc RpcProofs
  Hosts Closed PropertiesTypes PropertiesRpc Buffered SpecBuffered BufferedProofs PropertiesBuffered
  PropertiesBuffers PropertiesPackets ReEntrant Sending.
Import ListNotations.
Open Scope nat_scope.

(** ** Two runs of an action whose getters, callbacks and putters do the same *)

Section Simulation.
  Variable p : platform.
  Context {Y Z' : Type}.
  Variable R : Y -> Z' -> Prop.
  Variables (src1 : source Y) (src2 : source Z') (dest1 : destination Y) (dest2 : destination Z').
  Hypothesis Hsrc : forall y z y' byte, R y z -> src1 y = Ok (y', byte) ->
    exists z', src2 z = Ok (z', byte) /\ R y' z'.
  Hypothesis Hdest : forall byte y z y', R y z -> dest1 byte y = Ok y' ->
    exists z', dest2 byte z = Ok z' /\ R y' z'.

  Lemma fill_sim : forall k pos y z mem y' mem', R y z -> fill src1 k pos y mem = Ok (y', mem') ->
    exists z', fill src2 k pos z mem = Ok (z', mem') /\ R y' z'.
  Proof.
    induction k as [|k IH]; intros pos y z mem y' mem' HR E; cbn [fill] in *.
    - injection E as <- <-. exists z. auto.
    - ok_inv E q. destruct q as [y1 byte]. ok_inv E m1. destruct (Hsrc y z y1 byte HR E0) as (z1 & E2 & HR1).
      rewrite E2. cbn [bind]. rewrite E1. cbn [bind]. eapply IH; eauto.
  Qed.

  Lemma put_each_sim : forall bs y z y', R y z -> put_each dest1 bs y = Ok y' ->
    exists z', put_each dest2 bs z = Ok z' /\ R y' z'.
  Proof.
    induction bs as [|byte bs IH]; intros y z y' HR E; cbn [put_each] in *.
    - injection E as <-. exists z. auto.
    - ok_inv E y1. destruct (Hdest byte y z y1 HR E0) as (z1 & E1 & HR1). rewrite E1. cbn [bind]. eapply IH; eauto.
  Qed.

  Lemma read_tuple_sim : forall e m ts y z y' st, R y z -> read_tuple p e m ts src1 y = Ok (y', st) ->
    exists z', read_tuple p e m ts src2 z = Ok (z', st) /\ R y' z'.
  Proof.
    intros e m ts y z y' st HR E. unfold read_tuple in *. ok_inv E st0. cbn [bind]. unfold fill_tuple in *.
    eapply fill_sim; eauto.
  Qed.

  Lemma run_sim : forall (a1 : action Y) (a2 : action Z') y z y',
    (forall c1, action_model a1 = Some c1 ->
       exists c2, action_model a2 = Some c2 /\ m_e c2 = m_e c1 /\ m_m c2 = m_m c1 /\ f_sig (m_func c2) = f_sig (m_func c1)
         /\ forall args y z, R y z ->
              R (fst (f_call (m_func c1) args y)) (fst (f_call (m_func c2) args z))
              /\ snd (f_call (m_func c2) args z) = snd (f_call (m_func c1) args y)) ->
    (action_model a1 = None -> action_model a2 = None) ->
    R y z -> run p a1 src1 dest1 y = Ok y' ->
    exists z', run p a2 src2 dest2 z = Ok z' /\ R y' z'.
  Proof.
    intros a1 a2 y z y' Hc Hn HR E.
    destruct (action_model a1) as [c1|] eqn:Em1.
    2:{ specialize (Hn eq_refl). destruct a1 as [[?|]|]; try discriminate. destruct a2 as [[?|]|]; try discriminate.
        cbn [run] in *. injection E as <-. exists z. auto. }
    destruct (Hc c1 eq_refl) as (c2 & Em2 & He & Hm & Hsg & Hf).
    rewrite (run_call p _ a1 c1) in E by auto. rewrite (run_call p _ a2 c2) by auto.
    unfold call in *. rewrite He, Hm, Hsg. set (f1 := m_func c1) in *. set (f2 := m_func c2) in *.
    assert (G : forall y1 z1 st y2 r, R y1 z1 ->
              invoke p (tuple_at (m_e c1) (m_m c1) (sig_params (f_sig f1)) 0) (f_call f1) st y1 = Ok (y2, r) ->
              exists z2, invoke p (tuple_at (m_e c1) (m_m c1) (sig_params (f_sig f1)) 0) (f_call f2) st z1 = Ok (z2, r) /\ R y2 z2).
    { intros y1 z1 st y2 r HR1 E1. unfold invoke in *. ok_inv E1 args. cbn [bind].
      destruct (Hf args y1 z1 HR1) as [H1 H2]. destruct (f_call f1 args y1) as [y3 r3].
      destruct (f_call f2 args z1) as [z3 r4]. cbn [fst snd] in *. subst r4. injection E1 as -> ->. exists z3. auto. }
    destruct (sig_ret (f_sig f1)) as [t|].
    - ok_inv E q. destruct q as [y1 st]. destruct (read_tuple_sim _ _ _ y z y1 st HR E0) as (z1 & E1 & HR1).
      rewrite E1. cbn [bind]. ok_inv E q. destruct q as [y2 r]. destruct (G y1 z1 st y2 r HR1 E2) as (z2 & E3 & HR2).
      rewrite E3. cbn [bind]. unfold insert, write_tuple in *. ok_inv E rt. cbn [bind]. ok_inv E bs. cbn [bind].
      eapply put_each_sim; eauto.
    - ok_inv E q. destruct q as [y1 st]. destruct (read_tuple_sim _ _ _ y z y1 st HR E0) as (z1 & E1 & HR1).
      rewrite E1. cbn [bind]. ok_inv E q. destruct q as [y2 r]. destruct (G y1 z1 st y2 r HR1 E2) as (z2 & E3 & HR2).
      rewrite E3. cbn [bind]. injection E as <-. exists z2. auto.
  Qed.
End Simulation.

(** ** Interrupts *)

Section Sent.
  Context {X : Type}.
  Variable p : platform.

  Lemma advance_0 : forall b : buffered X, advance b 0 = b.
  Proof. intros []. unfold advance. cbn. rewrite Nat.add_0_r. reflexivity. Qed.
  Lemma advance_advance : forall (b : buffered X) j k, advance (advance b j) k = advance b (j + k).
  Proof. intros []; intros. unfold advance. cbn. rewrite Nat.add_assoc. reflexivity. Qed.

  (** The output can be sent. *)
  Definition coherent (b : buffered X) : Prop :=
    b_obuf_next b <= b_obuf_bottom b /\ b_obuf_bottom b <= length (obuf (b_bufs b)).

  (** [k] more bytes of the response were sent. *)
  Definition sent_more (k : nat) (irqs : list nat) (w : sending X) : sending X :=
    mk_sending (advance (sn_b w) k) (sn_ptr w) (sn_x w) irqs
      (sn_sent w ++ slice (obuf (b_bufs (sn_b w))) (b_obuf_next (sn_b w)) k).

  Lemma send_bytes_ok : forall n w, coherent (sn_b w) ->
    exists k, b_obuf_next (sn_b w) + k <= b_obuf_bottom (sn_b w)
      /\ send_bytes n w = Ok (sent_more k (sn_irqs w) w).
  Proof.
    induction n as [|n IH]; intros w [H1 H2]; cbn [send_bytes].
    - exists 0. split; [lia|]. unfold sent_more. rewrite advance_0. unfold slice. cbn [firstn]. rewrite app_nil_r.
      destruct w; reflexivity.
    - unfold is_loaded. destruct (Nat.eqb_spec (b_obuf_next (sn_b w)) (b_obuf_bottom (sn_b w))) as [E|E]; cbn [negb].
      + apply IH. split; auto.
      + unfold get_byte, is_loaded. destruct (Nat.eqb_spec (b_obuf_next (sn_b w)) (b_obuf_bottom (sn_b w))); [contradiction|].
        cbn [negb]. destruct (nth_error (obuf (b_bufs (sn_b w))) (b_obuf_next (sn_b w))) as [byte|] eqn:En.
        2:{ apply nth_error_None in En. lia. }
        rewrite (load_nth _ _ _ En). cbn [bind].
        match goal with |- context [send_bytes n ?w'] => destruct (IH w') as (k & Hk & Ek) end.
        { split; cbn [sn_b b_obuf_next b_obuf_bottom b_bufs]; lia. }
        cbn [sn_b b_obuf_next b_obuf_bottom b_bufs] in Hk. exists (S k). split; [lia|]. rewrite Ek. f_equal.
        unfold sent_more, advance. cbn [sn_b sn_ptr sn_x sn_irqs sn_sent b_dispatcher b_is_index_loaded b_load_count
          b_ibuf_next b_obuf_next b_obuf_bottom b_bufs]. f_equal; [f_equal; lia|].
        rewrite <- app_assoc. f_equal. unfold slice. rewrite (skipn_nth_cons _ _ _ _ En). reflexivity.
  Qed.

  Lemma moment_ok : forall w, coherent (sn_b w) ->
    exists k, b_obuf_next (sn_b w) + k <= b_obuf_bottom (sn_b w) /\ moment w = Ok (sent_more k (tl (sn_irqs w)) w).
  Proof.
    intros w H. unfold moment. destruct (sn_irqs w) as [|n irqs] eqn:Ei.
    - exists 0. split; [destruct H; lia|]. unfold sent_more. rewrite advance_0. unfold slice. cbn [firstn tl].
      rewrite app_nil_r. destruct w; cbn in *; subst; reflexivity.
    - destruct (send_bytes_ok n (mk_sending (sn_b w) (sn_ptr w) (sn_x w) irqs (sn_sent w)) H) as (k & Hk & Ek).
      exists k. split; auto.
  Qed.

  Lemma moment_none : forall w : sending X, nth 0 (sn_irqs w) 0 = 0 ->
    moment w = Ok (mk_sending (sn_b w) (sn_ptr w) (sn_x w) (tl (sn_irqs w)) (sn_sent w)).
  Proof.
    intros w H. unfold moment. destruct (sn_irqs w) as [|n irqs] eqn:Ei.
    - destruct w; cbn in *; subst; reflexivity.
    - cbn [nth] in H. subst n. reflexivity.
  Qed.

  (** ** The call *)

  (** During the call: the bytes sent are the first ones of the response. *)
  Definition in_call (b0 : buffered X) (sent0 : list Z) (fr : frame X) (w : sending X) : Prop :=
    sn_ptr w = fr_iptr fr /\ sn_x w = fr_world fr
    /\ exists k, sn_b w = with_output b0 k (fr_bottom fr) (fr_bufs fr)
         /\ k <= fr_bottom fr /\ fr_bottom fr <= length (obuf (fr_bufs fr))
         /\ sn_sent w = sent0 ++ slice (obuf (fr_bufs fr)) 0 k.

  Lemma in_call_moment : forall b0 sent0 fr w, in_call b0 sent0 fr w ->
    exists w', moment w = Ok w' /\ in_call b0 sent0 fr w'.
  Proof.
    intros b0 sent0 fr w (H1 & H2 & k & H3 & H4 & H5 & H6).
    destruct (moment_ok w) as (j & Hj & Ej).
    { unfold coherent. rewrite H3. cbn [with_output b_obuf_next b_obuf_bottom b_bufs]. lia. }
    rewrite Ej. eexists. split; [reflexivity|]. unfold in_call, sent_more. cbn [sn_ptr sn_x sn_b sn_sent].
    rewrite H3 in *. cbn [with_output b_obuf_next b_obuf_bottom b_bufs] in *.
    split; auto. split; auto. exists (k + j). split; [reflexivity|]. split; [lia|]. split; [auto|].
    rewrite H6, <- app_assoc. f_equal. symmetry. rewrite slice_app; auto. lia.
  Qed.

  Lemma in_call_source : forall b0 sent0 (fr : frame X) w fr' byte, in_call b0 sent0 fr w ->
    ibuf_source fr = Ok (fr', byte) -> exists w', sending_source w = Ok (w', byte) /\ in_call b0 sent0 fr' w'.
  Proof.
    intros b0 sent0 fr w fr' byte (H1 & H2 & k & H3 & H4 & H5 & H6) E.
    unfold ibuf_source, sending_source, iterator_source in *. ok_inv E bt. injection E as <- <-.
    rewrite H3, H1. cbn [with_output b_bufs]. rewrite E0. cbn [bind]. eexists. split; [reflexivity|].
    unfold in_call. cbn [sn_ptr sn_x sn_b sn_sent fr_iptr fr_world fr_bottom fr_bufs]. eauto 8.
  Qed.

  Lemma in_call_destination : forall b0 sent0 byte (fr : frame X) w fr', in_call b0 sent0 fr w ->
    obuf_destination byte fr = Ok fr' -> exists w', sending_destination true byte w = Ok w' /\ in_call b0 sent0 fr' w'.
  Proof.
    intros b0 sent0 byte fr w fr' (H1 & H2 & k & H3 & H4 & H5 & H6) E.
    unfold obuf_destination, iterator_destination in E. ok_inv E mm. injection E as <-.
    assert (Hi : b_obuf_bottom (sn_b w) = fr_bottom fr) by (rewrite H3; reflexivity).
    assert (Hb : b_bufs (sn_b w) = fr_bufs fr) by (rewrite H3; reflexivity).
    unfold sending_destination. rewrite Hi, Hb, E0. cbn [bind].
    assert (Hlt : fr_bottom fr < length (obuf (fr_bufs fr))).
    { destruct (Nat.lt_ge_cases (fr_bottom fr) (length (obuf (fr_bufs fr)))); auto. rewrite store_oob in E0 by auto. discriminate. }
    rewrite store_ok in E0 by auto. injection E0 as <-.
    set (mm := splice (obuf (fr_bufs fr)) (fr_bottom fr) [byte]).
    assert (Lm : length mm = length (obuf (fr_bufs fr))) by (unfold mm; rewrite splice_length; cbn; lia).
    assert (Hm : forall j, j <= fr_bottom fr -> slice mm 0 j = slice (obuf (fr_bufs fr)) 0 j).
    { intros j Hj. unfold mm. apply slice_splice_disjoint; cbn; lia. }
    destruct (in_call_moment b0 sent0 (mk_frame (set_obuf mm (fr_bufs fr)) (fr_iptr fr) (fr_bottom fr) (fr_world fr))
                (set_out mm w)) as (w1 & E1 & G1 & G2 & k1 & G3 & G4 & G5 & G6).
    { unfold in_call, set_out, with_b. cbn [sn_ptr sn_x sn_b sn_sent fr_iptr fr_world fr_bottom fr_bufs].
      rewrite H3. cbn [with_output b_obuf_next b_obuf_bottom b_bufs]. split; auto. split; auto. exists k.
      split; [reflexivity|]. rewrite obuf_set_obuf, Hm by auto. split; auto. split; [lia|]. auto. }
    change (splice (obuf (fr_bufs fr)) (fr_bottom fr) [byte]) with mm. rewrite E1. cbn [bind].
    apply (in_call_moment b0 sent0 (mk_frame (set_obuf mm (fr_bufs fr)) (fr_iptr fr) (S (fr_bottom fr)) (fr_world fr))).
    cbn [fr_iptr fr_world fr_bottom fr_bufs] in *.
    unfold in_call, set_bottom, with_b. cbn [sn_ptr sn_x sn_b sn_sent fr_iptr fr_world fr_bottom fr_bufs].
    split; auto. split; auto. exists k1. rewrite G3. cbn [with_output b_obuf_next b_obuf_bottom b_bufs].
    split; [reflexivity|]. rewrite obuf_set_obuf in *. split; [lia|]. split; [lia|]. auto.
  Qed.

  Lemma get_index_frame_keeps : forall (d : dispatcher (frame X)) fr fr' i,
    get_index p d ibuf_source fr = Ok (fr', i) ->
    fr_bufs fr' = fr_bufs fr /\ fr_bottom fr' = fr_bottom fr /\ fr_world fr' = fr_world fr.
  Proof.
    intros d fr fr' i E. unfold get_index in E. ok_inv E q. destruct q as [fr1 st].
    ok_inv E v. assert (fr1 = fr') by (destruct v; [congruence|discriminate]). subst fr1. clear E E1.
    destruct (read_tuple_sim p (fun y z : frame X => y = z /\ fr_bufs z = fr_bufs fr /\ fr_bottom z = fr_bottom fr
                                  /\ fr_world z = fr_world fr) ibuf_source ibuf_source) with (3 := E0) (z := fr)
      as (z' & E2 & HR).
    - intros y z y' byte (-> & H1 & H2 & H3) E1. exists y'. split; [exact E1|]. split; [reflexivity|].
      unfold ibuf_source, iterator_source in E1. ok_inv E1 bt. injection E1 as <- _. auto.
    - auto.
    - destruct HR as (<- & HR). exact HR.
  Qed.

  Lemma sending_action_model : forall (a : action X) c, action_model (framed_action a) = Some c ->
    exists c2, action_model (sending_action a) = Some c2 /\ m_e c2 = m_e c /\ m_m c2 = m_m c
      /\ f_sig (m_func c2) = f_sig (m_func c)
      /\ forall b0 sent0 args fr w, in_call b0 sent0 fr w ->
           in_call b0 sent0 (fst (f_call (m_func c) args fr)) (fst (f_call (m_func c2) args w))
           /\ snd (f_call (m_func c2) args w) = snd (f_call (m_func c) args fr).
  Proof.
    intros a c H.
    assert (G : exists c0 : model X, c = framed_model c0 /\ action_model (sending_action a) = Some (sending_model c0)).
    { destruct a as [[c0|]|c0]; cbn in *; try discriminate; injection H as <-; eauto. }
    destruct G as (c0 & -> & Em). exists (sending_model c0). split; auto. split; auto. split; auto. split; auto.
    intros b0 sent0 args fr w (H1 & H2 & k & H3 & H4). cbn [sending_model framed_model m_func sending_func framed f_call].
    rewrite H2. destruct (f_call (m_func c0) args (fr_world fr)) as [x r]. cbn [fst snd]. split; auto.
    unfold in_call. cbn [sn_ptr sn_x sn_b sn_sent fr_iptr fr_world fr_bottom fr_bufs]. eauto.
  Qed.

  Lemma call_s_ok : forall (w : sending X) b' x', call_loaded p (sn_b w) (sn_x w) = Ok (b', x') -> nth 0 (sn_irqs w) 0 = 0 ->
    exists k ptr irqs,
      call_s p true w = Ok (mk_sending (advance b' k) ptr x' irqs (sn_sent w ++ slice (obuf (b_bufs b')) 0 k))
      /\ b_obuf_next b' = 0 /\ k <= b_obuf_bottom b' /\ b_obuf_bottom b' <= length (obuf (b_bufs b')).
  Proof.
    intros w b' x' E Hirq. unfold call_s.
    rewrite moment_none by exact Hirq. cbn [bind set_bottom with_b sn_b sn_ptr sn_x sn_irqs sn_sent].
    set (w1 := mk_sending _ _ _ (tl (sn_irqs w)) (sn_sent w)).
    destruct (moment_ok (set_next 0 w1)) as (k0 & Hk0 & E0).
    { unfold coherent. cbn. lia. }
    unfold set_next, with_b, w1 in Hk0. cbn [sn_b with_output b_obuf_next b_obuf_bottom] in Hk0.
    assert (k0 = 0) by lia. subst k0. rewrite E0. cbn [bind]. clear E0 Hk0.
    unfold sent_more. rewrite advance_0. unfold set_next, with_b, w1. clear w1.
    cbn [sn_b sn_ptr sn_x sn_irqs sn_sent with_output b_dispatcher b_bufs b_obuf_next b_obuf_bottom
         b_is_index_loaded b_load_count b_ibuf_next]. unfold slice at 1. cbn [firstn skipn]. rewrite app_nil_r.
    unfold call_loaded in E. ok_inv E q. destruct q as [fr index]. cbn [bind].
    destruct (get_index_frame_keeps _ _ _ _ E0) as (F1 & F2 & F3). cbn [fr_bufs fr_bottom fr_world] in F1, F2, F3.
    ok_inv E a. ok_inv E fr2. injection E as <- <-.
    unfold action_at in E1 |- *. cbn [framed_dispatcher d_actions] in E1. rewrite nth_error_map in E1.
    destruct (nth_error (d_actions (b_dispatcher (sn_b w))) index) as [a0|]; [|discriminate].
    cbn [option_map] in E1. injection E1 as <-. cbn [bind].
    match goal with |- context [run p (sending_action a0) _ _ ?w0] => set (w2 := w0) end.
    destruct (run_sim p (in_call (sn_b w) (sn_sent w)) ibuf_source sending_source obuf_destination (sending_destination true))
      with (a1 := framed_action a0) (a2 := sending_action a0) (y := fr) (z := w2) (y' := fr2) as (w3 & E3 & G).
    - intros. eapply in_call_source; eauto.
    - intros. eapply in_call_destination; eauto.
    - intros c1 Hc1. destruct (sending_action_model a0 c1 Hc1) as (c2 & C1 & C2 & C3 & C4 & C5). exists c2.
      do 4 (split; [assumption|]). intros. apply C5. assumption.
    - destruct a0 as [[?|]|]; cbn; auto; discriminate.
    - unfold in_call, w2. cbn [sn_ptr sn_x sn_b sn_sent]. split; auto. split; auto. exists 0. rewrite F1, F2.
      split; [reflexivity|]. split; [lia|]. split; [lia|]. unfold slice. cbn [firstn]. rewrite app_nil_r. reflexivity.
    - exact E2.
    - rewrite E3. cbn [bind]. destruct G as (G1 & G2 & k & G3 & G4 & G5 & G6).
      exists k, (sn_ptr w3), (sn_irqs w3). cbn [b_obuf_next b_obuf_bottom b_bufs].
      split; [|auto]. unfold with_b. rewrite G2, G6, G3. reflexivity.
  Qed.

  Lemma call_loaded_advance : forall b k (x : X), call_loaded p (advance b k) x = call_loaded p b x.
  Proof. reflexivity. Qed.

  (** ** put *)

  Definition resolved (s : packet_status) : bool := match s with RESOLVED_PACKET => true | _ => false end.

  Lemma put_s_ok : forall byte (b : buffered X) x b' x' s ptr irqs sent,
    put p byte b x = Ok (b', x', s) -> coherent b ->
    is_double (b_bufs b) = true \/ b_obuf_next b = b_obuf_bottom b ->
    nth 2 irqs 0 = 0 ->
    exists k j ptr' irqs',
      put_s p true byte (mk_sending b ptr x irqs sent)
      = Ok (mk_sending (advance b' j) ptr' x' irqs'
              (sent ++ slice (obuf (b_bufs b)) (b_obuf_next b) k
               ++ if resolved s then slice (obuf (b_bufs b')) 0 j else []), s)
      /\ b_obuf_next b + k <= b_obuf_bottom b
      /\ if resolved s then b_obuf_next b' = 0 /\ j <= b_obuf_bottom b' /\ b_obuf_bottom b' <= length (obuf (b_bufs b'))
         else j = k.
  Proof.
    intros byte b x b' x' s ptr irqs sent E Hco Hd Hirq. unfold put_s.
    destruct (moment_ok (mk_sending b ptr x irqs sent) Hco) as (k1 & Hk1 & E1). rewrite E1. cbn [bind]. clear E1.
    unfold sent_more. cbn [sn_b sn_ptr sn_x sn_irqs sn_sent] in *.
    unfold put in E. ok_inv E m.
    cbn [advance b_dispatcher b_is_index_loaded b_load_count b_ibuf_next b_obuf_next b_obuf_bottom b_bufs].
    rewrite E0. cbn [bind]. unfold with_b. cbn [sn_b sn_ptr sn_x sn_irqs sn_sent].
    assert (Lm : length m = length (ibuf (b_bufs b))).
    { destruct (Nat.lt_ge_cases (b_ibuf_next b) (length (ibuf (b_bufs b)))).
      - rewrite store_ok in E0 by auto. injection E0 as <-. rewrite splice_length; cbn; lia.
      - rewrite store_oob in E0 by auto. discriminate. }
    set (bufs := set_ibuf m (b_bufs b)) in *.
    match goal with |- context [moment ?w0] => destruct (moment_ok w0) as (k2 & Hk2 & E2) end.
    { unfold coherent in *. cbn [sn_b b_obuf_next b_obuf_bottom b_bufs].
      assert (length (obuf bufs) = length (obuf (b_bufs b))) by (unfold bufs; rewrite obuf_set_ibuf; auto). lia. }
    rewrite E2. cbn [bind]. clear E2. unfold sent_more.
    cbn [sn_b sn_ptr sn_x sn_irqs sn_sent b_obuf_next b_obuf_bottom b_bufs] in *.
    cbn [advance b_dispatcher b_is_index_loaded b_load_count b_ibuf_next b_obuf_next b_obuf_bottom b_bufs].
    set (k := k1 + k2).
    assert (Hsl : slice (obuf (b_bufs b)) (b_obuf_next b) k1 ++ slice (obuf bufs) (b_obuf_next b + k1) k2
                  = slice (obuf (b_bufs b)) (b_obuf_next b) k).
    { unfold k. rewrite slice_app by (unfold coherent in Hco; lia). f_equal.
      destruct Hd as [Hd|Hd].
      - unfold bufs. destruct (b_bufs b); [discriminate|reflexivity].
      - assert (k2 = 0) by lia. subst k2. reflexivity. }
    rewrite <- app_assoc, Hsl.
    assert (Hirq2 : nth 0 (tl (tl irqs)) 0 = 0) by (destruct irqs as [|? [|? ?]]; auto).
    assert (Hcall : forall b1 b2, b2 = advance b1 k -> call_loaded p b1 x = Ok (b', x') ->
              exists k0 j ptr' irqs',
                ('(w2) <- call_s p true (mk_sending b2 ptr x (tl (tl irqs)) (sent ++ slice (obuf (b_bufs b)) (b_obuf_next b) k));;
                 Ok (w2, RESOLVED_PACKET))
                = Ok (mk_sending (advance b' j) ptr' x' irqs'
                        (sent ++ slice (obuf (b_bufs b)) (b_obuf_next b) k0 ++ slice (obuf (b_bufs b')) 0 j), RESOLVED_PACKET)
                /\ b_obuf_next b + k0 <= b_obuf_bottom b
                /\ b_obuf_next b' = 0 /\ j <= b_obuf_bottom b' /\ b_obuf_bottom b' <= length (obuf (b_bufs b'))).
    { intros b1 b2 -> Ec. rewrite <- (call_loaded_advance b1 k) in Ec.
      destruct (call_s_ok (mk_sending (advance b1 k) ptr x (tl (tl irqs)) (sent ++ slice (obuf (b_bufs b)) (b_obuf_next b) k)) b' x' Ec Hirq2)
        as (j & ptr' & irqs' & Es & Q1 & Q2 & Q3).
      exists k, j, ptr', irqs'. rewrite Es. cbn [bind sn_sent]. rewrite <- app_assoc. split; auto. split; auto.
      unfold k. lia. }
    assert (Hno : forall b2, b2 = advance b' k -> x' = x -> resolved s = false ->
              exists k0 j ptr' irqs',
                Ok (mk_sending b2 ptr x (tl (tl irqs)) (sent ++ slice (obuf (b_bufs b)) (b_obuf_next b) k), s)
                = Ok (mk_sending (advance b' j) ptr' x' irqs'
                        (sent ++ slice (obuf (b_bufs b)) (b_obuf_next b) k0
                         ++ if resolved s then slice (obuf (b_bufs b')) 0 j else []), s)
                /\ b_obuf_next b + k0 <= b_obuf_bottom b
                /\ if resolved s then b_obuf_next b' = 0 /\ j <= b_obuf_bottom b' /\ b_obuf_bottom b' <= length (obuf (b_bufs b'))
                   else j = k0).
    { intros b2 -> -> Hs. exists k, k, ptr, (tl (tl irqs)). rewrite Hs, app_nil_r. split; auto. split; auto. unfold k. lia. }
    destruct (b_load_count b) as [|count]; [discriminate|].
    destruct (0 <? count).
    { injection E as <- <- <-. apply Hno; auto. unfold advance, k. cbn. f_equal. lia. }
    destruct (b_is_index_loaded b).
    { ok_inv E r. destruct r as [b2 x2]. injection E as -> -> <-. cbn [resolved].
      eapply Hcall; [|exact E1]. unfold advance, k. cbn. f_equal. lia. }
    ok_inv E r. destruct r as [fr index]. cbn [bind]. destruct (index <? d_size (b_dispatcher b)).
    - ok_inv E act. cbn [bind]. ok_inv E n. cbn [bind]. destruct (n =? 0).
      + ok_inv E r. destruct r as [b2 x2]. injection E as -> -> <-. cbn [resolved].
        eapply Hcall; [|exact E4]. unfold advance, k. cbn. f_equal. lia.
      + injection E as <- <- <-. apply Hno; auto. unfold advance, k. cbn. f_equal. lia.
    - injection E as <- <- <-. apply Hno; auto. unfold advance, k. cbn. f_equal. lia.
  Qed.
End Sent.

Lemma put_advance : forall (X : Type) p byte (b b' : buffered X) x x' s k, put p byte b x = Ok (b', x', s) ->
  put p byte (advance b k) x = Ok (if resolved s then b' else advance b' k, x', s).
Proof.
  intros X p byte b b' x x' s k E. unfold put, advance in *.
  cbn [b_dispatcher b_is_index_loaded b_load_count b_ibuf_next b_obuf_next b_obuf_bottom b_bufs].
  ok_inv E m. cbn [bind]. destruct (b_load_count b) as [|count]; [discriminate|].
  destruct (0 <? count).
  { injection E as <- <- <-. reflexivity. }
  destruct (b_is_index_loaded b).
  { ok_inv E r. destruct r as [b2 x2]. injection E as -> -> <-.
    match type of E1 with call_loaded _ ?b1 _ = _ => rewrite <- (call_loaded_advance p b1 k) in E1 end.
    unfold advance in E1. cbn [b_dispatcher b_is_index_loaded b_load_count b_ibuf_next b_obuf_next b_obuf_bottom b_bufs] in E1.
    rewrite E1. reflexivity. }
  ok_inv E r. destruct r as [fr index]. cbn [bind]. destruct (index <? d_size (b_dispatcher b)).
  - ok_inv E act. cbn [bind]. ok_inv E n. cbn [bind]. destruct (n =? 0).
    + ok_inv E r. destruct r as [b2 x2]. injection E as -> -> <-.
      match type of E4 with call_loaded _ ?b1 _ = _ => rewrite <- (call_loaded_advance p b1 k) in E4 end.
      unfold advance in E4. cbn [b_dispatcher b_is_index_loaded b_load_count b_ibuf_next b_obuf_next b_obuf_bottom b_bufs] in E4.
      rewrite E4. reflexivity.
    + injection E as <- <- <-. reflexivity.
  - injection E as <- <- <-. reflexivity.
Qed.

Section Reached.
  Context {X : Type}.
  Variables (p : platform) (dbl : bool) (kr : keyring X) (ft : action_features).
  Hypothesis Hp : wf_platform p.
  Hypothesis Hk : keyring_ok p kr.
  Hypothesis Hs : well_sized dbl kr ft.
  Let fm : format := format_of kr.

  Lemma reached_advance : forall k b a x, reached p dbl kr ft b a x -> k <= length (mc_out a) ->
    run_ops p (repeat Get k) b x = Ok (advance b k, x, map OByte (firstn k (mc_out a)))
    /\ reached p dbl kr ft (advance b k) (mk_machine (mc_in a) (skipn k (mc_out a)) (mc_table a)) x.
  Proof.
    induction k as [|k IH]; intros b a x H Hl; cbn [repeat run_ops firstn skipn map].
    - rewrite advance_0. split; [reflexivity|]. destruct a; exact H.
    - destruct (mc_out a) as [|byte out] eqn:Eo; [cbn [length] in Hl; lia|]. cbn [length] in Hl.
      destruct (reached_represents p dbl kr ft Hp Hk Hs b a x H) as (ni & no & R1 & R2 & R3).
      assert (Eg : get_byte b = Ok (advance b 1, byte)) by (eapply get_byte_cons; eauto).
      destruct (reached_step p dbl kr ft Hp Hk Hs Get b a x (mk_machine (mc_in a) out (mc_table a)) x (OByte byte) H)
        as (b1 & E1 & H1).
      { split; [exact I|right; exact I]. }
      { cbn [mc_step]. unfold mc_get. rewrite Eo. reflexivity. }
      cbn [step] in *. rewrite Eg in *. cbn [bind] in *. injection E1 as <-.
      destruct (IH (advance b 1) _ x H1) as [E2 H2]; [cbn [mc_out]; lia|]. cbn [mc_out mc_in mc_table] in *.
      rewrite E2. cbn [bind]. rewrite advance_advance in *. split; [reflexivity|exact H2].
  Qed.

  Lemma reached_output : forall b a x, reached p dbl kr ft b a x ->
    is_double (b_bufs b) = dbl /\ b_obuf_next b + length (mc_out a) = b_obuf_bottom b
    /\ b_obuf_bottom b <= length (obuf (b_bufs b))
    /\ slice (obuf (b_bufs b)) (b_obuf_next b) (length (mc_out a)) = mc_out a.
  Proof.
    intros b a x H. destruct (reached_represents p dbl kr ft Hp Hk Hs b a x H) as (ni & no & _ & _ & R).
    destruct R as (_ & _ & <- & Hd & _ & _ & H1 & H2 & H3 & _). auto.
  Qed.

  Lemma put_sending : forall b a x ptr irqs sent byte,
    reached p dbl kr ft b a x -> is_byte byte -> servable fm p (mc_table a) (mc_in a ++ [byte]) x ->
    dbl = true \/ mc_out a = [] -> nth 2 irqs 0 = 0 ->
    exists i j b' ptr' irqs' before after,
      let '(a1, x1, s) := mc_put fm byte (mk_machine (mc_in a) (skipn i (mc_out a)) (mc_table a)) x in
      put_s p true byte (mk_sending b ptr x irqs sent)
        = Ok (mk_sending b' ptr' x1 irqs' (sent ++ before ++ after), s)
      /\ run_ops p (repeat Get i ++ Put byte :: repeat Get j) b x
         = Ok (b', x1, map OByte before ++ OStatus s :: map OByte after)
      /\ before ++ skipn i (mc_out a) = mc_out a
      /\ after ++ skipn j (mc_out a1) = mc_out a1
      /\ reached p dbl kr ft b' (mk_machine (mc_in a1) (skipn j (mc_out a1)) (mc_table a1)) x1.
  Proof.
    intros b a x ptr irqs sent byte H Hb Hserv Hcalm Hirq.
    destruct (reached_output b a x H) as (O1 & O2 & O3 & O4).
    destruct (mc_put fm byte a x) as [[a0 x0] s] eqn:Em.
    assert (Hlegit : legitimate p dbl kr ft (Put byte) a x).
    { split; [split; assumption|]. destruct Hcalm; auto. }
    destruct (reached_step p dbl kr ft Hp Hk Hs (Put byte) b a x a0 x0 (OStatus s) H Hlegit) as (b0 & E0 & H0).
    { cbn [mc_step]. fold fm. rewrite Em. reflexivity. }
    cbn [step] in E0. ok_inv E0 q. destruct q as [[b0' x0'] s']. injection E0 as -> -> ->.
    destruct (put_s_ok p byte b x b0 x0 s ptr irqs sent E) as (k & j & ptr' & irqs' & Es & Hk1 & Hj); auto.
    { unfold coherent. lia. }
    { rewrite O1. destruct Hcalm as [-> | Ho]; [left; reflexivity|right]. rewrite Ho in O2. cbn [length] in O2. lia. }
    assert (Hk' : k <= length (mc_out a)) by lia.
    assert (Hsl : slice (obuf (b_bufs b)) (b_obuf_next b) k = firstn k (mc_out a)).
    { rewrite <- O4 at 1. rewrite firstn_slice by lia. reflexivity. }
    destruct (reached_advance k b a x H Hk') as [G1 G2].
    pose proof (put_advance X p byte b b0 x x0 s k E) as Ep.
    set (a_k := mk_machine (mc_in a) (skipn k (mc_out a)) (mc_table a)) in *.
    destruct (mc_put fm byte a_k x) as [[a1 x1] s1] eqn:Em1.
    assert (Hlegit1 : legitimate p dbl kr ft (Put byte) a_k x).
    { split; [split; assumption|]. destruct Hcalm as [Hc|Hc]; auto. right. cbn [half_duplex]. unfold a_k. cbn [mc_out].
      rewrite Hc. apply skipn_nil. }
    destruct (reached_step p dbl kr ft Hp Hk Hs (Put byte) (advance b k) a_k x a1 x1 (OStatus s1) G2 Hlegit1) as (b1 & E1 & H1).
    { cbn [mc_step]. fold fm. rewrite Em1. reflexivity. }
    cbn [step] in E1. rewrite Ep in E1. cbn [bind] in E1. injection E1 as <- <- <-.
    exists k, (if resolved s then j else 0), (advance b0 j), ptr', irqs'.
    exists (firstn k (mc_out a)), (firstn (if resolved s then j else 0) (mc_out a1)).
    fold a_k. rewrite Em1.
    assert (Hj1 : (if resolved s then j else 0) <= length (mc_out a1)
                  /\ advance (if resolved s then b0 else advance b0 k) (if resolved s then j else 0) = advance b0 j
                  /\ (if resolved s then slice (obuf (b_bufs b0)) 0 j else [])
                     = firstn (if resolved s then j else 0) (mc_out a1)).
    { destruct (resolved s).
      - destruct (reached_output b0 a1 x0 H1) as (Q1 & Q2 & Q3 & Q4). destruct Hj as (J1 & J2 & J3).
        split; [lia|]. split; [reflexivity|]. rewrite <- Q4, J1. rewrite firstn_slice by lia. reflexivity.
      - subst j. split; [lia|]. rewrite advance_0. split; reflexivity. }
    destruct Hj1 as (Hj1 & Hj2 & Hj3).
    destruct (reached_advance _ _ a1 x0 H1 Hj1) as [K1 K2]. rewrite Hj2 in K1, K2.
    split; [rewrite Es, Hsl, Hj3; reflexivity|].
    split.
    { rewrite run_ops_app, G1. cbn [bind run_ops step]. rewrite Ep. cbn [bind]. rewrite K1. reflexivity. }
    split; [apply firstn_skipn|]. split; [apply firstn_skipn|]. exact K2.
  Qed.
End Reached.

(** ** C67

    Full statement: a [put] during which interrupts take place, the handlers of
    which send the response byte by byte, is the same as some handlers, then
    [put], then other handlers.  It is false of an interrupt between the two
    assignments of [call] (C67_stale_refuted, C67_outside_refuted) and of a
    compiler which increments [m_obuf_bottom] before it stores the byte
    (C67_order_refuted).  Proved: it holds in all other cases, for any number of
    interrupts at any of the other moments.  The same state is reached, the same
    bytes are sent and the same status is returned. *)
Theorem C67_put_partial : forall (X : Type) p dbl (kr : keyring X) ft b a x ptr irqs sent byte,
  wf_platform p -> keyring_ok p kr -> well_sized dbl kr ft -> reached p dbl kr ft b a x ->
  is_byte byte -> servable (format_of kr) p (mc_table a) (mc_in a ++ [byte]) x ->
  dbl = true \/ mc_out a = [] ->
  nth 2 irqs 0 = 0 ->
  exists i j b' ptr' irqs' before after,
    let '(a1, x1, s) := mc_put (format_of kr) byte (mk_machine (mc_in a) (skipn i (mc_out a)) (mc_table a)) x in
    put_s p true byte (mk_sending b ptr x irqs sent)
      = Ok (mk_sending b' ptr' x1 irqs' (sent ++ before ++ after), s)
    /\ run_ops p (repeat Get i ++ Put byte :: repeat Get j) b x
       = Ok (b', x1, map OByte before ++ OStatus s :: map OByte after)
    /\ before ++ skipn i (mc_out a) = mc_out a
    /\ after ++ skipn j (mc_out a1) = mc_out a1
    /\ reached p dbl kr ft b' (mk_machine (mc_in a1) (skipn j (mc_out a1)) (mc_table a1)) x1.
Proof. intros X p dbl kr ft b a x ptr irqs sent byte Hp Hk Hs. apply put_sending; assumption. Qed.

(** A whole stream, for a double-buffered dispatcher.  [sends]: what may be sent
    while the bytes are received, the machine of SpecBuffered.v sending bytes of
    its response before and after each byte it receives. *)
Inductive sends {X : Type} (fm : format) : list Z -> machine X -> X -> machine X -> X -> list Z -> list packet_status -> Prop :=
| Sends_done : forall a x, sends fm [] a x a x [] []
| Sends_byte : forall byte bytes i table x before rest a1 x1 s after rest1 a2 x2 sent ss,
    mc_put fm byte (mk_machine i rest table) x = (a1, x1, s) ->
    mc_out a1 = after ++ rest1 ->
    sends fm bytes (mk_machine (mc_in a1) rest1 (mc_table a1)) x1 a2 x2 sent ss ->
    sends fm (byte :: bytes) (mk_machine i (before ++ rest) table) x a2 x2 (before ++ after ++ sent) (s :: ss).

(** What was received so far is servable, whatever is sent meanwhile. *)
Fixpoint all_servable {X : Type} (fm : format) (p : platform) (bytes : list Z) (a : machine X) (x : X) : Prop :=
  match bytes with
  | [] => True
  | byte :: bytes' =>
      is_byte byte /\ servable fm p (mc_table a) (mc_in a ++ [byte]) x
      /\ let '(a1, x1, _) := mc_put fm byte a x in all_servable fm p bytes' a1 x1
  end.

Lemma mc_put_output : forall (X : Type) fm byte i out out' table (x : X) a1 x1 s,
  mc_put fm byte (mk_machine i out table) x = (a1, x1, s) ->
  exists out1, mc_put fm byte (mk_machine i out' table) x = (mk_machine (mc_in a1) out1 (mc_table a1), x1, s).
Proof.
  intros X fm byte i out out' table x a1 x1 s H. unfold mc_put, received in *. cbn [mc_in mc_out mc_table] in *.
  destruct (examine fm table (i ++ [byte])) as [| |f payload].
  - injection H as <- <- <-. eauto.
  - injection H as <- <- <-. eauto.
  - destruct (serve fm f payload x) as [x' r]. injection H as <- <- <-. eauto.
Qed.

Lemma all_servable_output : forall (X : Type) fm p bytes i out out' table (x : X),
  all_servable fm p bytes (mk_machine i out table) x -> all_servable fm p bytes (mk_machine i out' table) x.
Proof.
  intros X fm p. induction bytes as [|byte bytes IH]; intros i out out' table x H; cbn [all_servable] in *; auto.
  destruct H as (H1 & H2 & H3). split; auto. split; auto.
  destruct (mc_put fm byte (mk_machine i out table) x) as [[a1 x1] s] eqn:E.
  destruct (mc_put_output X fm byte i out out' table x a1 x1 s E) as (out1 & ->).
  destruct a1. apply (IH _ mc_out). exact H3.
Qed.

Theorem C67_stream_partial : forall (X : Type) p (kr : keyring X) ft bytes w a,
  wf_platform p -> keyring_ok p kr -> well_sized true kr ft -> reached p true kr ft (sn_b w) a (sn_x w) ->
  all_servable (format_of kr) p (map fst bytes) a (sn_x w) ->
  Forall (fun bi => nth 2 (snd bi) 0 = 0) bytes ->
  exists w' ss a' sent,
    puts_s p true bytes w = Ok (w', ss)
    /\ sn_sent w' = sn_sent w ++ sent
    /\ sends (format_of kr) (map fst bytes) a (sn_x w) a' (sn_x w') sent ss
    /\ reached p true kr ft (sn_b w') a' (sn_x w').
Proof.
  intros X p kr ft. induction bytes as [|[byte irqs] bytes IH]; intros w a Hp Hk Hs H Hserv Hirqs; cbn [puts_s map fst snd].
  - exists w, [], a, []. rewrite app_nil_r. split; auto. split; auto. split; [constructor|exact H].
  - inversion Hirqs as [|? ? Hi Hirqs']; subst. cbn [snd] in Hi. cbn [map fst all_servable] in Hserv.
    destruct Hserv as (Hb & Hsv & Hrest).
    destruct (C67_put_partial X p true kr ft (sn_b w) a (sn_x w) (sn_ptr w) irqs (sn_sent w) byte Hp Hk Hs H Hb Hsv)
      as (i & j & b' & ptr' & irqs' & before & after & G); auto.
    destruct a as [inp out table]. cbn [mc_in mc_out mc_table] in *.
    destruct (mc_put (format_of kr) byte (mk_machine inp (skipn i out) table) (sn_x w)) as [[a1 x1] s] eqn:Em.
    destruct G as (G1 & _ & G3 & G4 & G5). rewrite G1. cbn [bind].
    destruct (mc_put_output X _ byte inp (skipn i out) out table (sn_x w) a1 x1 s Em) as (out1 & Em').
    rewrite Em' in Hrest.
    destruct (IH (mk_sending b' ptr' x1 irqs' (sn_sent w ++ before ++ after))
                 (mk_machine (mc_in a1) (skipn j (mc_out a1)) (mc_table a1)) Hp Hk Hs G5)
      as (w2 & ss & a2 & sent & E2 & S2 & R2 & H2); auto.
    { apply (all_servable_output X _ _ _ _ out1). exact Hrest. }
    rewrite E2. cbn [bind sn_sent sn_x] in *.
    exists w2, (s :: ss), a2, (before ++ after ++ sent). split; auto.
    split; [rewrite S2, <- !app_assoc; reflexivity|]. split; auto.
    rewrite <- G3. eapply Sends_byte; eauto.
Qed.

(** The response of 4 bytes is sent while the next request is received; its
    last byte and two bytes of the next response are sent during the last
    [put]. *)
Lemma ex_pending : exists b,
  reached pc_native true ex_keyring ANY b
    (mk_machine [] [0; 0; 0; 3]%Z (map snd (kr_funcs ex_keyring))) [(0, [VInt (-2); VInt 5])]
  /\ b = mk_buffered (make_dispatcher ex_keyring ANY) false 1 0 0 4 (Double [0; 255; 254; 5; 0]%Z [0; 0; 0; 3]%Z).
Proof.
  eexists. split; [|reflexivity].
  exists [], []. eexists. exists ([Put 0; Put 255; Put 254; Put 5]%Z), []. eexists.
  split; [reflexivity|]. split; [legit|]. split; vm_compute; reflexivity.
Qed.

Example C67_example : exists b,
  let a := mk_machine [] [0; 0; 0; 3]%Z (map snd (kr_funcs ex_keyring)) in
  let x := [(0, [VInt (-2); VInt 5])] in
  let bytes := [(0%Z, [1; 0]); (1%Z, [0; 1]); (1%Z, [1]); (2%Z, [1; 4; 0; 0; 0; 0; 5; 0; 1])] in
  reached pc_native true ex_keyring ANY b a x
  /\ all_servable (format_of ex_keyring) pc_native (map fst bytes) a x
  /\ Forall (fun bi => nth 2 (snd bi) 0 = 0) bytes
  /\ exists w', puts_s pc_native true bytes (mk_sending b 0 x [] [])
          = Ok (w', [LOADING_PACKET; LOADING_PACKET; LOADING_PACKET; RESOLVED_PACKET])
        /\ sn_sent w' = [0; 0; 0; 3; 0; 0]%Z
        /\ slice (obuf (b_bufs (sn_b w'))) (b_obuf_next (sn_b w')) 2 = [1; 3]%Z.
Proof.
  destruct ex_pending as (b & H & ->). eexists. cbv zeta. split; [exact H|]. clear H.
  split.
  { cbn [map fst all_servable]. vm_compute. repeat split; try discriminate; try exact I; repeat constructor; try range. }
  split; [repeat constructor|].
  eexists. split; [vm_compute; reflexivity|]. split; vm_compute; reflexivity.
Qed.

(** The responses of two requests were sent.  Then an interrupt takes place in
    the middle of the reset of a request without response: a byte is sent which
    is in no response. *)
Lemma ex_answered : exists b,
  reached pc_native true ex_keyring ANY b (mk_machine [] [] (map snd (kr_funcs ex_keyring)))
    [(2, [VList [VInt 1; VInt 2]]); (0, [VInt (-2); VInt 5])]
  /\ b = mk_buffered (make_dispatcher ex_keyring ANY) false 1 0 2 2 (Double [2; 1; 0; 2; 0]%Z [7; 9; 0; 3]%Z).
Proof.
  eexists. split; [|reflexivity].
  exists [], []. eexists.
  exists ([Put 0; Put 255; Put 254; Put 5; Get; Get; Get; Get; Put 2; Put 1; Put 0; Put 2; Get; Get]%Z), []. eexists.
  split; [reflexivity|]. split; [legit|]. split; vm_compute; reflexivity.
Qed.

Theorem C67_stale_refuted : exists (kr : keyring log) ft b a x byte a1 x1 w',
  keyring_ok pc_native kr /\ well_sized true kr ft /\ reached pc_native true kr ft b a x
  /\ is_byte byte /\ servable (format_of kr) pc_native (mc_table a) (mc_in a ++ [byte]) x
  /\ mc_put (format_of kr) byte a x = (a1, x1, RESOLVED_PACKET) /\ mc_out a = [] /\ mc_out a1 = []
  /\ put_s pc_native true byte (mk_sending b 0 x [0; 0; 2] []) = Ok (w', RESOLVED_PACKET)
  /\ sn_x w' = x1 /\ sn_sent w' = [0; 3]%Z.
Proof.
  destruct ex_answered as (b & H & ->).
  exists ex_keyring, ANY. eexists. eexists. eexists. exists 1%Z. do 3 eexists.
  split; [exact ex_keyring_ok|]. split; [exact (proj1 ex_well_sized)|]. split; [exact H|]. clear H.
  split; [range|]. split; [vm_compute; repeat constructor|]. split; [vm_compute; reflexivity|].
  split; [reflexivity|]. split; [reflexivity|]. split; [vm_compute; reflexivity|]. split; reflexivity.
Qed.

(** When the last response filled the output buffer, the handler reads past its
    end. *)
Theorem C67_outside_refuted : exists (kr : keyring log) ft b a x byte,
  keyring_ok pc_native kr /\ well_sized true kr ft /\ reached pc_native true kr ft b a x
  /\ is_byte byte /\ servable (format_of kr) pc_native (mc_table a) (mc_in a ++ [byte]) x
  /\ mc_out a = []
  /\ put_s pc_native true byte (mk_sending b 0 x [0; 0; 1] []) = Fault OutOfBounds.
Proof.
  assert (G : exists b, reached pc_native true ex_keyring ANY b (mk_machine [] [] (map snd (kr_funcs ex_keyring)))
                [(0, [VInt (-2); VInt 5])]
              /\ b = mk_buffered (make_dispatcher ex_keyring ANY) false 1 0 4 4 (Double [0; 255; 254; 5; 0]%Z [0; 0; 0; 3]%Z)).
  { eexists. split; [|reflexivity]. exists [], []. eexists.
    exists ([Put 0; Put 255; Put 254; Put 5; Get; Get; Get; Get]%Z), []. eexists.
    split; [reflexivity|]. split; [legit|]. split; vm_compute; reflexivity. }
  destruct G as (b & H & ->).
  exists ex_keyring, ANY. eexists. eexists. eexists. exists 1%Z.
  split; [exact ex_keyring_ok|]. split; [exact (proj1 ex_well_sized)|]. split; [exact H|]. clear H.
  split; [range|]. split; [vm_compute; repeat constructor|]. split; reflexivity.
Qed.

(** A compiler may increment [m_obuf_bottom] before it stores the byte: then a
    byte of the response before is sent instead of the first byte of the
    response, which is lost. *)
Theorem C67_order_refuted : exists (kr : keyring log) ft b a x byte a1 x1 w',
  keyring_ok pc_native kr /\ well_sized true kr ft /\ reached pc_native true kr ft b a x
  /\ is_byte byte /\ servable (format_of kr) pc_native (mc_table a) (mc_in a ++ [byte]) x
  /\ mc_put (format_of kr) byte a x = (a1, x1, RESOLVED_PACKET) /\ mc_out a = [] /\ mc_out a1 = [0; 0; 1; 3]%Z
  /\ put_s pc_native false byte (mk_sending b 0 x [0; 0; 0; 0; 1] []) = Ok (w', RESOLVED_PACKET)
  /\ sn_sent w' = [7]%Z /\ b_obuf_next (sn_b w') = 1.
Proof.
  assert (G : exists b, reached pc_native true ex_keyring ANY b (mk_machine [0; 1; 1]%Z [] (map snd (kr_funcs ex_keyring)))
                [(2, [VList [VInt 1; VInt 2]]); (0, [VInt (-2); VInt 5])]
              /\ b = mk_buffered (make_dispatcher ex_keyring ANY) true 1 3 2 2 (Double [0; 1; 1; 2; 0]%Z [7; 9; 0; 3]%Z)).
  { eexists. split; [|reflexivity]. exists [], []. eexists.
    exists ([Put 0; Put 255; Put 254; Put 5; Get; Get; Get; Get; Put 2; Put 1; Put 0; Put 2; Get; Get; Put 0; Put 1; Put 1]%Z), [].
    eexists. split; [reflexivity|]. split; [legit|]. split; vm_compute; reflexivity. }
  destruct G as (b & H & ->).
  exists ex_keyring, ANY. eexists. eexists. eexists. exists 2%Z. do 3 eexists.
  split; [exact ex_keyring_ok|]. split; [exact (proj1 ex_well_sized)|]. split; [exact H|]. clear H.
  split; [range|]. split; [vm_compute; repeat split; repeat constructor; range|]. split; [vm_compute; reflexivity|].
  split; [reflexivity|]. split; [reflexivity|]. split; [vm_compute; reflexivity|]. split; reflexivity.
Qed.

Print Assumptions C67_put_partial.
Print Assumptions C67_stream_partial.
Print Assumptions C67_stale_refuted.
Print Assumptions C67_outside_refuted.
Print Assumptions C67_order_refuted.
