(** Property C108: two devices which both initiate requests and answer each other with
    [reply], statement by statement. *)

From Coq Require Import List ZArith Lia Bool Arith ZifyBool ZifyNat String.
From Verif Require Import Base CInt Spec Conditions MemFacts TypeLevel TypeLevelProofs IntProofs Serial TupleModel SerialProofs Bounds SpecRpc Rpc RpcProofs
  TupleProofs Hosts Closed PropertiesTypes PropertiesRpc Buffered SpecBuffered BufferedProofs PropertiesBuffered
  PropertiesBuffers Counters PropertiesCounters PropertiesPackets PropertiesReply PropertiesStreams Network PropertiesNetwork Pipeline
  PropertiesPipeline Multimaster PropertiesMultimaster.
From Verif Require Cpp Templates Library LibraryProofs PropertiesLibrary PropertiesSource PropertiesMethods.
From Verif Require Import Classes Methods Program Replies ProgramProofs PropertiesProgram PropertiesReplies Masters.
Import ListNotations.
Open Scope string_scope.
Open Scope list_scope.
Open Scope nat_scope.

(** ** One dispatcher *)

Section One.
  Variable p : platform.
  Variable sz : nat.
  Context {X : Type}.
  Variables (dbl : bool) (kr : keyring X) (ft : action_features).
  Hypothesis Hp : wf_platform p.
  Hypothesis Hs : p_int_size p <= sz <= 8.
  Hypothesis Hk : keyring_ok p kr.
  Hypothesis Hw : well_sized dbl kr ft.
  Hypothesis Hd : Forall (fun nf => described sz (snd nf)) (kr_funcs kr).
  Hypothesis Hi : small sz (max_native kr + kr_index_size kr).

  Lemma index_positive' : 1 <= kr_index_size kr.
  Proof. apply (index_size X kr (proj1 Hk)). Qed.
  Lemma index_small' : small sz (kr_index_size kr).
  Proof. unfold small in *. lia. Qed.
  Lemma inputs_small : forall s a n, In s (kr_signatures kr) -> conform_action kr ft s a -> input_size a = Ok n -> small sz n.
  Proof.
    assert (Hwire : Forall (fun s => (Z.of_nat (wire_sizes (sig_params s)) < sizes sz)%Z) (kr_signatures kr)).
    { unfold kr_signatures. rewrite Forall_map. pose proof Hd as Hd'. rewrite Forall_forall in Hd' |- *. intros nf Hin.
      destruct (Hd' nf Hin) as [[_ Hz] _]. destruct Hk as [_ Hk']. rewrite Forall_forall in Hk'. destruct (Hk' nf Hin) as [Hok _].
      rewrite (tuple_size_wire (sig_params (f_sig (snd nf)))) in Hz by (eapply tys_layout; eauto).
      assert (S1 : 1 <= sz) by (destruct Hp; lia).
      pose proof (space_half sz S1) as E. pose proof (half_pos sz S1) as P. unfold sizes. rewrite <- space_pow2.
      clear - Hz E P. lia. }
    intros s a n Hin (f & Ef & Ea) Hn. subst a. unfold small in *.
    destruct ft; cbn [make_action input_size m_func] in Hn; injection Hn as <-.
    + rewrite tuple_size_wire.
      * rewrite Ef. rewrite Forall_forall in Hwire. auto.
      * rewrite Ef. eapply tys_layout. apply (keyring_sig p kr Hk s Hin).
    + rewrite parameters_native, Ef. pose proof (native_le kr s Hin). lia.
  Qed.

  Lemma reached_countable : forall b a x, reached p dbl kr ft b a x -> PropertiesCounters.countable sz kr ft b.
  Proof.
    intros b a x (g & g' & b0 & ops & x0 & vs & Hb & _ & _ & Hr).
    assert (C0 : PropertiesCounters.countable sz kr ft b0).
    { destruct (make_buffered_spec dbl kr ft g g' b0 Hb) as (bufs & -> & Hdb & Hli & Hlo).
      unfold PropertiesCounters.countable. cbn [init_buffered b_dispatcher b_bufs b_load_count make_dispatcher d_keyring d_features].
      split; [reflexivity|]. split; [reflexivity|]. split; [apply make_dispatcher_conform|].
      pose proof index_positive'. unfold small, index_length in *. cbn [make_dispatcher d_keyring].
      assert (List.length (obuf bufs) <= List.length (ibuf bufs)) by (rewrite Hli, Hlo; unfold out_capacity; destruct dbl; lia).
      repeat split; lia. }
    clear Hb. revert b0 x0 vs C0 Hr. induction ops as [|o ops IH]; intros b0 x0 vs C0 Hr; cbn [run_ops] in Hr.
    - injection Hr as <- _ _. exact C0.
    - ok_inv Hr q1. destruct q1 as [[b1 x1] v1]. ok_inv Hr q2. destruct q2 as [[b2 x2] vs2]. injection Hr as <- <- _.
      eapply IH; [|exact E0].
      eapply (proj2 (step_eq p sz kr ft index_positive' index_small' inputs_small o b0 x0 C0)). exact E.
  Qed.

  Lemma reached_fit : forall b a x, reached p dbl kr ft b a x -> mc_table a = map snd (kr_funcs kr) ->
    exists n, forall fuel, n <= fuel -> Forall (action_fits sz fuel) (d_actions (b_dispatcher b)).
  Proof.
    intros b a x R T. destruct (reached_represents p dbl kr ft Hp Hk Hw b a x R) as (ni & no & _ & _ & (T' & _)).
    destruct (all_described_fit X sz (map snd (kr_funcs kr))) as (n & Hn); [rewrite Forall_map; exact Hd|].
    exists n. intros fuel Hf. destruct T' as (_ & _ & -> & _). rewrite T, Forall_map. eapply Forall_impl; [|apply Hn; exact Hf].
    intros f F. destruct ft; exact F.
  Qed.

  Lemma op_src : forall o b a x b' x' v, reached p dbl kr ft b a x -> mc_table a = map snd (kr_funcs kr) ->
    op_func o = [] -> step p o b x = Ok (b', x', v) ->
    exists m, forall fuel, m <= fuel -> step_event p sz fuel (Do o) (in_size_t b) x = Ok (in_size_t b', x', v).
  Proof.
    intros o b a x b' x' v R T Ho E. pose proof (reached_countable b a x R) as C. destruct (reached_fit b a x R T) as (n1 & H1).
    destruct (step_eq p sz kr ft index_positive' index_small' inputs_small o b x C) as [Q _]. rewrite E in Q. cbn [mapped fst snd] in Q.
    destruct (PropertiesMethods.step_source_ok p sz X o (in_size_t b) x _ Hp Hs Q) as (n & Hn); [discriminate|].
    exists (Nat.max (Nat.max 8 n) n1). intros fuel Hf. cbn [step_event].
    destruct (step_statements p sz fuel (host_of p sz Hp Hs) ltac:(lia) o (in_size_t b) x (H1 fuel ltac:(lia))) as [W _].
    { rewrite Ho. constructor. }
    rewrite W. apply Hn. lia.
  Qed.

  Lemma answer_src : forall b a x (dest : destination X) k n garbage b' x' v, reached p dbl kr ft b a x ->
    mc_table a = map snd (kr_funcs kr) -> reply_key k n -> reply_counted sz k n -> Forall is_byte garbage ->
    reply p dest k garbage b x = Some (Ok (b', x', v)) ->
    exists m, forall fuel, m <= fuel ->
      step_event p sz fuel (Answer dest k garbage) (in_size_t b) x = Ok (in_size_t b', x', OBool v).
  Proof.
    intros b a x dest k n garbage b' x' v R T Hkey Hc Hg E. pose proof (reached_countable b a x R) as C.
    destruct (reached_fit b a x R T) as (n1 & H1). destruct C as (_ & _ & _ & _ & C5 & _).
    destruct (reached_represents p dbl kr ft Hp Hk Hw b a x R) as (ni & no & Hroom & _ & R').
    pose proof (reached_out X p dbl kr ft b a x R) as B.
    destruct (reply_ok p sz Hp Hs X dest k n garbage b x Hkey Hc C5) with (fits := n1) as (m & Hm).
    { intros b1 w E1. rewrite (write_to_ok kr ft ni no dbl Hroom _ array_destination b a _ R') in E1.
      destruct (Nat.leb_spec (List.length (mc_out a)) n) as [Hle|Hle].
      - rewrite push_array in E1 by (rewrite local_array_length; lia). cbn [bind] in E1. injection E1 as _ <-. cbn [fst].
        change (splice _ 0 (mc_out a)) with (reply_buffer n garbage (mc_out a)).
        split; [apply reply_buffer_length; exact Hle|apply reply_buffer_bytes; auto].
      - exfalso. ok_inv E1 y. apply push_array_bound in E0; rewrite local_array_length in *; lia. }
    { exact H1. }
    exists m. intros fuel Hf. cbn [step_event]. rewrite (Hm fuel Hf), E. reflexivity.
  Qed.
End One.

(** ** Both devices *)

(** The state of a device as seen by the statements. *)
Definition counted_station {X : Type} (st : station X) : device X :=
  mk_device (st_todo st) (in_size_t (st_b st)) (st_w st).

Section Both.
  Context {X : Type}.
  Variables (d : devices X) (dbl : bool -> bool) (ft : bool -> action_features) (n : bool -> nat) (sz : bool -> nat).
  Hypothesis Hp : forall s, wf_platform (dv_p d s).
  Hypothesis Hk : forall s s', keyring_ok (dv_p d s) (dv_kr d s').
  Hypothesis Hs : forall s, well_sized (dbl s) (dv_kr d s) (ft s).
  Hypothesis Hr : forall s, exists name f, In (name, f) (kr_funcs (dv_kr d s))
    /\ kr_get (dv_kr d s) name f = Some (dv_k d s) /\ f_sig f = mk_sig [TArr (TUns 1) (n s)] None.
  Variables (all : bool -> list val) (x2 : bool -> X).
  Hypothesis Hsz : forall s, p_int_size (dv_p d s) <= sz s <= 8.
  Hypothesis Hd : forall s, Forall (fun nf => described (sz s) (snd nf)) (kr_funcs (dv_kr d s)).
  Hypothesis Hc : forall s, Forall (fun nf => counted (sz (negb s)) (TUns (kr_index_size (dv_kr d s)) :: sig_params (f_sig (snd nf))))
                              (kr_funcs (dv_kr d s)).
  Hypothesis Hi : forall s, small (sz s) (max_native (dkr d s) + kr_index_size (dkr d s)).

  Notation inv := (inv d dbl ft n all x2).
  Notation dkr := (dkr d).

  Lemma device_described : forall s, Forall (fun nf => described (sz s) (snd nf)) (kr_funcs (dkr s)).
  Proof.
    intros s. rewrite Forall_forall. intros nf Hin. apply In_nth_error in Hin. destruct Hin as (i & Hn).
    assert (U : forall f0 : func X, described (sz s) f0 -> described (sz s) (on_user f0)).
    { intros f0 [G1 G2]. split; [exact G1|]. cbn [on_user f_sig f_call]. destruct (sig_ret (f_sig f0)); [|exact I].
      destruct G2 as [G2 G3]. split; [exact G2|]. intros args w. specialize (G3 args (ms_x w)).
      destruct (f_call f0 args (ms_x w)). exact G3. }
    pose proof (Hd s) as D. rewrite Forall_forall in D.
    destruct (Nat.eq_dec i (k_index (dv_k d s))) as [->|Hne].
    - destruct (Hr s) as (name & f & Hin & Hget & Hsig). destruct (response_key d dbl ft n Hp Hk Hs Hr all x2 s) as (_ & _ & name' & Hn').
      assert (nf = (name', on_response (dv_p d s) (mk_sig [TArr (TUns 1) (n s)] None))) by congruence. subst nf.
      destruct (D _ Hin) as [G _]. cbn [snd] in *. rewrite Hsig in G. split; [exact G|exact I].
    - assert (Hl : i < List.length (kr_funcs (dv_kr d s))).
      { rewrite <- (callbacks_length X (dv_p d s) (k_index (dv_k d s))). apply nth_error_Some. cbn [PropertiesMultimaster.dkr device_keyring kr_funcs] in Hn. congruence. }
      apply nth_error_Some in Hl. destruct (nth_error (kr_funcs (dv_kr d s)) i) as [[name f]|] eqn:E; [|congruence].
      pose proof (callbacks_user X (dv_p d s) _ _ i name f Hne E) as G. cbn [PropertiesMultimaster.dkr device_keyring kr_funcs] in Hn.
      assert (nf = (name, on_user f)) by congruence. subst nf. apply U. apply (D (name, f)). eapply nth_error_In. exact E.
  Qed.

  Lemma reply_counts : forall s, reply_counted (sz s) (dv_k d (negb s)) (n (negb s)).
  Proof.
    intros s. destruct (Hr (negb s)) as (name & f & Hin & Hget & Hsig).
    destruct (response_key d dbl ft n Hp Hk Hs Hr all x2 (negb s)) as ((_ & Hn & _) & Ekey & _).
    pose proof (Hc (negb s)) as C. rewrite Forall_forall in C. destruct (C _ Hin) as [_ Hz]. cbn [snd] in Hz.
    rewrite negb_involutive, Hsig in Hz. unfold reply_counted. rewrite Ekey. cbn [k_index_size].
    unfold tuple_size in Hz. rewrite sum17_list_sum in Hz. cbn [sig_params map serialization_size list_sum fold_right] in Hz.
    rewrite sizeof_arr in Hz by (cbn; lia). cbn [sizeof] in Hz. clear - Hz. lia.
  Qed.

  Lemma listen_put : forall m st s c out, inv m st -> ms_out (st_w (st (negb s))) = c :: out ->
    exists b1 a1 w1 v, put (dv_p d s) c (st_b (st s)) (st_w (st s)) = Ok (b1, w1, v)
      /\ reached (dv_p d s) (dbl s) (dkr s) (ft s) b1 a1 w1 /\ mc_table a1 = map snd (kr_funcs (dkr s)).
  Proof.
    intros m st s c out (a & ms & vs & H & ->) Eo.
    pose proof (H s) as (R & T & O & B & Sh & M & L & A & P & V & Lo).
    pose proof (H (negb s)) as (R' & T' & O' & B' & Sh' & M' & L' & A' & P' & V' & Lo'). rewrite negb_involutive in *.
    rewrite Eo in B'.
    destruct (ms (negb s)) as [|[[h [k args]]|h k buf v] rest] eqn:Em.
    { cbn [map concat short] in *. rewrite Sh' in B'. discriminate. }
    - cbn [reqs_of flat_map app map] in L', A'. fold (reqs_of rest) in L', A'. cbn [snd] in L'.
      destruct (locally_inv _ _ _ _ _ _ _ _ L') as [(E & _)|
        (name & f & k' & args' & x1 & r & reqs & vs' & E & Evs & Hin & Hget & Hcp & Hcl & Ll)]; [discriminate|].
      injection E as <- <- <-.
      destruct (key_fields _ name f k Hin Hget) as [Hn Ek].
      inversion A' as [|t l Ha A2 Et]. subst t l. cbn [answerable] in Ha. destruct Ha as [Hne _].
      assert (Hn2 : nth_error (kr_funcs (dkr s)) (k_index k) = Some (name, on_user f)).
      { cbn [PropertiesMultimaster.dkr device_keyring kr_funcs]. apply callbacks_user; auto. }
      set (w1 := mk_master x1 (ms_pending (st_w (st s))) (ms_results (st_w (st s))) (ms_lost (st_w (st s))) (ms_out (st_w (st s)))).
      assert (Hc2 : calls (dv_p d s) (dkr s) (on_user f) args (st_w (st s)) w1 r).
      { destruct Hcl as (C1 & C2 & C3). split; [exact C1|]. split; [|exact C3]. cbn [on_user f_call]. rewrite C2. reflexivity. }
      assert (Epk : packet (dkr s) (k_index k) (on_user f) args = msg_bytes d (negb s) (Req (h, (k, args)))).
      { cbn [msg_bytes]. rewrite (key_packet _ _ name f k args Hin Hget). unfold packet, PropertiesMultimaster.dkr.
        rewrite device_index_size. reflexivity. }
      cbn [map concat short] in B', Sh'. rewrite <- Epk in B', Sh'.
      destruct (put_packet (dv_p d s) (dbl s) (dkr s) (ft s) (Hp s) (dkr_ok d Hk s) (dkr_well_sized d dbl ft Hs s)
                  (st_b (st s)) (a s) (st_w (st s)) (k_index k) name (on_user f) args w1 r c out _ R T O Hn2 Hc2 B' Sh')
        as [(b1 & a1 & E1 & R1 & T1 & _)|(b1 & a1 & E1 & R1 & T1 & _)]; eauto 8.
    - destruct (response_key d dbl ft n Hp Hk Hs Hr all x2 s) as ((Hpar & Hw & Hsp) & Ekey & name & Hn).
      inversion M' as [|t l Hm M2 Et]. subst t l. cbn [msg_ok] in Hm. rewrite negb_involutive in Hm. destruct Hm as (Hlb & Hbb & Hrec).
      cbn [reps_of flat_map app map fst snd] in P, V. fold (reps_of rest) in P, V.
      assert (Hab : array_bytes (map VInt buf) = buf).
      { unfold array_bytes. rewrite map_map. apply map_id. }
      set (w1 := mk_master (ms_x (st_w (st s))) (map fst (reps_of rest) ++ awaited (reqs_of (ms s)))
                   (ms_results (st_w (st s)) ++ [v]) (ms_lost (st_w (st s))) (ms_out (st_w (st s)))).
      assert (Hc2 : calls (dv_p d s) (dkr s) (on_response (dv_p d s) (mk_sig [TArr (TUns 1) (n s)] None)) [VList (map VInt buf)]
                      (st_w (st s)) w1 (VInt 0)).
      { split; [|split; [|exact I]]; cbn [on_response f_sig sig_params f_call].
        - constructor; [|constructor]. rewrite <- Hlb. apply byte_array_encodable. exact Hbb.
        - rewrite P, Hab, Hrec. reflexivity. }
      assert (Epk : packet (dkr s) (k_index (dv_k d s)) (on_response (dv_p d s) (mk_sig [TArr (TUns 1) (n s)] None)) [VList (map VInt buf)]
                    = msg_bytes d (negb s) (Rep h k buf v)).
      { cbn [msg_bytes]. rewrite negb_involutive. unfold packet, request, reply_request.
        cbn [on_response f_sig sig_params enc_list]. rewrite enc_byte_array by auto. rewrite app_nil_r.
        rewrite Ekey at 2 3. cbn [k_e k_index_size]. unfold PropertiesMultimaster.dkr. rewrite device_index_size. reflexivity. }
      cbn [map concat short] in B', Sh'. rewrite <- Epk in B', Sh'.
      destruct (put_packet (dv_p d s) (dbl s) (dkr s) (ft s) (Hp s) (dkr_ok d Hk s) (dkr_well_sized d dbl ft Hs s)
                  (st_b (st s)) (a s) (st_w (st s)) _ name _ _ w1 _ c out _ R T O Hn Hc2 B' Sh')
        as [(b1 & a1 & E1 & R1 & T1 & _)|(b1 & a1 & E1 & R1 & T1 & _)]; eauto 8.
  Qed.

  (** The same state, as seen by the statements. *)
  Definition matches (sst : bool -> device X) (st : bool -> station X) : Prop := forall s, sst s = counted_station (st s).

  Lemma matches_at : forall s a sst st, matches sst st -> matches (at_side s (counted_station a) sst) (at_side s a st).
  Proof. intros s a sst st H s'. unfold at_side. destruct (Bool.eqb s' s); [reflexivity|apply H]. Qed.

  Lemma request_ok : forall m st st' s, inv m st -> make_request d s st = Ok (Some st') ->
    exists m0, forall fuel sst, m0 <= fuel -> matches sst st ->
      exists sst', request_src d sz fuel s sst = Ok (Some sst') /\ matches sst' st'.
  Proof.
    intros m st st' s (a & ms & vs & H & ->) E. unfold make_request in E.
    destruct (st_todo (st s)) as [|[h [k args]] todo] eqn:Et; [discriminate|].
    pose proof (H s) as (_ & _ & _ & _ & _ & _ & L & _). rewrite Et in L.
    destruct (locally_member _ _ _ _ _ _ _ _ k args L) as (name & f & y & y1 & r & Hin & Hget & Hcl).
    { rewrite map_app. apply in_or_app. right. left. reflexivity. }
    destruct (key_fields _ name f k Hin Hget) as [Hn Ek].
    destruct (index_size X (dv_kr d (negb s)) ltac:(apply (Hk s (negb s)))) as (_ & Hsp & _).
    assert (Hlt : k_index k < List.length (kr_funcs (dv_kr d (negb s)))) by (apply nth_error_Some; congruence).
    assert (Kw : k_index_size k = kr_index_size (dv_kr d (negb s))) by (rewrite Ek; reflexivity).
    assert (Ks : k_sig k = f_sig f) by (rewrite Ek; reflexivity).
    pose proof (Hc (negb s)) as C. rewrite Forall_forall in C. specialize (C _ Hin). cbn [snd] in C. rewrite negb_involutive in C.
    destruct (counted_fit _ _ C) as (n1 & H1). rewrite <- Kw, <- Ks in H1.
    exists (Nat.max 8 n1). intros fuel sst Hf Hm. unfold request_src. rewrite (Hm s). cbn [counted_station de_todo de_b de_w]. rewrite Et.
    rewrite (PropertiesLibrary.C102_key_write (dv_p d s) (sz s) fuel (master X) Library.no_source send Library.no_functor k args []
               (st_w (st s)) (host_of _ _ (Hp s) (Hsz s))).
    - destruct (key_write (dv_p d s) k args send (st_w (st s))) as [w|]; cbn [bind] in *; [|discriminate].
      injection E as <-. eexists. split; [reflexivity|].
      match goal with |- matches (at_side _ ?b _) (at_side _ ?a _) => change b with (counted_station a) end.
      apply matches_at. exact Hm.
    - apply H1. lia.
    - lia.
    - rewrite Kw. eapply Z.lt_trans; [|exact Hsp]. lia.
    - rewrite Ks. destruct Hcl as (Henc & _). eapply encodable_has; eauto.
  Qed.

  Lemma listen_ok : forall m st st' s garbage, inv m st -> Forall is_byte garbage -> listen d s garbage st = Ok (Some st') ->
    (forall b (w : master X), reply (dv_p d s) send (dv_k d (negb s)) garbage b w <> None) ->
    exists m0, forall fuel sst, m0 <= fuel -> matches sst st ->
      exists sst', listen_src d sz fuel s garbage sst = Ok (Some sst') /\ matches sst' st'.
  Proof.
    intros m st st' s garbage H Hg E Hn. unfold listen in E.
    destruct (ms_out (st_w (st (negb s)))) as [|c out] eqn:Eo; [discriminate|].
    destruct (listen_put m st s c out H Eo) as (b1 & a1 & w1 & v & E1 & R1 & T1). rewrite E1 in E. cbn [bind] in E.
    destruct H as (a & ms & vs & H & _). pose proof (H s) as (R & T & _).
    pose proof (fun b => op_src (dv_p d s) (sz s) (dbl s) (dkr s) (ft s) (Hp s) (Hsz s) (dkr_ok d Hk s) (dkr_well_sized d dbl ft Hs s)
                  (device_described s) (Hi s) b) as OP.
    destruct (OP (Put c) _ _ _ b1 w1 (OStatus v) R T eq_refl) as (m1 & H1). { cbn [step]. rewrite E1. reflexivity. }
    destruct (OP IsLoaded _ _ _ b1 w1 (OBool (is_loaded b1)) R1 T1 eq_refl eq_refl) as (m2 & H2).
    destruct (is_loaded b1) eqn:El.
    - destruct (reply (dv_p d s) send (dv_k d (negb s)) garbage b1 w1) as [[[[b2 w2] sent]|f]|] eqn:Er; [|discriminate|destruct (Hn _ _ Er)].
      destruct (answer_src (dv_p d s) (sz s) (dbl s) (dkr s) (ft s) (Hp s) (Hsz s) (dkr_ok d Hk s) (dkr_well_sized d dbl ft Hs s)
                  (device_described s) (Hi s) b1 a1 w1 send (dv_k d (negb s)) (n (negb s)) garbage b2 w2 sent R1 T1) as (m3 & H3); auto.
      { apply (response_key d dbl ft n Hp Hk Hs Hr all x2 (negb s)). } { apply reply_counts. }
      exists (Nat.max m1 (Nat.max m2 m3)). intros fuel sst Hf Hm. unfold listen_src. rewrite (Hm (negb s)), (Hm s).
      cbn [counted_station de_todo de_b de_w]. rewrite Eo.
      rewrite H1 by lia. cbn [bind]. rewrite H2 by lia. cbn [bind]. rewrite H3 by lia. cbn [bind].
      destruct sent; injection E as <-; (eexists; split; [reflexivity|]);
      (match goal with |- matches (at_side _ ?b (at_side _ ?c _)) (at_side _ ?a (at_side _ ?e _)) =>
        change b with (counted_station a); change c with (counted_station e) end);
      apply matches_at; apply matches_at; exact Hm.
    - exists (Nat.max m1 m2). intros fuel sst Hf Hm. unfold listen_src. rewrite (Hm (negb s)), (Hm s).
      cbn [counted_station de_todo de_b de_w]. rewrite Eo.
      rewrite H1 by lia. cbn [bind]. rewrite H2 by lia. cbn [bind].
      injection E as <-. eexists. split; [reflexivity|].
      (match goal with |- matches (at_side _ ?b (at_side _ ?c _)) (at_side _ ?a (at_side _ ?e _)) =>
        change b with (counted_station a); change c with (counted_station e) end);
      apply matches_at; apply matches_at; exact Hm.
  Qed.

  Lemma act_ok : forall m st turn o, inv m st -> byte_turn turn -> act d turn st = Ok o ->
    exists m0, forall fuel sst, m0 <= fuel -> matches sst st ->
      match o with
      | None => act_src d sz fuel turn sst = Ok None
      | Some st' => exists sst', act_src d sz fuel turn sst = Ok (Some sst') /\ matches sst' st'
      end.
  Proof.
    intros m st [s [|garbage]] o H Hb E; unfold act, act_src in *; cbn [fst snd byte_turn] in *.
    - destruct o as [st'|]; [eapply request_ok; eauto|]. exists 0. intros fuel sst _ Hm. unfold make_request in E. unfold request_src.
      rewrite (Hm s). cbn [counted_station de_todo]. destruct (st_todo (st s)) as [|[h [k args]] todo]; [reflexivity|].
      destruct (key_write (dv_p d s) k args send (st_w (st s))); discriminate.
    - destruct o as [st'|].
      + eapply listen_ok; eauto. intros b w. unfold reply. destruct (response_key d dbl ft n Hp Hk Hs Hr all x2 (negb s)) as ((Hpar & _) & _).
        rewrite Hpar. discriminate.
      + exists 0. intros fuel sst _ Hm. unfold listen in E. unfold listen_src.
        rewrite (Hm (negb s)). cbn [counted_station de_w]. destruct (ms_out (st_w (st (negb s)))) as [|c out]; [reflexivity|].
        destruct (put _ c _ _) as [[[b1 w1] v]|]; cbn [bind] in E; [|discriminate].
        destruct (is_loaded b1); [|discriminate].
        destruct (reply _ _ _ _ _ _) as [[[[b2 w2] [|]]|f]|]; discriminate.
  Qed.

  Lemma acts_ok : forall turns m st st' k, inv m st -> Forall byte_turn turns -> acts d turns st = Ok (st', k) ->
    exists m0, forall fuel sst, m0 <= fuel -> matches sst st ->
      exists sst', acts_src d sz fuel turns sst = Ok (sst', k) /\ matches sst' st'.
  Proof.
    induction turns as [|turn turns IH]; intros m st st' k H Hb E; cbn [acts acts_src] in *.
    - injection E as <- <-. exists 0. intros fuel sst _ Hm. eauto.
    - inversion Hb as [|t l Hb1 Hb2 Et]. subst t l.
      destruct (inv_act d dbl ft n Hp Hk Hs Hr all x2 m st turn H Hb1) as [Ea|(st1 & m1 & Ea & -> & H1)]; rewrite Ea in E; cbn [bind] in E.
      + destruct (act_ok m st turn None H Hb1 Ea) as (n1 & A). destruct (IH m st st' k H Hb2 E) as (n2 & G).
        exists (Nat.max n1 n2). intros fuel sst Hf Hm. rewrite (A fuel sst ltac:(lia) Hm). cbn [bind]. apply G; [lia|exact Hm].
      + destruct (act_ok _ st turn (Some st1) H Hb1 Ea) as (n1 & A).
        destruct (acts d turns st1) as [[st2 k2]|] eqn:E2; cbn [bind] in E; [|discriminate]. injection E as <- <-.
        destruct (IH m1 st1 st2 k2 H1 Hb2 E2) as (n2 & G).
        exists (Nat.max n1 n2). intros fuel sst Hf Hm. destruct (A fuel sst ltac:(lia) Hm) as (sst1 & A1 & M1). rewrite A1. cbn [bind].
        destruct (G fuel sst1 ltac:(lia) M1) as (sst2 & G1 & M2). rewrite G1. cbn [bind]. eauto.
  Qed.
End Both.

(** ** The property *)

(** The hosts and what they can count: [std::size_t] has [sz s] bytes on device [s]. *)
Definition countable_devices {X : Type} (d : devices X) (sz : bool -> nat) : Prop :=
  (forall s, p_int_size (dv_p d s) <= sz s <= 8)
  /\ (forall s, Forall (fun nf => described (sz s) (snd nf)) (kr_funcs (dv_kr d s)))
  /\ (forall s, Forall (fun nf => counted (sz (negb s)) (TUns (kr_index_size (dv_kr d s)) :: sig_params (f_sig (snd nf))))
                  (kr_funcs (dv_kr d s))).

(** Whatever each device does next, the statements it runs end, nothing undefined
    happens, no response is lost and the values each device got so far are the first
    values of its calls made locally; as long as not everything is done something can be
    done; the number of turns of some effect is known beforehand, and when they were
    taken each device got every value and what its callbacks act on is what it would be
    after the calls of the other device made locally. *)
Theorem C108_every_schedule : forall (X : Type) (d : devices X) dbl ft n sz g g' b todo x vs x2 turns,
  connected d dbl ft n -> countable_devices d sz ->
  (forall s, make_buffered (dbl s) (device_keyring (dv_p d s) (k_index (dv_k d s)) (dv_kr d s)) (ft s) (g s) (g' s) = Some (b s)) ->
  (forall s, (Z.of_nat (List.length (ibuf (b_bufs (b s)))) < 2 ^ (8 * Z.of_nat (sz s)))%Z) ->
  (forall s, locally (dv_p d s) (dv_p d (negb s)) (dv_kr d (negb s)) (map snd (todo s)) (x (negb s)) (vs s) (x2 (negb s))) ->
  (forall s, Forall (answerable (n s) (k_index (dv_k d (negb s)))) (todo s)) ->
  Forall byte_turn turns ->
  exists n0, forall fuel, n0 <= fuel ->
  exists st m, acts_src d sz fuel turns
      (switch_on_src todo (fun s => make_dispatcher (device_keyring (dv_p d s) (k_index (dv_k d s)) (dv_kr d s)) (ft s))
         (fun s => b_bufs (b s)) x) = Ok (st, m)
    /\ m <= total_turns d n todo
    /\ (settled_src st = true <-> m = total_turns d n todo)
    /\ (forall s, ms_lost (de_w (st s)) = false /\ exists rest, ms_results (de_w (st s)) ++ rest = values (vs s))
    /\ (settled_src st = true -> forall s, ms_results (de_w (st s)) = values (vs s) /\ ms_x (de_w (st s)) = x2 s
                                        /\ ms_pending (de_w (st s)) = [])
    /\ (settled_src st = false -> exists turn st', byte_turn turn /\ act_src d sz fuel turn st = Ok (Some st')).
Proof.
  intros X d dbl ft n sz g g' b todo x vs x2 turns HC (Hsz & Hd & Hc) Hb Hib Hl Ha Ht.
  destruct (C73_every_schedule X d dbl ft n g g' b todo x vs x2 turns HC Hb Hl Ha Ht) as (st & m & E & H1 & H2 & H3 & H4 & H5).
  destruct HC as (Hp & Hk & Hs & Hr).
  assert (Hi : forall s, small (sz s) (max_native (dkr d s) + kr_index_size (dkr d s))).
  { intros s. destruct (make_buffered_spec (dbl s) (dkr d s) (ft s) (g s) (g' s) (b s) (Hb s)) as (bufs & Eb & _ & Hli & _).
    specialize (Hib s). rewrite Eb in Hib. cbn [init_buffered b_bufs] in Hib. rewrite Hli in Hib. exact Hib. }
  pose proof (inv_start d dbl ft n (fun s => values (vs s)) x2 g g' b todo x vs Hb Hl Ha ltac:(reflexivity)) as I0.
  destruct (acts_ok d dbl ft n sz Hp Hk Hs Hr _ x2 Hsz Hd Hc Hi turns _ _ st m I0 Ht E) as (n1 & G1).
  assert (G2 : exists n2, forall fuel sst, n2 <= fuel -> matches sst st -> settled st = false ->
            exists turn sst', byte_turn turn /\ act_src d sz fuel turn sst = Ok (Some sst')).
  { destruct (settled st) eqn:Es; [exists 0; discriminate|]. destruct (H5 eq_refl) as (turn & st' & Hbt & Ea).
    destruct (inv_acts d dbl ft n Hp Hk Hs Hr _ x2 turns _ _ I0 Ht) as (st2 & k2 & m2 & E2 & _ & I2).
    assert (st2 = st) by congruence. subst st2.
    destruct (act_ok d dbl ft n sz Hp Hk Hs Hr _ x2 Hsz Hd Hc Hi m2 st turn (Some st') I2 Hbt Ea) as (n2 & G).
    exists n2. intros fuel sst Hf Hm _. destruct (G fuel sst Hf Hm) as (sst' & A & _). eauto. }
  destruct G2 as (n2 & G2). exists (Nat.max n1 n2). intros fuel Hf.
  destruct (G1 fuel (switch_on_src todo (fun s => make_dispatcher (device_keyring (dv_p d s) (k_index (dv_k d s)) (dv_kr d s)) (ft s))
         (fun s => b_bufs (b s)) x)) as (sst & A & M).
  { lia. }
  { intros s. unfold switch_on_src, switch_on, counted_station. cbn [st_todo st_b st_w].
    destruct (make_buffered_spec (dbl s) (dkr d s) (ft s) (g s) (g' s) (b s) (Hb s)) as (bufs & -> & _). reflexivity. }
  exists sst, m.
  assert (Es : settled_src sst = settled st).
  { unfold settled_src, settled. cbn [forallb]. rewrite (M true), (M false). reflexivity. }
  rewrite Es. split; [exact A|]. split; [exact H1|]. split; [exact H2|].
  split. { intros s. rewrite (M s). apply H3. }
  split. { intros Hset s. rewrite (M s). apply H4. exact Hset. }
  intros Hset. apply G2; auto. lia.
Qed.

(** When both devices write requests and receive bytes again and again, everything is
    done at last. *)
Theorem C108_fair : forall (X : Type) (d : devices X) dbl ft n sz g g' b todo x vs x2 rounds,
  connected d dbl ft n -> countable_devices d sz ->
  (forall s, make_buffered (dbl s) (device_keyring (dv_p d s) (k_index (dv_k d s)) (dv_kr d s)) (ft s) (g s) (g' s) = Some (b s)) ->
  (forall s, (Z.of_nat (List.length (ibuf (b_bufs (b s)))) < 2 ^ (8 * Z.of_nat (sz s)))%Z) ->
  (forall s, locally (dv_p d s) (dv_p d (negb s)) (dv_kr d (negb s)) (map snd (todo s)) (x (negb s)) (vs s) (x2 (negb s))) ->
  (forall s, Forall (answerable (n s) (k_index (dv_k d (negb s)))) (todo s)) ->
  Forall (Forall byte_turn) rounds -> Forall full_round rounds -> total_turns d n todo <= List.length rounds ->
  exists n0, forall fuel, n0 <= fuel ->
  exists st, acts_src d sz fuel (List.concat rounds)
      (switch_on_src todo (fun s => make_dispatcher (device_keyring (dv_p d s) (k_index (dv_k d s)) (dv_kr d s)) (ft s))
         (fun s => b_bufs (b s)) x) = Ok (st, total_turns d n todo)
    /\ settled_src st = true /\ forall s, ms_results (de_w (st s)) = values (vs s) /\ ms_x (de_w (st s)) = x2 s.
Proof.
  intros X d dbl ft n sz g g' b todo x vs x2 rounds HC HD Hb Hib Hl Ha Ht Hro Hn.
  destruct (C73_fair X d dbl ft n g g' b todo x vs x2 rounds HC Hb Hl Ha Ht Hro Hn) as (st & E & _).
  destruct (C108_every_schedule X d dbl ft n sz g g' b todo x vs x2 (List.concat rounds) HC HD Hb Hib Hl Ha) as (n0 & H).
  { clear - Ht. induction Ht as [|r rs Hr _ IH]; [constructor|]. cbn [concat]. apply Forall_app. auto. }
  destruct HC as (Hp & Hk & Hs & Hr). destruct HD as (Hsz & Hd & Hc).
  assert (Hi : forall s, small (sz s) (max_native (dkr d s) + kr_index_size (dkr d s))).
  { intros s. destruct (make_buffered_spec (dbl s) (dkr d s) (ft s) (g s) (g' s) (b s) (Hb s)) as (bufs & Eb & _ & Hli & _).
    specialize (Hib s). rewrite Eb in Hib. cbn [init_buffered b_bufs] in Hib. rewrite Hli in Hib. exact Hib. }
  pose proof (inv_start d dbl ft n (fun s => values (vs s)) x2 g g' b todo x vs Hb Hl Ha ltac:(reflexivity)) as I0.
  assert (Hts : Forall byte_turn (List.concat rounds)).
  { clear - Ht. induction Ht as [|r rs Hr _ IH]; [constructor|]. cbn [List.concat]. apply Forall_app. auto. }
  destruct (acts_ok d dbl ft n sz Hp Hk Hs Hr _ x2 Hsz Hd Hc Hi (List.concat rounds) _ _ st (total_turns d n todo) I0 Hts E) as (n1 & G1).
  exists (Nat.max n0 n1). intros fuel Hf. destruct (H fuel ltac:(lia)) as (sst & m & A & _ & Hm & _ & Hfin & _).
  destruct (G1 fuel (switch_on_src todo (fun s => make_dispatcher (device_keyring (dv_p d s) (k_index (dv_k d s)) (dv_kr d s)) (ft s))
         (fun s => b_bufs (b s)) x)) as (sst' & A' & _).
  { lia. }
  { intros s. unfold switch_on_src, switch_on, counted_station. cbn [st_todo st_b st_w].
    destruct (make_buffered_spec (dbl s) (dkr d s) (ft s) (g s) (g' s) (b s) (Hb s)) as (bufs & -> & _). reflexivity. }
  assert (m = total_turns d n todo) by congruence. subst m. exists sst. split; [exact A|].
  assert (Hset : settled_src sst = true) by (apply Hm; reflexivity). split; [exact Hset|].
  intros s. destruct (Hfin Hset s) as (F1 & F2 & _). auto.
Qed.

(** ** Example *)

(** The devices of the example of C73, with callbacks which return values of their types:
    a 16 bit host with a single buffer and a 64 bit host with two. *)
Definition ms_keyring : keyring log := mk_keyring BIG TWOS_COMPLEMENT (kr_funcs ex_program ++ [(40, mm_response)]).
Definition ms_devices : devices log :=
  mk_devices (fun s => if s then avr_portable else pc_native) (fun _ => ms_keyring)
    (fun _ => mk_key 1 3 (f_sig mm_response) BIG TWOS_COMPLEMENT).
Definition ms_sizes (s : bool) : nat := if s then 2 else 8.
Definition ms_todo (s : bool) : list demand :=
  if s then [(true, (mk_key 1 0 (f_sig ex_total) BIG TWOS_COMPLEMENT, [VInt (-2); VInt 5]));
             (false, (mk_key 1 1 (f_sig ex_notify) BIG TWOS_COMPLEMENT, []))]%Z
  else [(false, (mk_key 1 2 (f_sig ex_swap) BIG TWOS_COMPLEMENT, [VList [VInt 1; VInt 7]]))]%Z.

Lemma ms_connected : connected ms_devices negb (fun _ => ANY) (fun _ => 4).
Proof.
  split; [intros [|]; [apply avr_portable_wf|apply pc_native_wf]|]. split; [|split].
  - intros [|] s'; (split; [vm_compute; reflexivity|]); cbn [ms_devices dv_p dv_kr ms_keyring kr_funcs kr_e kr_m ex_program app];
      list_cases; split; cbn [snd f_sig sig_params sig_ret ex_total ex_notify ex_swap mm_response ret_ty_ok]; tyoks.
  - intros [|]; unfold well_sized; cbn [ms_devices dv_kr]; unfold ms_keyring, kr_signatures; cbn [kr_funcs ex_program app map snd]; list_cases;
      (split; [discriminate|]); vm_compute; lia.
  - intros s. exists 40, mm_response. split; [cbn; auto|]. split; reflexivity.
Qed.

Lemma counted_array : forall sz ts, 2 <= sz <= 8 -> In ts [[TArr (TUns 1) 4]; [TUns 1; TArr (TUns 1) 4]] -> counted sz ts.
Proof.
  intros sz ts Hs Hin. pose proof (space_mono 2 sz ltac:(lia)) as s. change (space 2) with 65536%Z in s.
  pose proof (space_half sz ltac:(lia)) as h.
  assert (Hn : (100 < half sz)%Z /\ (100 < space sz)%Z) by lia. clear s h.
  cbn [In] in Hin. destruct Hin as [<-|[<-|[]]]; (split; [|match goal with |- (Z.of_nat ?t < _)%Z => let v := eval vm_compute in t in change t with v end; lia]);
    repeat (apply Forall_cons || apply Forall_nil); cbn [wf_ty LibraryProofs.countable sizeof Nat.mul Nat.add]; repeat split; lia.
Qed.

Lemma ms_countable : countable_devices ms_devices ms_sizes.
Proof.
  assert (B : forall s, 2 <= ms_sizes s <= 8) by (intros [|]; cbn [ms_sizes]; lia).
  split; [intros [|]; cbn; lia|]. split.
  - intros s. cbn [ms_devices dv_kr ms_keyring kr_funcs]. apply Forall_app. split; [apply ex_described; apply B|].
    constructor; [|constructor]. cbn [snd]. split; [apply counted_array; [apply B|cbn; auto]|exact I].
  - intros s. cbn [ms_devices dv_kr]. change (kr_index_size ms_keyring) with 1.
    cbn [ms_keyring kr_funcs ex_program app]. repeat (apply Forall_cons || apply Forall_nil);
      cbn [snd ex_total ex_notify ex_swap mm_response f_sig sig_params]; first [apply counted_ex; [apply B|cbn; auto 12; fail] | apply counted_array; [apply B|cbn; auto; fail]].
Qed.

(** What can be seen of an execution. *)
Definition ms_view (o : res ((bool -> device log) * nat)) : option (nat * bool * list (list val * log * list (bool * key) * bool)) :=
  match o with
  | Ok (st, m) =>
      Some (m, settled_src st, map (fun s => let w := de_w (st s) in (ms_results w, ms_x w, ms_pending w, ms_lost w)) [true; false])
  | Fault _ => None
  end.

Example C108_example : exists b : bool -> buffered (master log),
  connected ms_devices negb (fun _ => ANY) (fun _ => 4) /\ countable_devices ms_devices ms_sizes
  /\ (forall s, make_buffered (negb s) (device_keyring (dv_p ms_devices s) 3 ms_keyring) ANY [] [] = Some (b s))
  /\ (forall s, (Z.of_nat (List.length (ibuf (b_bufs (b s)))) < 2 ^ (8 * Z.of_nat (ms_sizes s)))%Z)
  /\ (forall s, locally (dv_p ms_devices s) (dv_p ms_devices (negb s)) ms_keyring (map snd (ms_todo s)) [] (mm_results s) (mm_after (negb s)))
  /\ (forall s, Forall (answerable 4 3) (ms_todo s))
  /\ total_turns ms_devices (fun _ => 4) ms_todo = 22
  /\ ms_view (acts_src ms_devices ms_sizes 12
       (List.concat (repeat [(true, Request); (false, Listen [99; 98; 97]%Z); (false, Request); (true, Listen [])] 12))
       (switch_on_src ms_todo (fun s => make_dispatcher (device_keyring (dv_p ms_devices s) 3 ms_keyring) ANY) (fun s => b_bufs (b s)) (fun _ => [])))
     = Some (22, true, [([VInt 3%Z], [(2, [VList [VInt 1%Z; VInt 7%Z]])], [], false);
                        ([VList [VInt 7%Z; VInt 9%Z]], [(1, []); (0, [VInt (-2)%Z; VInt 5%Z])], [], false)]).
Proof.
  unshelve (eexists (fun s : bool => if s then _ else _)). 3: split; [exact ms_connected|]; split; [exact ms_countable|];
    split; [intros [|]; reflexivity|]; split; [intros [|]; reflexivity|].
  split.
  { intros [|]; cbn [negb].
    - change (mm_results true) with
        [option_map (fun _ => VInt 3) (sig_ret (f_sig ex_total)); option_map (fun _ => VInt 0) (sig_ret (f_sig ex_notify))]%Z.
      cbn [ms_todo map snd].
      eapply (locally_cons _ _ _ 10 ex_total); [cbn; auto|reflexivity|split; [encs|split; [reflexivity|encs]]..|].
      eapply (locally_cons _ _ _ 20 ex_notify); [cbn; auto|reflexivity|split; [encs|split; [reflexivity|exact I]]..|].
      constructor.
    - change (mm_results false) with [option_map (fun _ => VList [VInt 7; VInt 9]) (sig_ret (f_sig ex_swap))]%Z.
      cbn [ms_todo map snd].
      eapply (locally_cons _ _ _ 30 ex_swap); [cbn; auto|reflexivity|split; [encs|split; [reflexivity|encs]]..|].
      constructor. }
  split. { intros [|]; cbn [ms_todo]; list_cases; (split; [cbn; lia|]); cbn; auto; lia. }
  split; [reflexivity|]. vm_compute. reflexivity.
Qed.

Print Assumptions C108_every_schedule.
Print Assumptions C108_fair.
