(** Property C98: sizes and counters in [std::size_t]. *)

From Coq Require Import List ZArith Lia Bool Arith ZifyBool ZifyNat.
From Verif Require Import Base CInt Spec IntModel Conditions MemFacts TypeLevel Serial TupleModel
  TypeLevelProofs IntProofs SignedProofs SerialProofs CodecFacts Bounds TupleProofs SpecRpc Rpc RpcProofs
  Hosts Closed PropertiesTypes PropertiesRpc Buffered SpecBuffered BufferedProofs PropertiesBuffered
  PropertiesBuffers Counters.
Import ListNotations.
Open Scope nat_scope.

Definition mapped {A B : Type} (f : A -> B) (r : res A) : res B :=
  match r with Ok a => Ok (f a) | Fault e => Fault e end.

(** The members, as natural numbers, seen as objects of type [std::size_t]. *)
Definition in_size_t {X : Type} (b : buffered X) : members X :=
  mk_members (b_dispatcher b) (b_is_index_loaded b) (Z.of_nat (b_load_count b)) (Z.of_nat (b_ibuf_next b))
    (Z.of_nat (b_obuf_next b)) (Z.of_nat (b_obuf_bottom b)) (b_bufs b).

Definition small (sz n : nat) : Prop := (Z.of_nat n < sizes sz)%Z.

Lemma sizes_pos : forall sz, (0 < sizes sz)%Z.
Proof. intros sz. unfold sizes, bits. apply Z.pow_pos_nonneg; lia. Qed.

Lemma incremented_nat : forall sz n, small sz (S n) -> incremented sz (Z.of_nat n) = Z.of_nat (S n).
Proof. intros sz n H. unfold incremented, small in *. rewrite Z.mod_small; lia. Qed.

Lemma decremented_nat : forall sz n, small sz (S n) -> decremented sz (Z.of_nat (S n)) = Z.of_nat n.
Proof. intros sz n H. unfold decremented, small in *. rewrite Z.mod_small; lia. Qed.

(** ** The output of an action *)

Lemma put_each_ext : forall (X : Type) (P : X -> Prop) (d1 d2 : destination X),
  (forall b x, P x -> d1 b x = d2 b x) -> (forall b x x', P x -> d2 b x = Ok x' -> P x') ->
  forall bs x, P x -> put_each d1 bs x = put_each d2 bs x.
Proof.
  intros X P d1 d2 He Hk. induction bs as [|b bs IH]; intros x Hx; cbn [put_each]; auto.
  rewrite He by auto. destruct (d2 b x) as [x'|] eqn:E; cbn [bind]; auto. apply IH. eauto.
Qed.

Lemma run_ext : forall p (X : Type) (P : X -> Prop) (a : action X) src d1 d2 x,
  (forall x x' b, P x -> src x = Ok (x', b) -> P x') ->
  (forall b x, P x -> d1 b x = d2 b x) -> (forall b x x', P x -> d2 b x = Ok x' -> P x') ->
  (forall c args x, action_model a = Some c -> P x -> P (fst (f_call (m_func c) args x))) ->
  P x -> run p a src d1 x = run p a src d2 x.
Proof.
  intros p X P a src d1 d2 x Hs He Hd Hf Hx.
  destruct (action_model a) as [c|] eqn:Ea.
  2:{ destruct a as [[c|]|c]; try discriminate. reflexivity. }
  rewrite !(run_call p X a c src _ x Ea). unfold call.
  destruct (sig_ret (f_sig (m_func c))) as [t|]; auto.
  destruct (read_tuple p (m_e c) (m_m c) (sig_params (f_sig (m_func c))) src x) as [[x1 st]|] eqn:Er; cbn [bind]; auto.
  pose proof (read_tuple_keeps p X P _ _ _ src x x1 st Hs Hx Er) as H1.
  unfold invoke. destruct (get_each _ _ _ st) as [args|]; cbn [bind]; auto.
  pose proof (Hf c args x1 eq_refl H1) as H2. destruct (f_call (m_func c) args x1) as [x2 v]. cbn [fst] in H2.
  unfold insert, write_tuple. destruct (construct _ _ _ _ _ _) as [s|]; cbn [bind]; auto.
  destruct (content _ s) as [bs|]; cbn [bind]; auto. eapply put_each_ext; eauto.
Qed.

Section Simulation.
  Context {X : Type}.
  Variables (p : platform) (sz : nat).

  (** The sizes of the frame are representable. *)
  Definition small_frame (no : nat) (w : frame X) : Prop := length (obuf (fr_bufs w)) = no.

  Lemma source_small : forall no (w w' : frame X) c, small_frame no w -> ibuf_source w = Ok (w', c) -> small_frame no w'.
  Proof.
    intros no w w' c Hw Hc. unfold ibuf_source, iterator_source in Hc. ok_inv Hc q. injection Hc as <- _. exact Hw.
  Qed.

  Lemma destination_small : forall no c (w w' : frame X), small_frame no w -> obuf_destination c w = Ok w' ->
    small_frame no w'.
  Proof.
    intros no c w w' Hw Hc. unfold obuf_destination, iterator_destination in Hc. ok_inv Hc q. injection Hc as <-.
    unfold small_frame in *. cbn [fr_bufs]. rewrite obuf_set_obuf. apply store_length in E. lia.
  Qed.

  Lemma destination_eq : forall no c (w : frame X), small sz no -> small_frame no w ->
    destination_w sz c w = obuf_destination c w.
  Proof.
    intros no c w Hs Hw. unfold destination_w, obuf_destination, iterator_destination.
    destruct (store (obuf (fr_bufs w)) (fr_bottom w) c) as [m|] eqn:E; cbn [bind]; auto.
    apply store_inv in E. cbn [fr_bufs fr_iptr fr_world].
    rewrite incremented_nat, Nat2Z.id; auto. unfold small, small_frame in *. lia.
  Qed.

  Lemma call_eq : forall (b : buffered X) x, small sz (length (obuf (b_bufs b))) ->
    call_w p sz (in_size_t b) x = mapped (fun r => (in_size_t (fst r), snd r)) (call_loaded p b x).
  Proof.
    intros b x Hs. unfold call_w, call_loaded. cbn [in_size_t s_dispatcher s_bufs].
    destruct (get_index p (framed_dispatcher (b_dispatcher b)) ibuf_source (mk_frame (b_bufs b) 0 0 x))
      as [[w1 i]|] eqn:Ei; cbn [bind mapped]; auto.
    assert (H1 : small_frame (length (obuf (b_bufs b))) w1).
    { unfold get_index in Ei. ok_inv Ei r. destruct r as [w1' st]. ok_inv Ei v. destruct v as [z|]; [|discriminate].
      injection Ei as <- _. eapply read_tuple_keeps; [apply source_small| |exact E]. reflexivity. }
    destruct (action_at (framed_dispatcher (b_dispatcher b)) i) as [a|] eqn:Ea; cbn [bind mapped]; auto.
    rewrite (run_ext p (frame X) (small_frame (length (obuf (b_bufs b)))) a ibuf_source (destination_w sz) obuf_destination w1).
    - destruct (run p a ibuf_source obuf_destination w1) as [w2|]; reflexivity.
    - apply source_small.
    - intros c w Hw. eapply destination_eq; eauto.
    - apply destination_small.
    - intros c args w Hc Hw. unfold action_at, framed_dispatcher in Ea. cbn [d_actions] in Ea.
      rewrite nth_error_map in Ea. destruct (nth_error (d_actions (b_dispatcher b)) i) as [a'|]; [|discriminate].
      cbn [option_map] in Ea. injection Ea as <-.
      assert (exists g, m_func c = framed g) as [g ->].
      { destruct a' as [[q|]|q]; cbn in Hc; try discriminate; injection Hc as <-; cbn; eauto. }
      cbn [framed f_call]. destruct (f_call g args (fr_world w)). exact Hw.
    - exact H1.
  Qed.

  Lemma call_loaded_output : forall (b b' : buffered X) x x', call_loaded p b x = Ok (b', x') ->
    length (obuf (b_bufs b')) = length (obuf (b_bufs b)).
  Proof.
    intros b b' x x' H. unfold call_loaded in H. ok_inv H r. destruct r as [w1 i]. ok_inv H a. ok_inv H w2.
    assert (H1 : small_frame (length (obuf (b_bufs b))) w1).
    { unfold get_index in E. ok_inv E r. destruct r as [w1' st]. ok_inv E v. destruct v as [z|]; [|discriminate].
      injection E as <- _. eapply read_tuple_keeps; [apply source_small| |exact E2]. reflexivity. }
    assert (H2 : small_frame (length (obuf (b_bufs b))) w2).
    { eapply run_keeps; [apply source_small|apply destination_small| |exact H1|exact E1].
      intros c args w Hc Hw. unfold action_at, framed_dispatcher in E0. cbn [d_actions] in E0.
      rewrite nth_error_map in E0. destruct (nth_error (d_actions (b_dispatcher b)) i) as [a'|]; [|discriminate].
      cbn [option_map] in E0. injection E0 as <-.
      assert (exists g, m_func c = framed g) as [g ->].
      { destruct a' as [[q|]|q]; cbn in Hc; try discriminate; injection Hc as <-; cbn; eauto. }
      cbn [framed f_call]. destruct (f_call g args (fr_world w)). exact Hw. }
    assert (Hb : b' = mk_buffered (b_dispatcher b) false (index_length (b_dispatcher b)) 0 0 (fr_bottom w2) (fr_bufs w2))
      by congruence.
    rewrite Hb. exact H2.
  Qed.

  (** ** The states *)

  Variables (kr : keyring X) (ft : action_features).

  Definition countable (b : buffered X) : Prop :=
    d_keyring (b_dispatcher b) = kr /\ d_features (b_dispatcher b) = ft /\ conform (b_dispatcher b)
    /\ small sz (length (ibuf (b_bufs b))) /\ small sz (length (obuf (b_bufs b)))
    /\ 0 < b_load_count b /\ small sz (b_load_count b).

  Hypothesis Hindex : 1 <= kr_index_size kr.
  Hypothesis Hindex_small : small sz (kr_index_size kr).
  Hypothesis Hinputs : forall s a n, In s (kr_signatures kr) -> conform_action kr ft s a -> input_size a = Ok n ->
    small sz n.

  Lemma put_eq : forall byte b x, countable b ->
    put_w p sz byte (in_size_t b) x = mapped (fun r => (in_size_t (fst (fst r)), snd (fst r), snd r)) (put p byte b x)
    /\ forall b' x' s, put p byte b x = Ok (b', x', s) -> countable b'.
  Proof.
    intros byte b x (H1 & H2 & H3 & H4 & H5 & H6 & H7). unfold put_w, put.
    cbn [in_size_t s_dispatcher s_bufs s_ibuf_next s_load_count s_is_index_loaded s_obuf_next s_obuf_bottom].
    rewrite Nat2Z.id. destruct (store (ibuf (b_bufs b)) (b_ibuf_next b) byte) as [m|] eqn:Es; cbn [bind mapped].
    2:{ split; [auto|discriminate]. }
    pose proof (store_length _ _ _ _ Es) as Hl. apply store_inv in Es.
    assert (Hi : small sz (length (ibuf (set_ibuf m (b_bufs b))))) by (rewrite ibuf_set_ibuf; unfold small in *; lia).
    assert (Ho : small sz (length (obuf (set_ibuf m (b_bufs b))))).
    { destruct (b_bufs b); cbn in *; unfold small in *; lia. }
    destruct (b_load_count b) as [|count] eqn:Ec; [lia|].
    rewrite decremented_nat by auto. rewrite incremented_nat by (unfold small in *; lia).
    assert (Hcall : forall b1 b2 y, b_dispatcher b1 = b_dispatcher b -> small sz (length (ibuf (b_bufs b1))) ->
              small sz (length (obuf (b_bufs b1))) -> call_loaded p b1 x = Ok (b2, y) -> countable b2).
    { intros b1 b2 y Hd Hbi Hbo Hc. pose proof (call_loaded_output b1 b2 x y Hc) as K6.
      destruct (call_loaded_keeps p X b1 b2 x y Hc) as (K1 & K2 & K3 & K4 & K5).
      unfold countable. rewrite K1, K3, K5, K6, Hd. unfold index_length. rewrite H1. auto 10. }
    destruct (0 <? count) eqn:Hc.
    { replace (0 <? Z.of_nat count)%Z with true by lia. split; [reflexivity|].
      intros b' x' s E. injection E as <- _ _. unfold countable. cbn [b_dispatcher b_bufs b_load_count].
      repeat (split; [auto|]); [lia|]. unfold small in *. lia. }
    replace (0 <? Z.of_nat count)%Z with false by lia.
    destruct (b_is_index_loaded b) eqn:El.
    - set (b1 := mk_buffered (b_dispatcher b) true count (S (b_ibuf_next b)) (b_obuf_next b) (b_obuf_bottom b)
                  (set_ibuf m (b_bufs b))).
      pose proof (call_eq b1 x Ho) as Hq. unfold in_size_t at 1 in Hq. cbn [b1 b_dispatcher b_is_index_loaded b_load_count
        b_ibuf_next b_obuf_next b_obuf_bottom b_bufs] in Hq. rewrite Hq.
      split; [destruct (call_loaded p b1 x) as [[b2 y]|]; reflexivity|].
      intros b' x' s E. ok_inv E r. destruct r as [b2 y]. injection E as <- _ _.
      eapply (Hcall b1); eauto.
    - destruct (get_index p _ ibuf_source (mk_frame (set_ibuf m (b_bufs b)) 0 0 x)) as [[w i]|] eqn:Ei;
        cbn [bind mapped]; [|split; [auto|discriminate]].
      destruct (i <? d_size (b_dispatcher b)) eqn:Hlt.
      + destruct (action_at (b_dispatcher b) i) as [a|] eqn:Ea; cbn [bind mapped]; [|split; [auto|discriminate]].
        unfold input_size_w.
        destruct (input_size a) as [n|] eqn:En; cbn [bind mapped]; [|split; [auto|discriminate]].
        assert (Hn : small sz n).
        { unfold action_at in Ea. destruct (nth_error (d_actions (b_dispatcher b)) i) as [a0|] eqn:Eai; [|discriminate].
          injection Ea as ->.
          assert (Hi' : i < length (kr_signatures (d_keyring (b_dispatcher b)))).
          { assert (i < length (d_actions (b_dispatcher b))) by (apply nth_error_Some; congruence).
            apply Forall2_length in H3. rewrite H3. auto. }
          destruct (nth_error (kr_signatures (d_keyring (b_dispatcher b))) i) as [s|] eqn:Esi;
            [|apply nth_error_None in Esi; lia].
          pose proof (Forall2_nth2 _ _ _ _ _ i _ _ H3 Esi Eai) as Hca. rewrite H1, H2 in Hca. rewrite H1 in Esi.
          eapply (Hinputs s a n); eauto. eapply nth_error_In; eauto. }
        rewrite Z.mod_small by (unfold small in Hn; lia).
        destruct (n =? 0) eqn:E0.
        * replace (Z.of_nat n =? 0)%Z with true by lia.
          set (b1 := mk_buffered (b_dispatcher b) true n (S (b_ibuf_next b)) (b_obuf_next b) (b_obuf_bottom b)
                      (set_ibuf m (b_bufs b))).
          pose proof (call_eq b1 x Ho) as Hq. unfold in_size_t at 1 in Hq. cbn [b1 b_dispatcher b_is_index_loaded b_load_count
            b_ibuf_next b_obuf_next b_obuf_bottom b_bufs] in Hq. rewrite Hq.
          split; [destruct (call_loaded p b1 x) as [[b2 y]|]; reflexivity|].
          intros b' x' s E. ok_inv E r. destruct r as [b2 y]. injection E as <- _ _.
          eapply (Hcall b1); eauto.
        * replace (Z.of_nat n =? 0)%Z with false by lia. split; [reflexivity|].
          intros b' x' s E. injection E as <- _ _. unfold countable. cbn [b_dispatcher b_bufs b_load_count].
          repeat (split; [auto|]); [lia|auto].
      + split; [reflexivity|].
        intros b' x' s E. injection E as <- _ _. unfold countable, index_length. cbn [b_dispatcher b_bufs b_load_count].
        rewrite H1. auto 10.
  Qed.

  Lemma is_loaded_eq : forall b : buffered X, is_loaded_w (in_size_t b) = is_loaded b.
  Proof. intros b. unfold is_loaded_w, is_loaded, in_size_t. cbn. f_equal. lia. Qed.

  Lemma get_eq : forall b, countable b ->
    get_w sz (in_size_t b) = mapped (fun r => (in_size_t (fst r), snd r)) (get_byte b)
    /\ forall b' c, get_byte b = Ok (b', c) -> countable b'.
  Proof.
    intros b (H1 & H2 & H3 & H4 & H5 & H6 & H7). unfold get_w, get_byte. rewrite is_loaded_eq.
    destruct (is_loaded b).
    - cbn [in_size_t s_dispatcher s_bufs s_ibuf_next s_load_count s_is_index_loaded s_obuf_next s_obuf_bottom].
      rewrite Nat2Z.id. destruct (load (obuf (b_bufs b)) (b_obuf_next b)) as [c|] eqn:E; cbn [bind mapped].
      + apply load_inv in E. rewrite incremented_nat by (unfold small in *; lia). split; [reflexivity|].
        intros b' c' E'. injection E' as <- _. unfold countable. cbn. auto 10.
      + split; [auto|discriminate].
    - split; [reflexivity|]. intros b' c E. injection E as <- _. unfold countable. auto 10.
  Qed.

  Let image (r : buffered X * X * packet_status) := (in_size_t (fst (fst r)), snd (fst r), snd r).

  Lemma read_index_eq : forall src fuel b x s, countable b ->
    read_index_w p sz fuel src (in_size_t b) x s = mapped image (read_index p fuel src b x s)
    /\ forall b' x' s', read_index p fuel src b x s = Ok (b', x', s') -> countable b'.
  Proof.
    intros src. induction fuel as [|fuel IH]; intros b x s Hb; cbn [read_index_w read_index];
      change (s_is_index_loaded (in_size_t b)) with (b_is_index_loaded b);
      destruct (negb (b_is_index_loaded b) && is_loading s).
    1: split; [auto|discriminate].
    1, 3: split; [reflexivity|]; intros b' x' s' E; injection E as <- _ _; exact Hb.
    destruct (src x) as [[x1 c]|]; cbn [bind mapped]; [|split; [auto|discriminate]].
    destruct (put_eq c b x1 Hb) as [Hq Hk]. rewrite Hq.
    destruct (put p c b x1) as [[[b1 x2] s1]|]; cbn [bind mapped fst snd]; [|split; [auto|discriminate]].
    apply IH. eauto.
  Qed.

  Lemma read_payload_eq : forall src fuel b x s, countable b ->
    read_payload_w p sz fuel src (in_size_t b) x s = mapped image (read_payload p fuel src b x s)
    /\ forall b' x' s', read_payload p fuel src b x s = Ok (b', x', s') -> countable b'.
  Proof.
    intros src. induction fuel as [|fuel IH]; intros b x s Hb; cbn [read_payload_w read_payload];
      change (s_is_index_loaded (in_size_t b)) with (b_is_index_loaded b);
      destruct (b_is_index_loaded b).
    1: split; [auto|discriminate].
    1, 3: split; [reflexivity|]; intros b' x' s' E; injection E as <- _ _; exact Hb.
    destruct (src x) as [[x1 c]|]; cbn [bind mapped]; [|split; [auto|discriminate]].
    destruct (put_eq c b x1 Hb) as [Hq Hk]. rewrite Hq.
    destruct (put p c b x1) as [[[b1 x2] s1]|]; cbn [bind mapped fst snd]; [|split; [auto|discriminate]].
    apply IH. eauto.
  Qed.

  Lemma read_from_eq : forall src b x, countable b ->
    read_from_w p sz src (in_size_t b) x = mapped image (read_from p src b x)
    /\ forall b' x' s', read_from p src b x = Ok (b', x', s') -> countable b'.
  Proof.
    intros src b x Hb. unfold read_from_w, read_from.
    change (s_load_count (in_size_t b)) with (Z.of_nat (b_load_count b)). rewrite Nat2Z.id.
    destruct (read_index_eq src (S (b_load_count b)) b x LOADING_PACKET Hb) as [Hq Hk]. rewrite Hq.
    destruct (read_index p (S (b_load_count b)) src b x LOADING_PACKET) as [[[b1 x1] s1]|]; cbn [bind mapped];
      [|split; [auto|discriminate]].
    unfold image. cbn [fst snd]. change (s_load_count (in_size_t b1)) with (Z.of_nat (b_load_count b1)). rewrite Nat2Z.id.
    apply read_payload_eq. eauto.
  Qed.

  Lemma write_loop_eq : forall dest fuel b x, countable b ->
    write_loop_w sz fuel dest (in_size_t b) x
    = mapped (fun r : buffered X * X => (in_size_t (fst r), snd r)) (write_loop fuel dest b x)
    /\ forall b' x', write_loop fuel dest b x = Ok (b', x') -> countable b'.
  Proof.
    intros dest. induction fuel as [|fuel IH]; intros b x Hb; cbn [write_loop_w write_loop]; rewrite is_loaded_eq;
      destruct (is_loaded b).
    1: split; [auto|discriminate].
    1, 3: split; [reflexivity|]; intros b' x' E; injection E as <- _; exact Hb.
    destruct (get_eq b Hb) as [Hq Hk]. rewrite Hq.
    destruct (get_byte b) as [[b1 c]|]; cbn [bind mapped fst snd]; [|split; [auto|discriminate]].
    destruct (dest c x) as [x1|]; cbn [bind mapped]; [|split; [auto|discriminate]].
    apply IH. eauto.
  Qed.

  Lemma step_eq : forall o b x, countable b ->
    step_w p sz o (in_size_t b) x = mapped (fun r => (in_size_t (fst (fst r)), snd (fst r), snd r)) (step p o b x)
    /\ forall b' x' v, step p o b x = Ok (b', x', v) -> countable b'.
  Proof.
    intros o b x Hb. destruct o as [byte| | |src|dest|src dest|i r|g|]; cbn [step_w step].
    - destruct (put_eq byte b x Hb) as [Hq Hk]. rewrite Hq.
      destruct (put p byte b x) as [[[b1 x1] s]|]; cbn [bind mapped fst snd]; [|split; [auto|discriminate]].
      split; [reflexivity|]. intros b' x' v E. injection E as <- _ _. eauto.
    - destruct (get_eq b Hb) as [Hq Hk]. rewrite Hq.
      destruct (get_byte b) as [[b1 c]|]; cbn [bind mapped fst snd]; [|split; [auto|discriminate]].
      split; [reflexivity|]. intros b' x' v E. injection E as <- _ _. eauto.
    - rewrite is_loaded_eq. split; [reflexivity|]. intros b' x' v E. injection E as <- _ _. auto.
    - destruct (read_from_eq src b x Hb) as [Hq Hk]. rewrite Hq.
      destruct (read_from p src b x) as [[[b1 x1] s]|]; cbn [bind mapped fst snd]; [|split; [auto|discriminate]].
      split; [reflexivity|]. intros b' x' v E. injection E as <- _ _. eauto.
    - unfold write_to_w, write_to. change (s_bufs (in_size_t b)) with (b_bufs b).
      destruct (write_loop_eq dest (S (length (obuf (b_bufs b)))) b x Hb) as [Hq Hk]. rewrite Hq.
      destruct (write_loop _ dest b x) as [[b1 x1]|]; cbn [bind mapped fst snd]; [|split; [auto|discriminate]].
      split; [reflexivity|]. intros b' x' v E. injection E as <- _ _. eauto.
    - unfold process_w, process. destruct (read_from_eq src b x Hb) as [Hq Hk]. rewrite Hq.
      destruct (read_from p src b x) as [[[b1 x1] s]|]; cbn [bind mapped]; [|split; [auto|discriminate]].
      unfold image. cbn [fst snd]. specialize (Hk b1 x1 s eq_refl).
      destruct s; cbn [bind mapped fst snd].
      1, 2: split; [reflexivity|]; intros b' x' v E; injection E as <- _ _; auto.
      unfold write_to_w, write_to. change (s_bufs (in_size_t b1)) with (b_bufs b1).
      destruct (write_loop_eq dest (S (length (obuf (b_bufs b1)))) b1 x1 Hk) as [Hq1 Hk1]. rewrite Hq1.
      destruct (write_loop _ dest b1 x1) as [[b2 x2]|]; cbn [bind mapped fst snd]; [|split; [auto|discriminate]].
      split; [reflexivity|]. intros b' x' v E. injection E as <- _ _. eauto.
    - unfold replace_buffered. cbn [in_size_t s_dispatcher].
      destruct (replace (b_dispatcher b) i r) as [[d|f]|] eqn:Er; cbn [bind mapped fst snd];
        [|split; [auto|discriminate]|split; [auto|discriminate]].
      split; [reflexivity|]. intros b' x' v E. injection E as <- _ _.
      destruct Hb as (H1 & H2 & H3 & H4 & H5 & H6 & H7).
      destruct (replace_conform X (b_dispatcher b) i r d H3 Er) as (K1 & K2 & K3).
      unfold countable. cbn [b_dispatcher b_bufs b_load_count]. rewrite K2, K3. auto 10.
    - split; [reflexivity|]. intros b' x' v E. injection E as <- _ _. auto.
    - destruct b as [d l c n on ob bufs]. destruct d as [k f acts]. split; [reflexivity|].
      intros b' x' v E. injection E as <- _ _. exact Hb.
  Qed.

  Lemma run_eq : forall ops b x, countable b ->
    run_w p sz ops (in_size_t b) x
    = mapped (fun r => (in_size_t (fst (fst r)), snd (fst r), snd r)) (run_ops p ops b x).
  Proof.
    induction ops as [|o ops IH]; intros b x Hb; cbn [run_w run_ops]; auto.
    destruct (step_eq o b x Hb) as [Hq Hk]. rewrite Hq.
    destruct (step p o b x) as [[[b1 x1] v]|]; cbn [bind mapped fst snd]; auto.
    rewrite IH by eauto. destruct (run_ops p ops b1 x1) as [[[b2 x2] vs]|]; reflexivity.
  Qed.
End Simulation.

(** ** C98 *)

Theorem C98_counters : forall p sz (X : Type) dbl (kr : keyring X) ft g g' b ops x,
  keyring_ok p kr -> make_buffered dbl kr ft g g' = Some b ->
  (Z.of_nat (length (ibuf (b_bufs b))) < 2 ^ (8 * Z.of_nat sz))%Z ->
  Forall (fun s => (Z.of_nat (wire_sizes (sig_params s)) < 2 ^ (8 * Z.of_nat sz))%Z) (kr_signatures kr) ->
  run_w p sz ops (init_members (make_dispatcher kr ft) (b_bufs b)) x
  = match run_ops p ops b x with
    | Ok (b', x', vs) =>
        Ok (mk_members (b_dispatcher b') (b_is_index_loaded b') (Z.of_nat (b_load_count b')) (Z.of_nat (b_ibuf_next b'))
              (Z.of_nat (b_obuf_next b')) (Z.of_nat (b_obuf_bottom b')) (b_bufs b'), x', vs)
    | Fault f => Fault f
    end.
Proof.
  intros p sz X dbl kr ft g g' b ops x Hk Hb Hi Hw.
  destruct (make_buffered_spec dbl kr ft g g' b Hb) as (bufs & -> & Hd & Hli & Hlo).
  cbn [init_buffered b_bufs] in *. destruct (index_size X kr (proj1 Hk)) as ((H1 & _) & _).
  change (2 ^ (8 * Z.of_nat sz))%Z with (sizes sz) in *.
  change (init_members (make_dispatcher kr ft) bufs) with (in_size_t (init_buffered (make_dispatcher kr ft) bufs)).
  rewrite (run_eq p sz kr ft).
  - unfold init_buffered. destruct (run_ops p ops _ x) as [[[b' x'] vs]|]; reflexivity.
  - exact H1.
  - unfold small. lia.
  - intros s a n Hs (f & Ef & Ea) Hn. subst a. unfold small.
    destruct ft; cbn [make_action input_size m_func] in Hn; injection Hn as <-.
    + rewrite tuple_size_wire.
      * rewrite Ef. rewrite Forall_forall in Hw. auto.
      * rewrite Ef. eapply tys_layout. apply (keyring_sig p kr Hk s Hs).
    + rewrite parameters_native, Ef. pose proof (native_le kr s Hs). lia.
  - unfold countable. cbn [init_buffered b_dispatcher b_bufs b_load_count make_dispatcher d_keyring d_features].
    split; [reflexivity|]. split; [reflexivity|]. split; [apply make_dispatcher_conform|].
    unfold small, index_length. cbn [make_dispatcher d_keyring].
    assert (length (obuf bufs) <= length (ibuf bufs)) by (rewrite Hli, Hlo; unfold out_capacity; destruct dbl; lia).
    repeat split; lia.
Qed.

Lemma fold_add_size : forall sz l a, fold_left (add_size sz) l (a mod sizes sz)%Z
  = ((a + fold_right Z.add 0 l) mod sizes sz)%Z.
Proof.
  intros sz. induction l as [|x l IH]; intros a; cbn [fold_left fold_right].
  - f_equal. lia.
  - unfold add_size at 2. rewrite Z.add_mod_idemp_l by (pose proof (sizes_pos sz); lia). rewrite IH. f_equal. lia.
Qed.

Lemma sum_w_mod : forall sz l, sum_w sz l = (fold_right Z.add 0 l mod sizes sz)%Z.
Proof.
  intros sz l. unfold sum_w. rewrite <- (Zmod_0_l (sizes sz)) at 1. rewrite fold_add_size. f_equal.
Qed.

Lemma fold_of_nat : forall (A : Type) (f : A -> nat) l,
  fold_right Z.add 0%Z (map (fun a => Z.of_nat (f a)) l) = Z.of_nat (list_sum (map f l)).
Proof.
  intros A f. induction l as [|a l IH]; cbn [map fold_right]; auto. rewrite IH.
  change (list_sum (f a :: map f l)) with (f a + list_sum (map f l)). lia.
Qed.

Lemma parameters_size_w_mod : forall sz s, parameters_size_w sz s = (Z.of_nat (native_sizes s) mod sizes sz)%Z.
Proof. intros sz s. unfold parameters_size_w. rewrite sum_w_mod, fold_of_nat. reflexivity. Qed.

Lemma mod_id : forall sz n, (Z.of_nat n mod sizes sz = Z.of_nat n <-> Z.of_nat n < sizes sz)%Z.
Proof.
  intros sz n. pose proof (sizes_pos sz) as Hp. split; intros H.
  - pose proof (Z.mod_pos_bound (Z.of_nat n) (sizes sz) Hp). lia.
  - apply Z.mod_small. lia.
Qed.

(** The storage of a tuple. *)
Theorem C98_tuple : forall p e m sz ts, Forall (ty_ok p e m) ts ->
  (tuple_size_w sz ts = Z.of_nat (wire_sizes ts) <-> (Z.of_nat (wire_sizes ts) < 2 ^ (8 * Z.of_nat sz))%Z)
  /\ (0 <= tuple_size_w sz ts <= Z.of_nat (wire_sizes ts))%Z.
Proof.
  intros p e m sz ts H. change (2 ^ (8 * Z.of_nat sz))%Z with (sizes sz).
  assert (E : tuple_size_w sz ts = (Z.of_nat (wire_sizes ts) mod sizes sz)%Z).
  { unfold tuple_size_w. rewrite sum_w_mod, fold_of_nat. do 2 f_equal.
    unfold wire_sizes. rewrite map_serialization_size; [reflexivity|]. eapply tys_layout; eauto. }
  rewrite E. split; [apply mod_id|]. pose proof (sizes_pos sz). split.
  - apply Z.mod_pos_bound. auto.
  - apply Z.mod_le; lia.
Qed.

(** The length of a request, as a key announces it. *)
Theorem C98_payload : forall sz k,
  payload_length_w sz k = Z.of_nat (k_index_size k + native_sizes (k_sig k))
  <-> (Z.of_nat (k_index_size k + native_sizes (k_sig k)) < 2 ^ (8 * Z.of_nat sz))%Z.
Proof.
  intros sz k. change (2 ^ (8 * Z.of_nat sz))%Z with (sizes sz). unfold payload_length_w, add_size.
  rewrite parameters_size_w_mod, Z.add_mod_idemp_r by (pose proof (sizes_pos sz); lia).
  rewrite <- Nat2Z.inj_add. apply mod_id.
Qed.

Lemma greatest_spec : forall l r, greatest l = Some r -> In r l /\ forall x, In x l -> (x <= r)%Z.
Proof.
  intros l r H. destruct l as [|v l]; [discriminate|]. cbn [greatest] in H.
  assert (G : forall l a, (a <= fold_left Z.max l a)%Z /\ (forall x, In x l -> (x <= fold_left Z.max l a)%Z)
                          /\ (fold_left Z.max l a = a \/ In (fold_left Z.max l a) l)).
  { clear. induction l as [|x l IH]; intros a; cbn [fold_left].
    - split; [lia|]. split; [intros y []|auto].
    - destruct (IH (Z.max a x)) as (H1 & H2 & H3). split; [lia|]. split.
      + intros y [->|Hy]; [lia|auto].
      + destruct H3 as [H3|H3]; [|right; right; auto]. rewrite H3. destruct (Z.max_spec a x) as [[_ ->]|[_ ->]]; cbn; auto. }
  destruct (G (v :: l) v) as (_ & H2 & H3).
  assert (E : r = fold_left Z.max (v :: l) v) by congruence. rewrite E. split; auto.
  destruct H3 as [->|H3]; [left|]; auto.
Qed.

(** The input buffer, when it can be declared, holds every request if and only if the
    length of every request is a [std::size_t]. *)
Theorem C98_input_buffer : forall sz cpp17 (X : Type) (kr : keyring X) n,
  needed_input_w sz cpp17 kr = Some n ->
  (Forall (fun s => (Z.of_nat (kr_index_size kr + native_sizes s) <= n)%Z) (kr_signatures kr)
   <-> Forall (fun s => (Z.of_nat (kr_index_size kr + native_sizes s) < 2 ^ (8 * Z.of_nat sz))%Z) (kr_signatures kr)).
Proof.
  intros sz cpp17 X kr n H. change (2 ^ (8 * Z.of_nat sz))%Z with (sizes sz). pose proof (sizes_pos sz) as Hp.
  unfold needed_input_w in H.
  destruct (greatest (map (parameters_size_w sz) (kr_signatures kr))) as [m|] eqn:Em; [|discriminate].
  destruct (greatest_spec _ _ Em) as [H1 H2].
  assert (Hn : (n < sizes sz)%Z /\ n = ((m + Z.of_nat (kr_index_size kr)) mod sizes sz)%Z).
  { assert (Hm : (0 <= m)%Z).
    { apply in_map_iff in H1. destruct H1 as (s & <- & _). rewrite parameters_size_w_mod. apply Z.mod_pos_bound. auto. }
    assert (Hmod : ((m + Z.of_nat (kr_index_size kr)) mod sizes sz < sizes sz)%Z) by (apply Z.mod_pos_bound; auto).
    destruct cpp17.
    - destruct (m <? 2 ^ 63)%Z; [|discriminate]. destruct (sz <? 8).
      + destruct (Z.ltb_spec (m + Z.of_nat (kr_index_size kr)) (sizes sz)) as [Hl|Hl]; [|discriminate].
        injection H as <-. split; auto. rewrite Z.mod_small; lia.
      + injection H as <-. auto.
    - injection H as <-. auto. }
  destruct Hn as [Hn ->]. split; intros Ha; rewrite Forall_forall in *; intros s Hs.
  - specialize (Ha s Hs). cbn beta in Ha. lia.
  - assert (E : forall s, In s (kr_signatures kr) -> parameters_size_w sz s = Z.of_nat (native_sizes s)).
    { intros s' Hs'. rewrite parameters_size_w_mod. apply mod_id. specialize (Ha s' Hs'). cbn beta in Ha. lia. }
    apply in_map_iff in H1. destruct H1 as (s0 & Es0 & Hs0). rewrite (E s0 Hs0) in Es0.
    pose proof (Ha s0 Hs0) as Ha0. cbn beta in Ha0.
    specialize (H2 (parameters_size_w sz s) (in_map _ _ _ Hs)). rewrite (E s Hs) in H2.
    rewrite Z.mod_small by lia. lia.
Qed.

(** The two buffers can be declared unless the keyring is empty or, in C++17, the
    greatest [sizeof] does not fit [long long]; the input buffer moreover not, in C++17,
    when [std::size_t] is narrower than [unsigned long long] and the sum does not fit it. *)
Theorem C98_declared : forall sz cpp17 (X : Type) (kr : keyring X),
  let fits := kr_funcs kr <> []
    /\ (cpp17 = true -> Forall (fun s => (Z.of_nat (native_sizes s) mod 2 ^ (8 * Z.of_nat sz) < 2 ^ 63)%Z) (kr_signatures kr)) in
  (needed_output_w sz cpp17 kr <> None <-> fits)
  /\ (needed_input_w sz cpp17 kr <> None
      <-> fits /\ (cpp17 = true -> sz < 8 ->
                   Forall (fun s => (Z.of_nat (native_sizes s) mod 2 ^ (8 * Z.of_nat sz) + Z.of_nat (kr_index_size kr)
                                     < 2 ^ (8 * Z.of_nat sz))%Z) (kr_signatures kr))).
Proof.
  intros sz cpp17 X kr fits. subst fits. change (2 ^ (8 * Z.of_nat sz))%Z with (sizes sz).
  unfold needed_output_w, needed_input_w. generalize (2 ^ 63)%Z as big. intros big.
  destruct (greatest (map (parameters_size_w sz) (kr_signatures kr))) as [m|] eqn:Em.
  2:{ assert (E : kr_funcs kr = []).
      { unfold kr_signatures in Em. destruct (kr_funcs kr); [reflexivity|discriminate]. }
      split; split; intros H; try congruence; exfalso; try apply H; auto. }
  assert (Hne : kr_funcs kr <> []).
  { intros E. unfold kr_signatures in Em. rewrite E in Em. discriminate. }
  destruct (greatest_spec _ _ Em) as [H1 H2].
  apply in_map_iff in H1. destruct H1 as (s0 & Es0 & Hs0). rewrite parameters_size_w_mod in Es0.
  assert (All : forall k b, (Forall (fun s => (Z.of_nat (native_sizes s) mod sizes sz + k < b)%Z) (kr_signatures kr) <-> (m + k < b)%Z)).
  { intros k b. rewrite Forall_forall. split.
    - intros H. specialize (H s0 Hs0). cbn beta in H. lia.
    - intros H s Hs. specialize (H2 (parameters_size_w sz s) (in_map _ _ _ Hs)). rewrite parameters_size_w_mod in H2. lia. }
  assert (All0 : Forall (fun s => (Z.of_nat (native_sizes s) mod sizes sz < big)%Z) (kr_signatures kr) <-> (m < big)%Z).
  { rewrite <- (Z.add_0_r m), <- (All 0%Z big), !Forall_forall. setoid_rewrite Z.add_0_r. reflexivity. }
  rewrite All0, All. clear All All0 Em H2 Hs0 Es0.
  destruct cpp17; cbn [andb].
  - destruct (Z.ltb_spec m big) as [Hb|Hb]; cbn [negb].
    + split; [split; [auto|congruence]|].
      destruct (Nat.ltb_spec sz 8) as [H8|H8].
      * destruct (Z.ltb_spec (m + Z.of_nat (kr_index_size kr)) (sizes sz)) as [Hl|Hl].
        -- split; [auto|congruence].
        -- split; [congruence|]. intros [_ H]. specialize (H eq_refl H8). lia.
      * split; [|congruence]. intros _. split; [auto|]. intros _ H. lia.
    + split; (split; [congruence|]); [intros [_ H]|intros [[_ H] _]]; specialize (H eq_refl); lia.
  - split; split; try congruence; intros _; repeat split; try congruence; intros H; discriminate H.
Qed.

(** Then it is the buffer of the other properties. *)
Theorem C98_same_buffer : forall sz cpp17 (X : Type) (kr : keyring X),
  kr_funcs kr <> [] ->
  Forall (fun s => (Z.of_nat (kr_index_size kr + native_sizes s) < 2 ^ (8 * Z.of_nat sz))%Z
                   /\ (Z.of_nat (native_sizes s) < 2 ^ 63)%Z) (kr_signatures kr) ->
  needed_input_w sz cpp17 kr = Some (Z.of_nat (max_native kr + kr_index_size kr))
  /\ needed_output_w sz cpp17 kr = Some (Z.of_nat (max_native kr)).
Proof.
  intros sz cpp17 X kr Hne Ha. change (2 ^ (8 * Z.of_nat sz))%Z with (sizes sz) in Ha. rewrite Forall_forall in Ha.
  assert (E : forall s, In s (kr_signatures kr) -> parameters_size_w sz s = Z.of_nat (native_sizes s)).
  { intros s' Hs'. rewrite parameters_size_w_mod. apply mod_id. specialize (Ha s' Hs'). cbn beta in Ha. destruct Ha as [Ha _]. lia. }
  assert (Eg : exists m, greatest (map (parameters_size_w sz) (kr_signatures kr)) = Some m).
  { unfold kr_signatures. destruct (kr_funcs kr) as [|nf l]; [congruence|]. cbn [map greatest]. eauto. }
  destruct Eg as [m Em]. unfold needed_input_w, needed_output_w. rewrite Em.
  destruct (greatest_spec _ _ Em) as [H1 H2].
  apply in_map_iff in H1. destruct H1 as (s0 & Es0 & Hs0). rewrite (E s0 Hs0) in Es0.
  assert (Emax : max_native kr = native_sizes s0).
  { apply Nat.le_antisymm; [|apply native_le; auto]. unfold max_native. apply list_max_le. apply Forall_forall.
    intros k Hk. apply in_map_iff in Hk. destruct Hk as (s & <- & Hs).
    specialize (H2 (parameters_size_w sz s) (in_map _ _ _ Hs)). rewrite (E s Hs) in H2. lia. }
  destruct (Ha s0 Hs0) as [Ha1 Ha2]. rewrite Emax. rewrite <- Es0 in *.
  replace (Z.of_nat (native_sizes s0) <? 2 ^ 63)%Z with true by (symmetry; apply Z.ltb_lt; exact Ha2).
  replace (Z.of_nat (native_sizes s0) + Z.of_nat (kr_index_size kr) <? sizes sz)%Z with true by (symmetry; apply Z.ltb_lt; clear Ha2; lia).
  rewrite Z.mod_small by (clear Ha2; lia). rewrite Nat2Z.inj_add.
  destruct cpp17; [destruct (sz <? 8)|]; cbn [andb negb]; auto.
Qed.

(** ** Examples *)

(** A microcontroller whose [std::size_t] has two bytes. *)
Example C98_example : exists b,
  keyring_ok pc_native ex_keyring /\ make_buffered true ex_keyring ANY [9; 9; 9]%Z [] = Some b
  /\ (Z.of_nat (length (ibuf (b_bufs b))) < 2 ^ (8 * Z.of_nat 2))%Z
  /\ Forall (fun s => (Z.of_nat (wire_sizes (sig_params s)) < 2 ^ (8 * Z.of_nat 2))%Z) (kr_signatures ex_keyring)
  /\ match run_w pc_native 2 ex_history (init_members (make_dispatcher ex_keyring ANY) (b_bufs b)) [] with
     | Ok (m, x, vs) =>
         (s_load_count m, s_ibuf_next m, s_obuf_next m, s_obuf_bottom m, length x, length vs) = (1, 0, 0, 0, 4%nat, 22%nat)%Z
     | Fault _ => False
     end.
Proof.
  eexists. split; [exact ex_keyring_ok|]. split; [reflexivity|]. split; [reflexivity|]. split.
  - unfold ex_keyring, kr_signatures; cbn [kr_funcs map snd]. list_cases; vm_compute; reflexivity.
  - vm_compute. reflexivity.
Qed.

(** The requests of [void f(std::array<byte_t, 30000>, std::array<byte_t, 30000>,
    std::array<byte_t, 5600>)] have 65601 bytes.  The buffer compiles, in either
    standard, and has 65. *)
Definition ex_wide (ns : list nat) : keyring unit :=
  mk_keyring LITTLE TWOS_COMPLEMENT [(10, mk_func (mk_sig (map (TArr (TUns 1)) ns) None) (fun _ x => (x, VInt 0)))].

Theorem C98_refuted : exists kr : keyring unit,
  Forall (fun s => Forall (fun t => (Z.of_nat (sizeof t) < 2 ^ 15)%Z) (sig_params s)) (kr_signatures kr)
  /\ (forall cpp17, needed_input_w 2 cpp17 kr = Some 65%Z)
  /\ map (fun s => Z.of_nat (kr_index_size kr + native_sizes s)) (kr_signatures kr) = [65601]%Z.
Proof.
  exists (ex_wide [30 * 1000; 30 * 1000; 56 * 100]). split.
  - unfold ex_wide, kr_signatures. cbn [kr_funcs map snd f_sig sig_params]. list_cases; vm_compute; reflexivity.
  - split; [intros []|]; vm_compute; reflexivity.
Qed.

(** When only the addition of the index wraps, C++17 refuses the program and C++11
    declares a buffer without any byte. *)
Theorem C98_standard_refuted : exists kr : keyring unit,
  Forall (fun s => Forall (fun t => (Z.of_nat (sizeof t) < 2 ^ 15)%Z) (sig_params s)) (kr_signatures kr)
  /\ needed_input_w 2 true kr = None /\ needed_input_w 2 false kr = Some 0%Z.
Proof.
  exists (ex_wide [30 * 1000; 30 * 1000; 50 * 110; 35]). split.
  - unfold ex_wide, kr_signatures. cbn [kr_funcs map snd f_sig sig_params]. list_cases; vm_compute; reflexivity.
  - split; vm_compute; reflexivity.
Qed.

(** C98_input_buffer and C98_same_buffer: both cases occur. *)
Example C98_example_sizes :
  needed_input_w 2 true ex_keyring = Some 5%Z /\ needed_input_w 2 false ex_keyring = Some 5%Z
  /\ needed_output_w 2 true ex_keyring = Some 4%Z
  /\ Forall (fun s => (Z.of_nat (kr_index_size ex_keyring + native_sizes s) < 2 ^ (8 * Z.of_nat 2))%Z
                      /\ (Z.of_nat (native_sizes s) < 2 ^ 63)%Z) (kr_signatures ex_keyring)
  /\ tuple_size_w 1 [TArr (TUns 1) 200; TUns 4; TArr (TUns 2) 40] = 28%Z
  /\ wire_sizes [TArr (TUns 1) 200; TUns 4; TArr (TUns 2) 40] = 284
  /\ payload_length_w 1 (mk_key 1 0 (mk_sig [TArr (TUns 1) 200; TUns 4; TArr (TUns 2) 40] None) BIG TWOS_COMPLEMENT) = 29%Z
  /\ payload_length_w 2 ex_key_add = 4%Z.
Proof.
  split; [reflexivity|]. split; [reflexivity|]. split; [reflexivity|]. split.
  - unfold ex_keyring, kr_signatures; cbn [kr_funcs map snd]. list_cases; split; vm_compute; reflexivity.
  - repeat (split; [vm_compute; reflexivity|]). vm_compute; reflexivity.
Qed.

Print Assumptions C98_counters.
Print Assumptions C98_tuple.
Print Assumptions C98_payload.
Print Assumptions C98_input_buffer.
Print Assumptions C98_declared.
Print Assumptions C98_same_buffer.
Print Assumptions C98_refuted.
Print Assumptions C98_standard_refuted.
