(** Properties C36 and C37: the buffers of the buffered dispatchers are not
    overflowed. *)

From Coq Require Import List ZArith Lia Bool Arith.
From Verif Require Import Base CInt Spec IntModel Conditions MemFacts TypeLevel Serial TupleModel
  TypeLevelProofs IntProofs SignedProofs SerialProofs CodecFacts Bounds TupleProofs SpecRpc Rpc RpcProofs
  Hosts Closed PropertiesTypes PropertiesRpc Buffered SpecBuffered BufferedProofs PropertiesBuffered.
Import ListNotations.
Open Scope nat_scope.

(** ** What actions do to the world *)

Lemma fill_keeps : forall (X : Type) (P : X -> Prop) (src : source X),
  (forall x x' b, P x -> src x = Ok (x', b) -> P x') ->
  forall k pos x mem x' mem', P x -> fill src k pos x mem = Ok (x', mem') -> P x'.
Proof.
  intros X P src Hs. induction k as [|k IH]; intros pos x mem x' mem' Hx H; cbn [fill] in H.
  - injection H as <- _. auto.
  - ok_inv H r. destruct r as [x1 b]. ok_inv H m. eapply IH; [|exact H]. eauto.
Qed.

Lemma read_tuple_keeps : forall p (X : Type) (P : X -> Prop) e m ts (src : source X) x x' st,
  (forall x x' b, P x -> src x = Ok (x', b) -> P x') ->
  P x -> read_tuple p e m ts src x = Ok (x', st) -> P x'.
Proof.
  intros p X P e m ts src x x' st Hs Hx H. unfold read_tuple in H. ok_inv H s. eapply fill_keeps; eauto.
Qed.

Lemma put_each_keeps : forall (X : Type) (P : X -> Prop) (dest : destination X),
  (forall b x x', P x -> dest b x = Ok x' -> P x') ->
  forall bs x x', P x -> put_each dest bs x = Ok x' -> P x'.
Proof.
  intros X P dest Hd. induction bs as [|b bs IH]; intros x x' Hx H; cbn [put_each] in H.
  - injection H as <-. auto.
  - ok_inv H x1. eauto.
Qed.

Lemma run_keeps : forall p (X : Type) (P : X -> Prop) (a : action X) src dest x x',
  (forall x x' b, P x -> src x = Ok (x', b) -> P x') ->
  (forall b x x', P x -> dest b x = Ok x' -> P x') ->
  (forall c args x, action_model a = Some c -> P x -> P (fst (f_call (m_func c) args x))) ->
  P x -> run p a src dest x = Ok x' -> P x'.
Proof.
  intros p X P a src dest x x' Hs Hd Hf Hx H.
  destruct (action_model a) as [c|] eqn:Ea.
  2:{ destruct a as [[c|]|c]; try discriminate. cbn in H. injection H as <-. auto. }
  rewrite (run_call p X a c src dest x Ea) in H. unfold call in H.
  assert (Hi : forall ts st y y' r, P y -> invoke p (tuple_at (m_e c) (m_m c) ts 0) (f_call (m_func c)) st y = Ok (y', r) ->
            P y').
  { intros ts st y y' r Hy Hv. unfold invoke in Hv. ok_inv Hv args.
    assert (E' : f_call (m_func c) args y = (y', r)) by congruence.
    pose proof (Hf c args y eq_refl Hy) as Hp. rewrite E' in Hp. auto. }
  destruct (sig_ret (f_sig (m_func c))) as [t|].
  - ok_inv H r. destruct r as [x1 st]. ok_inv H r. destruct r as [x2 v].
    unfold insert, write_tuple in H. ok_inv H s. ok_inv H bs.
    eapply put_each_keeps; [exact Hd| |exact H]. eapply Hi; [|exact E0]. eapply read_tuple_keeps; eauto.
  - ok_inv H r. destruct r as [x1 st]. ok_inv H r. destruct r as [x2 v].
    injection H as <-. eapply Hi; [|exact E0]. eapply read_tuple_keeps; eauto.
Qed.

Lemma store_length : forall mem i b m, store mem i b = Ok m -> length m = length mem.
Proof.
  intros mem i b m H. destruct (Nat.lt_ge_cases i (length mem)) as [Hi|Hi].
  - rewrite store_ok in H by auto. injection H as <-. apply splice_length. cbn. lia.
  - rewrite store_oob in H by auto. discriminate.
Qed.

Lemma call_loaded_keeps : forall p (X : Type) (b b' : buffered X) x x', call_loaded p b x = Ok (b', x') ->
  b_dispatcher b' = b_dispatcher b /\ b_is_index_loaded b' = false
  /\ b_load_count b' = index_length (b_dispatcher b) /\ b_ibuf_next b' = 0
  /\ length (ibuf (b_bufs b')) = length (ibuf (b_bufs b)).
Proof.
  intros p X b b' x x' H. unfold call_loaded in H. ok_inv H r. destruct r as [w1 i]. ok_inv H a. ok_inv H w2.
  set (P := fun w : frame X => is_double (fr_bufs w) = is_double (b_bufs b)
                               /\ length (ibuf (fr_bufs w)) = length (ibuf (b_bufs b))
                               /\ length (obuf (fr_bufs w)) = length (obuf (b_bufs b))).
  assert (Hsrc : forall w w' c, P w -> ibuf_source w = Ok (w', c) -> P w').
  { intros w w' c Hw Hc. unfold ibuf_source, iterator_source in Hc. ok_inv Hc q. injection Hc as <- _. exact Hw. }
  assert (Hdest : forall c w w', P w -> obuf_destination c w = Ok w' -> P w').
  { intros c w w' Hw Hc. unfold obuf_destination, iterator_destination in Hc. ok_inv Hc q. injection Hc as <-.
    unfold P in *. cbn [fr_bufs]. apply store_length in E2. destruct (fr_bufs w) as [m|m m']; cbn in *; intuition; congruence. }
  assert (H1 : P w1).
  { unfold get_index in E. ok_inv E r. destruct r as [w1' st]. ok_inv E v. destruct v as [z|]; [|discriminate].
    injection E as <- _. eapply read_tuple_keeps with (P := P); [exact Hsrc| |exact E2]. unfold P. cbn. auto. }
  assert (H2 : P w2).
  { eapply run_keeps with (P := P); [exact Hsrc|exact Hdest| |exact H1|exact E1].
    intros c args w Hc Hw. unfold action_at, framed_dispatcher in E0. cbn [d_actions] in E0.
    rewrite nth_error_map in E0. destruct (nth_error (d_actions (b_dispatcher b)) i) as [a'|]; [|discriminate].
    cbn [option_map] in E0. injection E0 as <-.
    assert (exists g, m_func c = framed g) as [g ->].
    { destruct a' as [[q|]|q]; cbn in Hc; try discriminate; injection Hc as <-; cbn; eauto. }
    cbn [framed f_call]. destruct (f_call g args (fr_world w)). exact Hw. }
  assert (Hb : b' = mk_buffered (b_dispatcher b) false (index_length (b_dispatcher b)) 0 0 (fr_bottom w2) (fr_bufs w2))
    by congruence.
  rewrite Hb. cbn [b_dispatcher b_is_index_loaded b_load_count b_ibuf_next b_bufs]. repeat (split; auto). apply H2.
Qed.

(** ** C36 *)

(** The states a dispatcher goes through, byte after byte: whatever the bytes,
    the worlds in which they are received, and the other operations. *)
Inductive becomes {X : Type} (p : platform) (b0 : buffered X) : buffered X -> Prop :=
| becomes_self : becomes p b0 b0
| becomes_put : forall b byte x b' x' s, becomes p b0 b -> put p byte b x = Ok (b', x', s) -> becomes p b0 b'
| becomes_get : forall b b' byte, becomes p b0 b -> get_byte b = Ok (b', byte) -> becomes p b0 b'
| becomes_replace : forall b i r b', becomes p b0 b -> replace_buffered b i r = Some (Ok b') -> becomes p b0 b'
| becomes_move : forall b, becomes p b0 b -> becomes p b0 (fst (move_buffered b)).

(** The other operations are sequences of these. *)
Lemma becomes_step : forall p (X : Type) (b0 : buffered X) o b x b' x' v,
  becomes p b0 b -> step p o b x = Ok (b', x', v) -> becomes p b0 b'.
Proof.
  intros p X b0.
  assert (Hri : forall src fuel b x s b' x' s', becomes p b0 b -> read_index p fuel src b x s = Ok (b', x', s') ->
            becomes p b0 b').
  { intros src. induction fuel as [|fuel IH]; intros b x s b' x' s' Hb H; cbn [read_index] in H.
    - destruct (_ && _); [discriminate|]. injection H as <- _ _. auto.
    - destruct (_ && _); [|injection H as <- _ _; auto]. ok_inv H r. destruct r as [x1 c]. ok_inv H r.
      destruct r as [[b1 x2] s1]. eapply IH; [|exact H]. eapply becomes_put; eauto. }
  assert (Hrp : forall src fuel b x s b' x' s', becomes p b0 b -> read_payload p fuel src b x s = Ok (b', x', s') ->
            becomes p b0 b').
  { intros src. induction fuel as [|fuel IH]; intros b x s b' x' s' Hb H; cbn [read_payload] in H.
    - destruct (b_is_index_loaded b); [discriminate|]. injection H as <- _ _. auto.
    - destruct (b_is_index_loaded b); [|injection H as <- _ _; auto]. ok_inv H r. destruct r as [x1 c]. ok_inv H r.
      destruct r as [[b1 x2] s1]. eapply IH; [|exact H]. eapply becomes_put; eauto. }
  assert (Hr : forall src b x b' x' s, becomes p b0 b -> read_from p src b x = Ok (b', x', s) -> becomes p b0 b').
  { intros src b x b' x' s Hb H. unfold read_from in H. ok_inv H r. destruct r as [[b1 x1] s1]. eauto. }
  assert (Hwl : forall (dest : destination X) fuel b x b' x', becomes p b0 b -> write_loop fuel dest b x = Ok (b', x') ->
            becomes p b0 b').
  { intros dest. induction fuel as [|fuel IH]; intros b x b' x' Hb H; cbn [write_loop] in H.
    - destruct (is_loaded b); [discriminate|]. injection H as <- _. auto.
    - destruct (is_loaded b); [|injection H as <- _; auto]. ok_inv H r. destruct r as [b1 c]. ok_inv H y.
      eapply IH; [|exact H]. eapply becomes_get; eauto. }
  intros o b x b' x' v Hb H. destruct o as [byte| | |src|dest|src dest|i r|g|]; cbn [step] in H.
  - ok_inv H r. destruct r as [[b1 x1] s]. injection H as <- _ _. eapply becomes_put; eauto.
  - ok_inv H r. destruct r as [b1 c]. injection H as <- _ _. eapply becomes_get; eauto.
  - injection H as <- _ _. auto.
  - ok_inv H r. destruct r as [[b1 x1] s]. injection H as <- _ _. eauto.
  - ok_inv H r. destruct r as [b1 x1]. injection H as <- _ _. unfold write_to in E. eauto.
  - ok_inv H r. destruct r as [[b1 x1] s]. injection H as <- _ _. unfold process in E. ok_inv E r.
    destruct r as [[b2 x2] s2]. destruct s2; try (injection E as <- _ _; eauto).
    ok_inv E r. destruct r as [b3 x3]. injection E as <- _ _. unfold write_to in E1. eauto.
  - destruct (replace_buffered b i r) as [[b1|f]|] eqn:E; try discriminate. cbn [bind] in H. injection H as <- _ _.
    eapply becomes_replace; eauto.
  - injection H as <- _ _. auto.
  - injection H as <- _ _. apply becomes_move. auto.
Qed.

(** There is room for the next byte and it is expected. *)
Definition room {X : Type} (b : buffered X) : Prop :=
  b_ibuf_next b < length (ibuf (b_bufs b)) /\ 0 < b_load_count b.

Section Input.
  Context {X : Type}.
  Variables (p : platform) (dbl : bool) (kr : keyring X) (ft : action_features).
  Hypothesis Hp : wf_platform p.
  Hypothesis Hk : keyring_ok p kr.
  Let w := kr_index_size kr.

  Lemma make_buffered_spec : forall g g' b, make_buffered dbl kr ft g g' = Some b ->
    exists bufs, b = init_buffered (make_dispatcher kr ft) bufs /\ is_double bufs = dbl
      /\ length (ibuf bufs) = max_native kr + w /\ length (obuf bufs) = out_capacity dbl kr.
  Proof.
    intros g g' b Hb.
    assert (Hpad : forall m (l : list Z), length (firstn m (l ++ repeat 0%Z m)) = m).
    { intros m l. rewrite firstn_length, app_length, repeat_length. lia. }
    unfold make_buffered, make_double, make_single, needed_input_buffer_size, needed_output_buffer_size,
      out_capacity in *.
    destruct (max17 (map_parameters_size (kr_signatures kr))) as [n|] eqn:Hn; [|destruct dbl; discriminate].
    assert (En : max_native kr = n).
    { unfold max_native. rewrite (max17_list_max _ _ Hn). unfold map_parameters_size. f_equal.
      symmetry. apply map_ext. apply parameters_native. }
    rewrite En. destruct dbl.
    - injection Hb as <-. eexists. split; [reflexivity|]. cbn [ibuf obuf is_double]. auto.
    - destruct (max17 [n + kr_index_size kr; n]) as [r|] eqn:Em; [|discriminate].
      assert (r = n + kr_index_size kr).
      { destruct (max17_spec _ _ Em) as [H1 H2].
        specialize (H2 (n + kr_index_size kr) ltac:(left; reflexivity)). destruct H1 as [H1|[H1|[]]]; lia. }
      subst r. injection Hb as <-. eexists. split; [reflexivity|]. cbn [ibuf obuf is_double]. auto.
  Qed.

  Lemma native_le : forall s, In s (kr_signatures kr) -> native_sizes s <= max_native kr.
  Proof.
    intros s Hs. unfold max_native.
    pose proof (proj1 (list_max_le (map native_sizes (kr_signatures kr)) _) (le_n _)) as H.
    rewrite Forall_forall in H. apply H. apply in_map. auto.
  Qed.

  Lemma keyring_sig : forall s, In s (kr_signatures kr) -> sig_ok p (kr_e kr) (kr_m kr) s.
  Proof.
    intros s Hs. unfold kr_signatures in Hs. apply in_map_iff in Hs. destruct Hs as (nf & <- & Hin).
    destruct Hk as [_ H]. rewrite Forall_forall in H. apply H. auto.
  Qed.

  Definition input_ok (b : buffered X) : Prop :=
    d_keyring (b_dispatcher b) = kr /\ d_features (b_dispatcher b) = ft /\ conform (b_dispatcher b)
    /\ length (ibuf (b_bufs b)) = max_native kr + w
    /\ 0 < b_load_count b /\ b_ibuf_next b + b_load_count b <= max_native kr + w
    /\ (b_is_index_loaded b = false -> b_ibuf_next b + b_load_count b = w).

  Lemma w_pos : 1 <= w.
  Proof. apply (index_size X kr). apply Hk. Qed.

  Hypothesis Hfits : ft = ANY -> Forall (fun s => wire_sizes (sig_params s) <= max_native kr) (kr_signatures kr).

  Lemma input_size_le : forall s a n, In s (kr_signatures kr) -> conform_action kr ft s a -> input_size a = Ok n ->
    n <= max_native kr.
  Proof.
    intros s a n Hs (f & Ef & Ea) Hn. subst a. destruct ft eqn:Eft; cbn [make_action input_size m_func] in Hn; injection Hn as <-.
    - rewrite tuple_size_wire.
      + rewrite Ef. specialize (Hfits eq_refl). rewrite Forall_forall in Hfits. auto.
      + rewrite Ef. eapply tys_layout. apply (keyring_sig s Hs).
    - rewrite parameters_native, Ef. apply native_le. auto.
  Qed.

  Lemma input_ok_put : forall byte b x b' x' s, input_ok b -> put p byte b x = Ok (b', x', s) -> input_ok b'.
  Proof.
    intros byte b x b' x' s (H1 & H2 & H3 & H4 & H5 & H6 & H7) H. unfold put in H. ok_inv H m.
    pose proof w_pos as Hw. pose proof (store_length _ _ _ _ E) as Hlm.
    assert (Hreset : forall bufs on ob, length (ibuf bufs) = max_native kr + w ->
              input_ok (mk_buffered (b_dispatcher b) false (index_length (b_dispatcher b)) 0 on ob bufs)).
    { intros bufs on ob Hl. unfold input_ok, index_length.
      cbn [b_dispatcher b_bufs b_load_count b_ibuf_next b_is_index_loaded].
      rewrite H1. fold w. repeat (split; [solve [auto | lia]|]). lia. }
    assert (Hcall : forall b1 b2 y, b_dispatcher b1 = b_dispatcher b ->
              length (ibuf (b_bufs b1)) = max_native kr + w ->
              call_loaded p b1 x = Ok (b2, y) -> input_ok b2).
    { intros b1 b2 y Hd Hl Hc. destruct (call_loaded_keeps p X b1 b2 x y Hc) as (K1 & K2 & K3 & K4 & K5).
      rewrite Hd in *. destruct b2 as [d' l' c' n' on ob bufs]. cbn [b_dispatcher b_is_index_loaded b_load_count b_ibuf_next b_bufs] in *.
      subst. apply Hreset. lia. }
    destruct (b_load_count b) as [|count] eqn:Ec; [discriminate|].
    destruct (Nat.ltb_spec 0 count) as [Hc|Hc].
    - injection H as <- _ _. unfold input_ok. cbn [b_dispatcher b_bufs b_load_count b_ibuf_next b_is_index_loaded].
      rewrite ibuf_set_ibuf. repeat (split; [solve [auto | lia]|]). intros Hl. specialize (H7 Hl). lia.
    - destruct (b_is_index_loaded b) eqn:El.
      + ok_inv H r. destruct r as [b2 y]. injection H as <- _ _. eapply Hcall; [| |exact E0]; cbn [b_dispatcher b_bufs]; auto.
        rewrite ibuf_set_ibuf. lia.
      + ok_inv H r. destruct r as [w0 i]. destruct (Nat.ltb_spec i (d_size (b_dispatcher b))) as [Hi|Hi].
        * ok_inv H a. ok_inv H n.
          assert (Hn : n <= max_native kr).
          { unfold action_at in E1. destruct (nth_error (d_actions (b_dispatcher b)) i) as [a'|] eqn:Ea; [|discriminate].
            injection E1 as ->. pose proof (Forall2_length H3) as Hlen. unfold conform in H3. rewrite H1, H2 in H3.
            rewrite H1 in Hlen.
            destruct (nth_error (kr_signatures kr) i) as [s0|] eqn:Es.
            - apply (input_size_le s0 a n); auto.
              + eapply nth_error_In; eauto.
              + eapply Forall2_nth2; eauto.
            - apply nth_error_None in Es. assert (i < length (d_actions (b_dispatcher b))) by (apply nth_error_Some; congruence).
              lia. }
          destruct (Nat.eqb_spec n 0) as [Hz|Hz].
          -- ok_inv H r. destruct r as [b3 y]. injection H as <- _ _.
             eapply Hcall; [| |exact E3]; cbn [b_dispatcher b_bufs]; auto. rewrite ibuf_set_ibuf. lia.
          -- injection H as <- _ _. unfold input_ok. cbn [b_dispatcher b_bufs b_load_count b_ibuf_next b_is_index_loaded].
             rewrite ibuf_set_ibuf. specialize (H7 eq_refl). repeat (split; [solve [auto | lia]|]). discriminate.
        * injection H as <- _ _. apply Hreset. rewrite ibuf_set_ibuf. lia.
  Qed.

  Lemma input_ok_becomes : forall b0 b, input_ok b0 -> becomes p b0 b -> input_ok b.
  Proof.
    intros b0 b H0 H. induction H as [|b byte x b' x' s _ IH Hput|b b' byte _ IH Hget|b i r b' _ IH Hrep|b _ IH]; auto.
    - eapply input_ok_put; eauto.
    - unfold get_byte in Hget. destruct (is_loaded b).
      + ok_inv Hget c. injection Hget as <- _. exact IH.
      + injection Hget as <- _. auto.
    - unfold replace_buffered in Hrep. destruct (replace (b_dispatcher b) i r) as [[d|f]|] eqn:Ed; try discriminate.
      injection Hrep as <-. destruct IH as (H1 & H2 & H3 & H4).
      destruct (replace_conform X _ i r d H3 Ed) as (K1 & K2 & K3).
      unfold input_ok. cbn [b_dispatcher b_bufs b_load_count b_ibuf_next b_is_index_loaded].
      rewrite K2, K3. auto.
  Qed.

  Lemma make_input_ok : forall g g' b, make_buffered dbl kr ft g g' = Some b -> input_ok b.
  Proof.
    intros g g' b Hb. destruct (make_buffered_spec g g' b Hb) as (bufs & -> & _ & Hl & _).
    pose proof w_pos as Hw. unfold input_ok, init_buffered, index_length.
    cbn [b_dispatcher b_bufs b_load_count b_ibuf_next b_is_index_loaded make_dispatcher d_keyring d_features]. fold w.
    repeat (split; [solve [auto | lia | apply make_dispatcher_conform]|]). lia.
  Qed.
End Input.

(** ** Feeding bytes *)

Section Feed.
  Context {X : Type}.
  Variables (p : platform) (kr : keyring X) (ft : action_features).
  Hypothesis Hp : wf_platform p.
  Hypothesis Hk : keyring_ok p kr.
  Let w := kr_index_size kr.

  (** Bytes before the last one. *)
  Lemma feed_more : forall bs (b : buffered X) x, length bs < b_load_count b ->
    b_ibuf_next b + length bs <= length (ibuf (b_bufs b)) ->
    run_ops p (map Put bs) b x
    = Ok (mk_buffered (b_dispatcher b) (b_is_index_loaded b) (b_load_count b - length bs) (b_ibuf_next b + length bs)
            (b_obuf_next b) (b_obuf_bottom b) (set_ibuf (splice (ibuf (b_bufs b)) (b_ibuf_next b) bs) (b_bufs b)),
          x, repeat (OStatus LOADING_PACKET) (length bs)).
  Proof.
    induction bs as [|byte bs IH]; intros b x Hc Hl; cbn [map run_ops length repeat] in *.
    - rewrite splice_nil, Nat.sub_0_r, Nat.add_0_r. destruct b as [d l c n on ob [m|m m']]; reflexivity.
    - cbn [step]. unfold put. rewrite store_ok by lia. cbn [bind].
      destruct (b_load_count b) as [|c] eqn:Ec; [lia|].
      destruct (Nat.ltb_spec 0 c); [|lia]. cbn [bind].
      rewrite IH; cbn [b_dispatcher b_is_index_loaded b_load_count b_ibuf_next b_obuf_next b_obuf_bottom b_bufs];
        rewrite ?ibuf_set_ibuf, ?splice_length by (cbn; lia); try lia.
      cbn [bind]. replace (S c - S (length bs)) with (c - length bs) by lia.
      replace (b_ibuf_next b + S (length bs)) with (S (b_ibuf_next b) + length bs) by lia.
      do 3 f_equal. f_equal.
      change (byte :: bs) with ([byte] ++ bs).
      rewrite <- (splice_splice_app (ibuf (b_bufs b)) (b_ibuf_next b) [byte] bs) by (cbn; lia).
      replace (b_ibuf_next b + length [byte]) with (S (b_ibuf_next b)) by (cbn; lia).
      destruct (b_bufs b); reflexivity.
  Qed.

  (** The state after the index, waiting for [n] bytes. *)
  Definition index_read (b : buffered X) (n : nat) (idx : list Z) : buffered X :=
    mk_buffered (b_dispatcher b) true n w (b_obuf_next b) (b_obuf_bottom b)
      (set_ibuf (splice (ibuf (b_bufs b)) 0 idx) (b_bufs b)).

  Lemma feed_index : forall (b : buffered X) table idx f n x,
    table_ok kr ft (b_dispatcher b) table ->
    b_is_index_loaded b = false -> b_load_count b = w -> b_ibuf_next b = 0 -> w <= length (ibuf (b_bufs b)) ->
    length idx = w -> Forall is_byte idx ->
    nth_error table (Z.to_nat (wire_value (kr_e kr) idx)) = Some f ->
    input_size (make_action ft (kr_e kr) (kr_m kr) f) = Ok n ->
    run_ops p (map Put idx) b x
    = if n =? 0 then
        '(b', x') <- call_loaded p (index_read b 0 idx) x;;
        Ok (b', x', repeat (OStatus LOADING_PACKET) (w - 1) ++ [OStatus RESOLVED_PACKET])
      else Ok (index_read b n idx, x, repeat (OStatus LOADING_PACKET) w).
  Proof.
    intros b table idx f n x Ht Hl Hc Hn Hw Hli Hbi Hf Hs.
    destruct (index_size X kr) as ((Hw1 & _) & _ & _); [apply Hk|]. fold w in Hw1.
    assert (Ei : idx = firstn (w - 1) idx ++ skipn (w - 1) idx) by (symmetry; apply firstn_skipn).
    assert (Ll : length (firstn (w - 1) idx) = w - 1) by (rewrite firstn_length; lia).
    destruct (skipn (w - 1) idx) as [|byte [|]] eqn:El.
    { assert (length (skipn (w - 1) idx) = 0) by (rewrite El; reflexivity). rewrite skipn_length in H. lia. }
    2:{ assert (length (skipn (w - 1) idx) > 1) by (rewrite El; cbn; lia). rewrite skipn_length in H. lia. }
    set (hd := firstn (w - 1) idx) in *.
    rewrite Ei at 1. rewrite map_app, run_ops_app, feed_more by lia. cbn [bind map run_ops step].
    rewrite Hl, Hc, Hn, Ll, Nat.add_0_l. unfold put.
    cbn [b_dispatcher b_is_index_loaded b_load_count b_ibuf_next b_obuf_next b_obuf_bottom b_bufs].
    rewrite ibuf_set_ibuf, store_ok by (rewrite splice_length; cbn; lia). cbn [bind].
    replace (w - (w - 1)) with 1 by lia. change (0 <? 0) with false. cbn iota.
    assert (Es : splice (splice (ibuf (b_bufs b)) 0 hd) (w - 1) [byte] = splice (ibuf (b_bufs b)) 0 idx).
    { rewrite Ei. rewrite <- (splice_splice_app (ibuf (b_bufs b)) 0 hd [byte]) by (cbn [length]; lia).
      f_equal. cbn. lia. }
    rewrite Es.
    assert (Eb : set_ibuf (splice (ibuf (b_bufs b)) 0 idx) (set_ibuf (splice (ibuf (b_bufs b)) 0 hd) (b_bufs b))
                 = set_ibuf (splice (ibuf (b_bufs b)) 0 idx) (b_bufs b)) by (destruct (b_bufs b); reflexivity).
    rewrite Eb.
    rewrite (get_index_frame p kr ft w Hp Hk (le_n _) _ table _ _ _ idx); auto.
    2:{ fold w. lia. }
    2:{ rewrite ibuf_set_ibuf. apply slice_splice_same. lia. }
    2:{ rewrite ibuf_set_ibuf, splice_length; lia. }
    cbn [bind]. fold w. rewrite (firstn_all2 idx) by lia.
    rewrite (d_size_ok p kr ft Hk _ _ Ht).
    assert (Hi : Z.to_nat (wire_value (kr_e kr) idx) < length table) by (apply nth_error_Some; congruence).
    apply Nat.ltb_lt in Hi. rewrite Hi.
    assert (Ea : action_at (b_dispatcher b) (Z.to_nat (wire_value (kr_e kr) idx))
                 = Ok (make_action ft (kr_e kr) (kr_m kr) f)).
    { unfold action_at. destruct Ht as (_ & _ & Ha & _). rewrite Ha, nth_error_map, Hf. reflexivity. }
    rewrite Ea. cbn [bind]. rewrite Hs. cbn [bind]. replace (S (w - 1)) with w by lia.
    fold (index_read b n idx).
    destruct (Nat.eqb_spec n 0) as [->|Hz].
    - destruct (call_loaded p (index_read b 0 idx) x) as [[b2 y]|]; reflexivity.
    - cbn [bind]. do 2 f_equal. replace w with ((w - 1) + 1) at 2 by lia. rewrite repeat_app. reflexivity.
  Qed.

  (** The whole request, up to the call. *)
  Lemma feed_request : forall (b : buffered X) table idx payload f x,
    table_ok kr ft (b_dispatcher b) table ->
    b_is_index_loaded b = false -> b_load_count b = w -> b_ibuf_next b = 0 ->
    w + wire_sizes (params f) <= length (ibuf (b_bufs b)) ->
    length idx = w -> Forall is_byte idx ->
    nth_error table (Z.to_nat (wire_value (kr_e kr) idx)) = Some f ->
    input_size (make_action ft (kr_e kr) (kr_m kr) f) = Ok (wire_sizes (params f)) ->
    length payload = wire_sizes (params f) ->
    exists l c n, run_ops p (map Put (idx ++ payload)) b x
    = '(b', x') <- call_loaded p (mk_buffered (b_dispatcher b) l c n (b_obuf_next b) (b_obuf_bottom b)
                                    (set_ibuf (splice (ibuf (b_bufs b)) 0 (idx ++ payload)) (b_bufs b))) x;;
      Ok (b', x', repeat (OStatus LOADING_PACKET) (length (idx ++ payload) - 1) ++ [OStatus RESOLVED_PACKET]).
  Proof.
    intros b table idx payload f x Ht Hl Hc Hn Hroom Hli Hbi Hf Hs Hlp.
    destruct (index_size X kr) as ((Hw1 & _) & _ & _); [apply Hk|]. fold w in Hw1.
    rewrite map_app, run_ops_app.
    rewrite (feed_index b table idx f (wire_sizes (params f))) by (auto; lia).
    destruct (Nat.eqb_spec (wire_sizes (params f)) 0) as [Hz|Hz].
    - rewrite Hz in Hlp. destruct payload; [|discriminate]. cbn [map run_ops]. rewrite app_nil_r, Hli.
      exists true, 0, w. unfold index_read.
      destruct (call_loaded p _ x) as [[b2 y]|]; cbn [bind]; auto. rewrite app_nil_r. reflexivity.
    - cbn [bind].
      assert (Ei : payload = firstn (length payload - 1) payload ++ skipn (length payload - 1) payload)
        by (symmetry; apply firstn_skipn).
      assert (Ll : length (firstn (length payload - 1) payload) = length payload - 1) by (rewrite firstn_length; lia).
      destruct (skipn (length payload - 1) payload) as [|byte [|]] eqn:El.
      { assert (length (skipn (length payload - 1) payload) = 0) by (rewrite El; reflexivity).
        rewrite skipn_length in H. lia. }
      2:{ assert (length (skipn (length payload - 1) payload) > 1) by (rewrite El; cbn; lia).
          rewrite skipn_length in H. lia. }
      set (hd := firstn (length payload - 1) payload) in *.
      assert (Lsp : length (splice (ibuf (b_bufs b)) 0 idx) = length (ibuf (b_bufs b))) by (apply splice_length; lia).
      exists true, 0, (S (w + (length payload - 1))).
      rewrite Ei at 1. rewrite map_app, run_ops_app.
      rewrite feed_more; unfold index_read;
        cbn [b_dispatcher b_is_index_loaded b_load_count b_ibuf_next b_obuf_next b_obuf_bottom b_bufs];
        rewrite ?ibuf_set_ibuf; try lia.
      cbn [bind map run_ops step]. rewrite Ll. unfold put.
      cbn [b_dispatcher b_is_index_loaded b_load_count b_ibuf_next b_obuf_next b_obuf_bottom b_bufs].
      rewrite ibuf_set_ibuf, store_ok by (rewrite splice_length; lia). cbn [bind].
      replace (wire_sizes (params f) - (length payload - 1)) with 1 by lia. change (0 <? 0) with false. cbn iota.
      assert (Es : splice (splice (splice (ibuf (b_bufs b)) 0 idx) w hd) (w + (length payload - 1)) [byte]
                   = splice (ibuf (b_bufs b)) 0 (idx ++ payload)).
      { assert (L1 : length payload = length hd + 1) by lia.
        assert (E1 : splice (splice (ibuf (b_bufs b)) 0 idx) w hd = splice (ibuf (b_bufs b)) 0 (idx ++ hd)).
        { rewrite <- (splice_splice_app (ibuf (b_bufs b)) 0 idx hd) by lia. rewrite Hli. reflexivity. }
        rewrite E1. clear E1. rewrite Ei, app_assoc.
        rewrite <- (splice_splice_app (ibuf (b_bufs b)) 0 (idx ++ hd) [byte]) by (rewrite app_length; cbn [length]; lia).
        f_equal. rewrite ?app_length. cbn [length]. lia. }
      rewrite Es.
      assert (Eb : forall m1 m2 m3, set_ibuf m1 (set_ibuf m2 (set_ibuf m3 (b_bufs b))) = set_ibuf m1 (b_bufs b))
        by (intros; destruct (b_bufs b); reflexivity).
      rewrite Eb. destruct (call_loaded p _ x) as [[b2 y]|]; cbn [bind]; auto.
      do 2 f_equal. rewrite app_length, Hli. replace (w + length payload - 1) with (w + (length payload - 1)) by lia.
      rewrite repeat_app, <- app_assoc. reflexivity.
  Qed.

  (** The call: what happens when the response fits and when it does not. *)
  Lemma call_loaded_push : forall (b : buffered X) table bs (f : func X) x,
    table_ok kr ft (b_dispatcher b) table ->
    sig_ok p (kr_e kr) (kr_m kr) (f_sig f) ->
    length bs = w + wire_sizes (params f) -> length bs <= length (ibuf (b_bufs b)) ->
    slice (ibuf (b_bufs b)) 0 (length bs) = bs -> Forall is_byte bs ->
    nth_error table (Z.to_nat (wire_value (kr_e kr) (firstn w bs))) = Some f ->
    decodable_list p (kr_e kr) (kr_m kr) (params f) (skipn w bs) ->
    let (x', r) := f_call f (dec_list (kr_e kr) (kr_m kr) (params f) (skipn w bs)) x in
    ret_encodable p (kr_m kr) (ret f) r ->
    call_loaded p b x
    = if wire_size_ret (ret f) <=? length (obuf (b_bufs b))
      then Ok (mk_buffered (b_dispatcher b) false w 0 0 (wire_size_ret (ret f))
                 (set_obuf (splice (obuf (b_bufs b)) 0 (response (kr_e kr) (kr_m kr) (ret f) r)) (b_bufs b)), x')
      else Fault OutOfBounds.
  Proof.
    intros b table bs f x Ht Hsig Hlen Hroom Hs Hb Hf Hd.
    destruct (f_call f _ x) as [x' r] eqn:Ef. intros He. unfold call_loaded.
    rewrite (get_index_frame p kr ft w Hp Hk (le_n _) _ table _ _ _ bs); auto. 2:{ fold w. lia. }
    cbn [bind]. fold w. unfold action_at, framed_dispatcher. cbn [d_actions].
    destruct Ht as (Hkr & Hft & Ha & Hsigs). rewrite Ha, map_map, nth_error_map, Hf. cbn [option_map bind].
    assert (Efa : framed_action (make_action ft (kr_e kr) (kr_m kr) f) = make_action ft (kr_e kr) (kr_m kr) (framed f))
      by (destruct ft; reflexivity).
    rewrite Efa.
    assert (Ep : pull ibuf_source (wire_sizes (params f)) (mk_frame (b_bufs b) w 0 x)
                 = Ok (mk_frame (b_bufs b) (w + wire_sizes (params f)) 0 x, skipn w bs)).
    { rewrite pull_frame by lia. do 2 f_equal.
      transitivity (skipn w (slice (ibuf (b_bufs b)) 0 (length bs))); [|rewrite Hs; reflexivity].
      rewrite skipn_slice. cbn [Nat.add]. f_equal. lia. }
    rewrite (run_call p _ _ (mk_model (kr_e kr) (kr_m kr) (framed f))) by (destruct ft; reflexivity).
    cbn [m_e m_m m_func]. rewrite call_ok; auto.
    - unfold call_spec. change (f_sig (framed f)) with (f_sig f). fold (params f) (ret f).
      rewrite Ep. cbn [bind framed f_call fr_world fr_bufs fr_iptr fr_bottom]. rewrite Ef.
      assert (Hlr : length (response (kr_e kr) (kr_m kr) (ret f) r) = wire_size_ret (ret f)).
      { unfold response, wire_size_ret, ret_encodable in *. destruct (ret f); auto. apply enc_length. apply He. }
      destruct (Nat.leb_spec (wire_size_ret (ret f)) (length (obuf (b_bufs b)))) as [Hle|Hgt].
      + rewrite push_frame by (cbn; lia). cbn [bind fr_bufs fr_bottom fr_world Nat.add].
        unfold index_length. rewrite Hkr, Hlr. reflexivity.
      + rewrite push_frame_oob by (cbn; lia). reflexivity.
    - change (f_sig (framed f)) with (f_sig f). fold (params f) (ret f). rewrite Ep. intros x1 l H1.
      injection H1 as <- <-. split; [|split; auto].
      + apply skipn_bytes. auto.
      + cbn [framed f_call fr_world fr_bufs fr_iptr fr_bottom]. rewrite Ef. exact He.
  Qed.
End Feed.

Lemma becomes_run : forall p (X : Type) (b0 : buffered X) ops b x b' x' vs,
  becomes p b0 b -> run_ops p ops b x = Ok (b', x', vs) -> becomes p b0 b'.
Proof.
  intros p X b0. induction ops as [|o ops IH]; intros b x b' x' vs Hb H; cbn [run_ops] in H.
  - injection H as <- _ _. auto.
  - ok_inv H r. destruct r as [[b1 x1] v]. ok_inv H r. destruct r as [[b2 x2] vs2]. injection H as <- _ _.
    eapply IH; [|exact E0]. eapply becomes_step; eauto.
Qed.

Lemma make_table_ok : forall (X : Type) (kr : keyring X) ft,
  table_ok kr ft (make_dispatcher kr ft) (map snd (kr_funcs kr)).
Proof.
  intros X kr ft. unfold table_ok, make_dispatcher. cbn [d_keyring d_features d_actions].
  rewrite !map_map. auto.
Qed.

Lemma wire_index_nth : forall (X : Type) p (kr : keyring X) i nf, keyring_ok p kr ->
  nth_error (kr_funcs kr) i = Some nf ->
  nth_error (map snd (kr_funcs kr))
    (Z.to_nat (wire_value (kr_e kr) (wire_bytes (kr_e kr) (kr_index_size kr) (Z.of_nat i)))) = Some (snd nf).
Proof.
  intros X p kr i nf Hk Hi. rewrite wire_index.
  - rewrite nth_error_map, Hi. reflexivity.
  - apply Hk.
  - apply nth_error_Some. congruence.
Qed.

(** Whatever is received, there is room for the next byte in the input buffer
    and the counter is positive; for dispatchers of [ANY] actions, this is the
    case if and only if no parameter list is serialized over more bytes than
    the largest one has as C++ objects. *)
Theorem C36_input_buffer_partial : forall (X : Type) p dbl (kr : keyring X) ft g g' b0 (x : X),
  wf_platform p -> keyring_ok p kr -> make_buffered dbl kr ft g g' = Some b0 ->
  ((forall b, becomes p b0 b -> room b)
   <-> (ft = ANY -> Forall (fun s => wire_sizes (sig_params s) <= max_native kr) (kr_signatures kr))).
Proof.
  intros X p dbl kr ft g g' b0 x Hp Hk Hb. split.
  - intros H Hft. apply Forall_forall. intros s Hs.
    destruct (Nat.le_gt_cases (wire_sizes (sig_params s)) (max_native kr)) as [|Hgt]; auto. exfalso.
    destruct (make_buffered_spec dbl kr ft g g' b0 Hb) as (bufs & Eb & _ & Hl & _).
    pose proof (w_pos p kr Hk) as Hw. set (w := kr_index_size kr) in *.
    destruct (In_nth_error _ _ Hs) as [i Hi].
    unfold kr_signatures in Hi. rewrite nth_error_map in Hi.
    destruct (nth_error (kr_funcs kr) i) as [nf|] eqn:Ei; [|discriminate]. cbn [option_map] in Hi.
    assert (Esf : f_sig (snd nf) = s) by congruence.
    set (idx := wire_bytes (kr_e kr) w (Z.of_nat i)).
    assert (Hli : length idx = w) by apply wire_bytes_length.
    assert (E1 : run_ops p (map Put idx) b0 x
                 = Ok (index_read kr b0 (wire_sizes (sig_params s)) idx, x, repeat (OStatus LOADING_PACKET) w)).
    { rewrite (feed_index p kr ft Hp Hk b0 (map snd (kr_funcs kr)) idx (snd nf) (wire_sizes (sig_params s))).
      - destruct (Nat.eqb_spec (wire_sizes (sig_params s)) 0); [lia|reflexivity].
      - rewrite Eb. apply make_table_ok.
      - rewrite Eb. reflexivity.
      - rewrite Eb. reflexivity.
      - rewrite Eb. reflexivity.
      - rewrite Eb. cbn [init_buffered b_bufs]. fold w. lia.
      - exact Hli.
      - apply wire_bytes_bytes.
      - apply (wire_index_nth X p); auto.
      - rewrite Hft. cbn [make_action input_size m_func]. rewrite Esf, tuple_size_wire; auto.
        eapply tys_layout. apply (keyring_sig p kr Hk s Hs). }
    pose proof (becomes_run p X b0 _ _ _ _ _ _ (becomes_self p b0) E1) as Hbec.
    set (b1 := index_read kr b0 (wire_sizes (sig_params s)) idx) in *.
    assert (L1 : length (ibuf (b_bufs b1)) = max_native kr + w).
    { unfold b1, index_read. cbn [b_bufs]. rewrite ibuf_set_ibuf, Eb. cbn [init_buffered b_bufs].
      rewrite splice_length; lia. }
    assert (E2 := feed_more p kr (repeat 0%Z (max_native kr)) b1 x).
    rewrite repeat_length in E2.
    specialize (E2 ltac:(unfold b1, index_read; cbn [b_load_count]; lia)
                   ltac:(rewrite L1; unfold b1, index_read; cbn [b_ibuf_next]; fold w; lia)).
    pose proof (becomes_run p X b0 _ _ _ _ _ _ Hbec E2) as Hbec2.
    specialize (H _ Hbec2). unfold room in H. cbn [b_ibuf_next b_bufs b_load_count] in H.
    rewrite ibuf_set_ibuf, splice_length in H.
    + destruct H as [H _]. rewrite L1 in H. unfold b1, index_read in H. cbn [b_ibuf_next] in H. fold w in H. lia.
    + rewrite repeat_length, L1. unfold b1, index_read. cbn [b_ibuf_next]. fold w. lia.
  - intros Hfits b Hbec.
    assert (H0 : input_ok kr ft b0) by (eapply make_input_ok; eauto).
    assert (H1 : input_ok kr ft b) by (eapply input_ok_becomes; eauto).
    destruct H1 as (_ & _ & _ & H4 & H5 & H6 & _). unfold room. lia.
Qed.

(** In particular for parameters made of integers, arrays and [std::array]s of
    integers: their native and serialized sizes are the same. *)
Theorem C36_integers : forall (X : Type) p dbl (kr : keyring X) ft g g' b0 b,
  wf_platform p -> keyring_ok p kr ->
  Forall (fun s => Forall integers_only (sig_params s)) (kr_signatures kr) ->
  make_buffered dbl kr ft g g' = Some b0 -> becomes p b0 b -> room b.
Proof.
  intros X p dbl kr ft g g' b0 b Hp Hk Hi Hb Hbec.
  assert (Hfits : ft = ANY -> Forall (fun s => wire_sizes (sig_params s) <= max_native kr) (kr_signatures kr)).
  { intros _. rewrite Forall_forall in Hi |- *. intros s Hs.
    rewrite <- (C53_integers_partial (sig_params s)); [apply (native_le kr s Hs)|].
    pose proof (proj1 (keyring_sig p kr Hk _ Hs)) as Hsig. specialize (Hi s Hs).
    rewrite Forall_forall in Hsig, Hi |- *. intros t Ht. split; [apply Hsig|]; auto. }
  assert (H0 : input_ok kr ft b0) by (eapply make_input_ok; eauto).
  assert (H1 : input_ok kr ft b) by (eapply input_ok_becomes; eauto).
  destruct H1 as (_ & _ & _ & H4 & H5 & H6 & _). unfold room. lia.
Qed.

Definition ex_stretch : func log :=
  mk_func (mk_sig [TUser 1 [TUns 2]] None) (fun args s => ((3, args) :: s, VInt 0)).

Theorem C36_refuted : exists (kr : keyring log) b0 b byte,
  keyring_ok pc_native kr /\ make_double kr ANY [] [] = Some b0
  /\ run_ops pc_native [Put 0; Put 1]%Z b0 [] = Ok (b, [], [OStatus LOADING_PACKET; OStatus LOADING_PACKET])
  /\ put pc_native byte b [] = Fault OutOfBounds.
Proof.
  exists (mk_keyring LITTLE TWOS_COMPLEMENT [(1, ex_stretch)]). eexists. eexists. exists 0%Z.
  split; [|split; [reflexivity|split; [vm_compute; reflexivity|vm_compute; reflexivity]]].
  split; [vm_compute; reflexivity|]. cbn [kr_funcs kr_e kr_m].
  list_cases; split; cbn [snd f_sig sig_params sig_ret ex_stretch ret_ty_ok]; tyoks.
Qed.

Example C36_example : exists b,
  make_single ex_keyring ANY [] = Some b
  /\ Forall (fun s => wire_sizes (sig_params s) <= max_native ex_keyring) (kr_signatures ex_keyring)
  /\ length (ibuf (b_bufs b)) = 5
  /\ exists b', becomes pc_native b b' /\ b_ibuf_next b' = 3 /\ b_load_count b' = 1.
Proof.
  eexists. split; [reflexivity|]. split; [unfold ex_keyring, kr_signatures; cbn [kr_funcs map snd]; list_cases; vm_compute; lia|].
  split; [reflexivity|]. eexists. split.
  - eapply becomes_run with (ops := [Put 2; Put 0; Put 0]%Z) (x := []); [apply becomes_self|vm_compute; reflexivity].
  - split; reflexivity.
Qed.

(** ** C37 *)

(** A request for a callback is resolved if its response fits in a buffer
    dimensioned for the parameters, and overflows it otherwise. *)
Theorem C37_output_buffer_partial : forall (X : Type) p dbl (kr : keyring X) ft g g' b name f i args (x x' : X) r,
  wf_platform p -> keyring_ok p kr -> make_buffered dbl kr ft g g' = Some b ->
  nth_error (kr_funcs kr) i = Some (name, f) ->
  let params := sig_params (f_sig f) in
  let ret := sig_ret (f_sig f) in
  (ft = WEAK_REFERENCE -> native_sizes (f_sig f) = wire_sizes params) -> wire_sizes params <= max_native kr ->
  Forall2 (encodable p (kr_m kr)) params args ->
  f_call f args x = (x', r) -> ret_encodable p (kr_m kr) ret r ->
  let packet := request (kr_e kr) (kr_m kr) (kr_index_size kr) i params args in
  if wire_size_ret ret <=? out_capacity dbl kr then
    exists b', run_ops p (map Put packet) b x
               = Ok (b', x', repeat (OStatus LOADING_PACKET) (length packet - 1) ++ [OStatus RESOLVED_PACKET])
  else run_ops p (map Put packet) b x = Fault OutOfBounds.
Proof.
  intros X p dbl kr ft g g' b name f i args x x' r Hp Hk Hb Hi params ret Hweak Hfit Hargs Hcall Hret packet.
  destruct (make_buffered_spec dbl kr ft g g' b Hb) as (bufs & -> & Hdbl & Hl & Hlo).
  assert (Hs : In (f_sig f) (kr_signatures kr)).
  { unfold kr_signatures. apply nth_error_In in Hi. apply in_map_iff. exists (name, f). auto. }
  pose proof (keyring_sig p kr Hk _ Hs) as Hsig.
  set (idx := wire_bytes (kr_e kr) (kr_index_size kr) (Z.of_nat i)) in *.
  set (payload := enc_list (kr_e kr) (kr_m kr) params args) in *.
  assert (Hli : length idx = kr_index_size kr) by apply wire_bytes_length.
  assert (Hht : Forall2 has_type params args) by (eapply encodable_has; eauto).
  assert (Hlp : length payload = wire_sizes params) by (apply enc_list_length; auto).
  assert (Hwf : Forall wf_ty params).
  { eapply Forall_impl; [|apply Hsig]. intros t Ht. apply Ht. }
  assert (Hdec : dec_list (kr_e kr) (kr_m kr) params payload = args) by (apply (dec_list_enc_list p); auto).
  assert (Hdl : decodable_list p (kr_e kr) (kr_m kr) params payload).
  { apply encodable_decodable_list; auto. }
  assert (Hnth := wire_index_nth X p kr i (name, f) Hk Hi). cbn [snd] in Hnth. fold idx in Hnth.
  destruct (feed_request p kr ft Hp Hk (init_buffered (make_dispatcher kr ft) bufs) (map snd (kr_funcs kr)) idx payload f x)
    as (l & c & n & E); auto.
  { apply make_table_ok. }
  { cbn [init_buffered b_bufs]. unfold SpecBuffered.params. fold params. lia. }
  { apply wire_bytes_bytes. }
  { destruct ft; cbn [make_action input_size m_func].
    - rewrite tuple_size_wire; auto. eapply tys_layout. apply Hsig.
    - rewrite parameters_native. f_equal. apply Hweak. reflexivity. }
  cbn [init_buffered b_dispatcher b_bufs b_obuf_next b_obuf_bottom] in E.
  fold payload idx in E. change (idx ++ payload) with packet in E.
  assert (Hlk : length packet = kr_index_size kr + wire_sizes params).
  { unfold packet, request. fold idx payload. rewrite app_length. lia. }
  assert (Hlo' : length (obuf (set_ibuf (splice (ibuf bufs) 0 packet) bufs)) = out_capacity dbl kr).
  { rewrite <- Hlo. destruct bufs as [m|m m']; cbn [set_ibuf obuf ibuf] in *; auto. apply splice_length. lia. }
  assert (Esk : skipn (kr_index_size kr) packet = payload).
  { unfold packet, request. fold idx payload. rewrite <- Hli, skipn_app, skipn_all, Nat.sub_diag. reflexivity. }
  assert (Efk : firstn (kr_index_size kr) packet = idx).
  { unfold packet, request. fold idx payload. rewrite <- Hli, firstn_app, firstn_all, Nat.sub_diag. apply app_nil_r. }
  pose proof (call_loaded_push p kr ft Hp Hk
    (mk_buffered (make_dispatcher kr ft) l c n 0 0 (set_ibuf (splice (ibuf bufs) 0 packet) bufs))
    (map snd (kr_funcs kr)) packet f x (make_table_ok X kr ft) Hsig Hlk) as H.
  cbn [b_bufs b_dispatcher] in H. rewrite ibuf_set_ibuf, splice_length in H by lia.
  specialize (H ltac:(lia)). rewrite slice_splice_same in H by lia. specialize (H eq_refl).
  rewrite Efk, Esk in H. unfold SpecBuffered.params, SpecBuffered.ret in H. fold params ret in H.
  rewrite Hdec in H.
  assert (Hbytes : Forall is_byte packet).
  { apply Forall_app. split; [apply wire_bytes_bytes|apply enc_list_bytes]. }
  specialize (H Hbytes Hnth Hdl). rewrite Hcall in H. specialize (H Hret). rewrite Hlo' in H.
  destruct (wire_size_ret ret <=? out_capacity dbl kr).
  - rewrite H in E. cbn [bind] in E. eexists. exact E.
  - rewrite H in E. exact E.
Qed.

(** A callback which returns more than it takes. *)
Definition ex_widen : func log :=
  mk_func (mk_sig [TUns 1] (Some (TUns 4)))
    (fun args s => ((4, args) :: s, match args with [VInt a] => VInt (a * a) | _ => VInt 0 end)).
Definition ex_widen_keyring : keyring log := mk_keyring LITTLE TWOS_COMPLEMENT [(1, ex_widen)].

Theorem C37_refuted : exists (kr : keyring log) b b',
  keyring_ok pc_native kr /\ Forall (fun s => Forall integers_only (sig_params s)) (kr_signatures kr)
  /\ make_double kr WEAK_REFERENCE [] [] = Some b /\ make_single kr WEAK_REFERENCE [] = Some b'
  /\ run_ops pc_native [Put 0; Put 200]%Z b [] = Fault OutOfBounds
  /\ run_ops pc_native [Put 0; Put 200]%Z b' [] = Fault OutOfBounds.
Proof.
  exists ex_widen_keyring. eexists. eexists.
  split; [|split; [|split; [reflexivity|split; [reflexivity|split; vm_compute; reflexivity]]]].
  - split; [vm_compute; reflexivity|]. cbn [ex_widen_keyring kr_funcs kr_e kr_m].
    list_cases; split; cbn [snd f_sig sig_params sig_ret ex_widen ret_ty_ok]; tyoks.
  - cbn. list_cases; exact I.
Qed.

Example C37_example : exists b,
  make_double ex_keyring ANY [] [] = Some b
  /\ nth_error (kr_funcs ex_keyring) 0 = Some (10, ex_add)
  /\ wire_size_ret (sig_ret (f_sig ex_add)) <= out_capacity true ex_keyring
  /\ f_call ex_add [VInt (-2); VInt 5] [] = ([(0, [VInt (-2); VInt 5])], VInt 3)
  /\ Forall2 (encodable pc_native TWOS_COMPLEMENT) (sig_params (f_sig ex_add)) [VInt (-2); VInt 5]
  /\ ret_encodable pc_native TWOS_COMPLEMENT (Some (TSig 4)) (VInt 3).
Proof.
  eexists. split; [reflexivity|]. split; [reflexivity|]. split; [vm_compute; lia|]. split; [reflexivity|].
  split; [encs|split; range].
Qed.

Print Assumptions C36_input_buffer_partial.
Print Assumptions C36_integers.
Print Assumptions C36_refuted.
Print Assumptions C37_output_buffer_partial.
Print Assumptions C37_refuted.
