(** Property C86: what a lost byte does, and how to recover from it.

    Any bytes may have been received before: [reached] allows any history.  The
    bytes 255 are those [Wire.read] gives when there is nothing to read
    (README.md 147), and those of a serial line held high. *)

From Coq Require Import List ZArith Lia Bool Arith.
From Verif Require Import Base CInt Spec IntModel Conditions MemFacts TypeLevel Serial TupleModel
  TypeLevelProofs IntProofs SignedProofs SerialProofs CodecFacts Bounds TupleProofs SpecRpc Rpc RpcProofs
  Hosts Closed PropertiesTypes PropertiesRpc Buffered SpecBuffered BufferedProofs PropertiesBuffered
  PropertiesBuffers PropertiesPackets PropertiesStreams Firmware PropertiesCallee.
Import ListNotations.
Open Scope nat_scope.

(** ** Specification *)

(** How many bytes the arguments of a request may take. *)
Definition longest {X : Type} (kr : keyring X) : nat :=
  list_max (map (fun sg => wire_sizes (sig_params sg)) (kr_signatures kr)).

(** Whatever the bytes of the arguments are, the callbacks can be called. *)
Definition accepts_any {X : Type} (p : platform) (kr : keyring X) (table : list (func X)) : Prop :=
  Forall (fun f => forall payload x, Forall is_byte payload -> length payload = wire_sizes (sig_params (f_sig f)) ->
    decodable_list p (kr_e kr) (kr_m kr) (sig_params (f_sig f)) payload
    /\ ret_encodable p (kr_m kr) (sig_ret (f_sig f))
         (snd (f_call f (dec_list (kr_e kr) (kr_m kr) (sig_params (f_sig f)) payload) x))) table.

Definition count_resolved (vs : list obs) : nat :=
  length (filter (fun v => match v with OStatus RESOLVED_PACKET => true | _ => false end) vs).

(** The dispatcher awaits the beginning of a request. *)
Definition idle {X : Type} (kr : keyring X) (b : buffered X) : Prop :=
  b_is_index_loaded b = false /\ b_load_count b = kr_index_size kr /\ b_ibuf_next b = 0.

(** ** Proofs *)

Lemma repeat_app_one : forall (A : Type) (a : A) n, repeat a (S n) = repeat a n ++ [a].
Proof. intros. cbn [repeat]. apply repeat_cons. Qed.

Lemma count_app : forall l l', count_resolved (l ++ l') = count_resolved l + count_resolved l'.
Proof. intros. unfold count_resolved. rewrite filter_app, app_length. reflexivity. Qed.

Lemma count_loading : forall n, count_resolved (repeat (OStatus LOADING_PACKET) n) = 0.
Proof. induction n; [reflexivity|exact IHn]. Qed.

Section Recovery.
  Context {X : Type}.
  Variables (p : platform) (dbl : bool) (kr : keyring X) (ft : action_features).
  Hypothesis Hp : wf_platform p.
  Hypothesis Hk : keyring_ok p kr.
  Hypothesis Hs : well_sized dbl kr ft.
  Let fm := format_of kr.
  Let w := kr_index_size kr.
  Let byte : Z := 255%Z.
  Local Notation legit := (legitimate p dbl kr ft).

  Definition flood (n : nat) : list (op X) := repeat (Put byte) n.

  Lemma is_byte_255 : is_byte byte.
  Proof. unfold is_byte, byte. lia. Qed.

  Lemma w_positive : 1 <= w.
  Proof. pose proof (index_size X kr ltac:(apply Hk)) as (H & _). fold w in H. lia. Qed.

  (** The loop before the last byte. *)
  Lemma flood_loading : forall n a x, quiet dbl a ->
    (forall j, 1 <= j <= n -> examine fm (mc_table a) (mc_in a ++ repeat byte j) = Incomplete) ->
    mc_run fm (flood n) a x
      = Ok (mk_machine (mc_in a ++ repeat byte n) (mc_out a) (mc_table a), x, repeat (OStatus LOADING_PACKET) n)
    /\ along fm legit (flood n) a x.
  Proof.
    induction n as [|n IH]; intros a x Hq Hex.
    - cbn [flood repeat mc_run along]. rewrite app_nil_r. destruct a. auto.
    - unfold flood in *. cbn [repeat mc_run along mc_step]. unfold mc_put, received.
      pose proof (Hex 1 ltac:(lia)) as H1. cbn [repeat] in H1. rewrite H1. cbn [bind].
      set (a1 := mk_machine (mc_in a ++ [byte]) (mc_out a) (mc_table a)).
      destruct (IH a1 x) as [E L].
      { exact Hq. }
      { intros j Hj. cbn [a1 mc_in mc_table]. rewrite <- app_assoc. cbn [app]. apply (Hex (S j)). lia. }
      split.
      + rewrite E. cbn [bind a1 mc_in mc_out mc_table]. rewrite <- app_assoc. reflexivity.
      + split.
        * split; [|exact Hq]. cbn [step_ok]. split; [exact is_byte_255|]. unfold servable. fold fm. rewrite H1. exact I.
        * intros a2 x2 v Ev. injection Ev as <- <- <-. exact L.
  Qed.

  Lemma mc_run_last : forall n a x a1 x1 vs, mc_run fm (flood n) a x = Ok (a1, x1, vs) ->
    forall a2 x2 s, mc_put fm byte a1 x1 = (a2, x2, s) ->
    mc_run fm (flood (S n)) a x = Ok (a2, x2, vs ++ [OStatus s]).
  Proof.
    intros n a x a1 x1 vs E a2 x2 s E'. unfold flood in *. rewrite repeat_app_one, mc_run_app, E. cbn [bind mc_run mc_step].
    rewrite E'. reflexivity.
  Qed.

  Lemma along_last : forall n a x a1 x1 vs, along fm legit (flood n) a x -> mc_run fm (flood n) a x = Ok (a1, x1, vs) ->
    legit (Put byte) a1 x1 -> along fm legit (flood (S n)) a x.
  Proof.
    induction n as [|n IH]; intros a x a1 x1 vs H E Hl; unfold flood in *.
    - cbn [repeat mc_run along] in *. injection E as <- <- <-. auto.
    - cbn [repeat mc_run along] in E, H. destruct H as [H0 H]. change (repeat (Put byte) (S (S n))) with (@Put X byte :: repeat (Put byte) (S n)).
      cbn [along]. split; auto. intros a2 x2 v Ev. ok_inv E q. destruct q as [[a3 x3] v3].
      assert (a3 = a2 /\ x3 = x2) as [-> ->] by (rewrite Ev in E0; split; congruence).
      ok_inv E q. destruct q as [[a4 x4] vs4]. injection E as -> -> <-. eapply IH; eauto.
  Qed.

  (** The last byte. *)
  Lemma flood_end : forall n a x a' x' s, quiet dbl a ->
    (forall j, 1 <= j <= n -> examine fm (mc_table a) (mc_in a ++ repeat byte j) = Incomplete) ->
    servable fm p (mc_table a) (mc_in a ++ repeat byte (S n)) x ->
    received fm (mc_in a ++ repeat byte (S n)) a x = (a', x', s) ->
    mc_run fm (flood (S n)) a x = Ok (a', x', repeat (OStatus LOADING_PACKET) n ++ [OStatus s])
    /\ along fm legit (flood (S n)) a x.
  Proof.
    intros n a x a' x' s Hq Hex Hserv Hr. destruct (flood_loading n a x Hq Hex) as [E L]. split.
    - eapply mc_run_last; [exact E|]. unfold mc_put. cbn [mc_in]. rewrite <- app_assoc, <- repeat_app_one.
      rewrite <- Hr. reflexivity.
    - eapply along_last; [exact L|exact E|]. split; [|exact Hq]. cbn [step_ok]. split; [exact is_byte_255|].
      cbn [mc_table mc_in]. rewrite <- app_assoc, <- repeat_app_one. exact Hserv.
  Qed.

  (** What is known of a state which was reached. *)
  Lemma reached_pending : forall b a x, reached p dbl kr ft b a x ->
    Forall is_byte (mc_in a) /\ examine fm (mc_table a) (mc_in a) = Incomplete
    /\ (mc_in a = [] -> idle kr b) /\ (idle kr b -> mc_in a = []).
  Proof.
    intros b a x H. destruct (reached_represents p dbl kr ft Hp Hk Hs b a x H) as (ni & no & _ & _ & R).
    destruct R as (_ & _ & _ & _ & R1 & _ & _ & _ & _ & Rb & R2). split; auto. pose proof w_positive as Hw.
    unfold progress in R2. fold fm w in R2. unfold examine, idle. cbn [fm format_of fm_w]. fold w fm. split; [|split].
    - destruct (b_is_index_loaded b).
      + destruct R2 as (f & Hd & H1 & H2 & _). fold fm in Hd. rewrite Hd.
        destruct (Nat.ltb_spec (length (mc_in a)) w); auto.
        destruct (Nat.ltb_spec (length (mc_in a)) (w + wire_sizes (params f))); auto. lia.
      + destruct R2 as [H1 _]. destruct (Nat.ltb_spec (length (mc_in a)) w); auto. lia.
    - intros E. rewrite E in *. cbn [length] in *. destruct (b_is_index_loaded b).
      + destruct R2 as (f & _ & H1 & _). lia.
      + repeat split; auto. lia.
    - intros (_ & _ & E). rewrite R1 in E. destruct (mc_in a); [reflexivity|discriminate].
  Qed.

  Lemma designated_app : forall (table : list (func X)) l l', w <= length l -> designated fm table (l ++ l') = designated fm table l.
  Proof.
    intros table l l' Hl. unfold designated. cbn [fm format_of fm_w]. fold w fm. rewrite firstn_app.
    replace (w - length l) with 0 by lia. cbn [firstn]. rewrite app_nil_r. reflexivity.
  Qed.

  Lemma longest_bound : forall (table : list (func X)) f, map f_sig table = kr_signatures kr -> In f table ->
    wire_sizes (sig_params (f_sig f)) <= longest kr.
  Proof.
    intros table f Ht Hin. unfold longest. rewrite <- Ht, map_map.
    pose proof (proj1 (list_max_le (map (fun x => wire_sizes (sig_params (f_sig x))) table) _) (le_n _)) as H.
    rewrite Forall_map, Forall_forall in H. apply (H f Hin).
  Qed.

  Lemma designated_in : forall (table : list (func X)) bs f, designated fm table bs = Some f -> In f table.
  Proof. intros table bs f H. unfold designated in H. eapply nth_error_In; eauto. Qed.

  Definition silent (a : machine X) : Prop := dbl = true \/ (all_void kr /\ mc_out a = []).

  Lemma silent_quiet : forall a, silent a -> quiet dbl a.
  Proof. intros a [H|[_ H]]; [left|right]; auto. Qed.

  Lemma void_table : forall (table : list (func X)) f, all_void kr -> map f_sig table = kr_signatures kr -> In f table -> sig_ret (f_sig f) = None.
  Proof.
    intros table f Hv Ht Hin. assert (H : In (f_sig f) (kr_signatures kr)) by (rewrite <- Ht; apply in_map; exact Hin).
    unfold kr_signatures in H. apply in_map_iff in H. destruct H as (nf & E & Hnf). unfold all_void in Hv.
    rewrite Forall_forall in Hv. rewrite <- E. apply Hv. exact Hnf.
  Qed.

  Lemma bytes_flooded : forall bs n, Forall is_byte bs -> Forall is_byte (bs ++ repeat byte n).
  Proof.
    intros bs n H. apply Forall_app. split; auto. apply Forall_forall. intros c Hc. apply repeat_spec in Hc. subst c. exact is_byte_255.
  Qed.

  Lemma skipn_bytes : forall n (l : list Z), Forall is_byte l -> Forall is_byte (skipn n l).
  Proof. intros n l H. rewrite <- (firstn_skipn n l) in H. apply Forall_app in H. apply H. Qed.

  (** From a request in progress to its end, or to the moment it is dropped. *)
  Lemma flood_first : forall a x, silent a -> map f_sig (mc_table a) = kr_signatures kr -> accepts_any p kr (mc_table a) ->
    Forall is_byte (mc_in a) -> examine fm (mc_table a) (mc_in a) = Incomplete ->
    exists n a' x' s,
      mc_run fm (flood (S n)) a x = Ok (a', x', repeat (OStatus LOADING_PACKET) n ++ [OStatus s])
      /\ along fm legit (flood (S n)) a x
      /\ mc_in a' = [] /\ mc_table a' = mc_table a /\ silent a'
      /\ ((s = DROPPED_PACKET /\ x' = x /\ S n <= w) \/ (s = RESOLVED_PACKET /\ S n <= (w - 1) + longest kr
            /\ (w <= length (mc_in a) -> S n <= longest kr) /\ mc_in a <> []))
      /\ (forall j, j <= n -> exists aj xj vj, mc_run fm (flood j) a x = Ok (aj, xj, vj) /\ mc_in aj = mc_in a ++ repeat byte j).
  Proof.
    intros a x Hsil Ht Hacc Hb Hex. pose proof w_positive as Hw. pose proof (silent_quiet a Hsil) as Hq.
    assert (Hmid : forall n, (forall j, 1 <= j <= n -> examine fm (mc_table a) (mc_in a ++ repeat byte j) = Incomplete) ->
      forall j, j <= n -> exists aj xj vj, mc_run fm (flood j) a x = Ok (aj, xj, vj) /\ mc_in aj = mc_in a ++ repeat byte j).
    { intros n H j Hj. destruct (flood_loading j a x Hq) as [E _]; [intros; apply H; lia|]. do 3 eexists. split; [exact E|reflexivity]. }
    assert (Hlen : forall j, length (mc_in a ++ repeat byte j) = length (mc_in a) + j).
    { intros j. rewrite app_length, repeat_length. reflexivity. }
    (* a request for [f] which ends after [S n] bytes *)
    assert (Hcall : forall n f, w <= length (mc_in a) + S n -> designated fm (mc_table a) (mc_in a ++ repeat byte (S n)) = Some f ->
      length (mc_in a) + S n = w + wire_sizes (params f) ->
      (forall j, 1 <= j <= n -> examine fm (mc_table a) (mc_in a ++ repeat byte j) = Incomplete) ->
      mc_in a <> [] ->
      (S n <= w - 1 + longest kr /\ (w <= length (mc_in a) -> S n <= longest kr)) ->
      exists n a' x' s,
      mc_run fm (flood (S n)) a x = Ok (a', x', repeat (OStatus LOADING_PACKET) n ++ [OStatus s])
      /\ along fm legit (flood (S n)) a x
      /\ mc_in a' = [] /\ mc_table a' = mc_table a /\ silent a'
      /\ ((s = DROPPED_PACKET /\ x' = x /\ S n <= w) \/ (s = RESOLVED_PACKET /\ S n <= (w - 1) + longest kr
            /\ (w <= length (mc_in a) -> S n <= longest kr) /\ mc_in a <> []))
      /\ (forall j, j <= n -> exists aj xj vj, mc_run fm (flood j) a x = Ok (aj, xj, vj) /\ mc_in aj = mc_in a ++ repeat byte j)).
    { intros n f Hwl Hd Hl Hj Hne [Hb1 Hb2]. pose proof (designated_in _ _ _ Hd) as Hin.
      assert (Ex : examine fm (mc_table a) (mc_in a ++ repeat byte (S n)) = Request f (skipn w (mc_in a ++ repeat byte (S n)))).
      { unfold examine. cbn [fm format_of fm_w]. fold w fm. rewrite Hlen.
        destruct (Nat.ltb_spec (length (mc_in a) + S n) w); [lia|]. rewrite Hd.
        destruct (Nat.ltb_spec (length (mc_in a) + S n) (w + wire_sizes (params f))); [lia|reflexivity]. }
      assert (Hpay : Forall is_byte (skipn w (mc_in a ++ repeat byte (S n)))) by (apply skipn_bytes, bytes_flooded, Hb).
      assert (Hpl : length (skipn w (mc_in a ++ repeat byte (S n))) = wire_sizes (params f)) by (rewrite skipn_length, Hlen; lia).
      unfold accepts_any in Hacc. rewrite Forall_forall in Hacc. pose proof (Hacc f Hin _ x Hpay Hpl) as Hserv.
      destruct (serve fm f (skipn w (mc_in a ++ repeat byte (S n))) x) as [x' out] eqn:Es.
      exists n, (mk_machine [] out (mc_table a)), x', RESOLVED_PACKET.
      destruct (flood_end n a x (mk_machine [] out (mc_table a)) x' RESOLVED_PACKET Hq Hj) as [E L].
      { unfold servable. rewrite Ex. exact Hserv. }
      { unfold received. rewrite Ex, Es. reflexivity. }
      split; [exact E|]. split; [exact L|]. split; [reflexivity|]. split; [reflexivity|]. split.
      - destruct Hsil as [Hd2|[Hv Ho]]; [left; exact Hd2|right]. split; auto. cbn [mc_out].
        unfold serve in Es. destruct (f_call f _ x) as [x2 r]. injection Es as _ <-. unfold ret.
        rewrite (void_table _ f Hv Ht Hin). reflexivity.
      - split; [right; auto|]. apply Hmid. exact Hj. }
    destruct (Nat.ltb_spec (length (mc_in a)) w) as [Hlt|Hge].
    - (* the index is not complete *)
      set (k := w - length (mc_in a)).
      assert (Hbefore : forall j, j < k -> examine fm (mc_table a) (mc_in a ++ repeat byte j) = Incomplete).
      { intros j Hj. unfold examine. cbn [fm format_of fm_w]. fold w fm. rewrite Hlen.
        destruct (Nat.ltb_spec (length (mc_in a) + j) w); [reflexivity|unfold k in Hj; lia]. }
      destruct (designated fm (mc_table a) (mc_in a ++ repeat byte k)) as [f|] eqn:Hd.
      + assert (Hne : mc_in a <> []).
        { intros E. rewrite E in Hd. cbn [app] in Hd. unfold k in Hd. rewrite E in Hd. cbn [length] in Hd. rewrite Nat.sub_0_r in Hd.
          destruct (received_bad p kr (mc_table a) Ht (repeat byte w) a x) as (_ & _ & Hn); [|reflexivity|].
          - apply (ones_bad p true kr Hk (or_introl eq_refl)).
          - fold fm in Hn. congruence. }
        assert (Hne' : 1 <= length (mc_in a)) by (destruct (mc_in a); [congruence|cbn; lia]).
        pose proof (longest_bound (mc_table a) f Ht (designated_in _ _ _ Hd)) as Hlong.
        apply (Hcall (k + wire_sizes (params f) - 1) f).
        * unfold k. lia.
        * replace (S (k + wire_sizes (params f) - 1)) with (k + wire_sizes (params f)) by (unfold k; lia).
          rewrite repeat_app, app_assoc, designated_app; [exact Hd|]. rewrite Hlen. unfold k. lia.
        * unfold k. lia.
        * intros j Hj. destruct (Nat.ltb_spec j k) as [Hjk|Hjk]; [apply Hbefore; exact Hjk|].
          unfold examine. cbn [fm format_of fm_w]. fold w fm. rewrite Hlen.
          destruct (Nat.ltb_spec (length (mc_in a) + j) w); [reflexivity|].
          replace j with (k + (j - k)) by lia. rewrite repeat_app, app_assoc, designated_app; [|rewrite Hlen; unfold k; lia].
          rewrite Hd. destruct (Nat.ltb_spec (length (mc_in a) + (k + (j - k))) (w + wire_sizes (params f))); [reflexivity|].
          unfold k in *. lia.
        * exact Hne.
        * unfold k. unfold params in *. split; [lia|]. intros. lia.
      + destruct (flood_end (k - 1) a x (mk_machine [] (mc_out a) (mc_table a)) x DROPPED_PACKET Hq) as [E L].
        * intros j Hj. apply Hbefore. lia.
        * replace (S (k - 1)) with k by (unfold k; lia). unfold servable, examine. cbn [fm format_of fm_w]. fold w fm. rewrite Hlen, Hd.
          destruct (Nat.ltb_spec (length (mc_in a) + k) w); exact I.
        * replace (S (k - 1)) with k by (unfold k; lia). unfold received, examine. cbn [fm format_of fm_w]. fold w fm. rewrite Hlen, Hd.
          destruct (Nat.ltb_spec (length (mc_in a) + k) w); [unfold k in *; lia|reflexivity].
        * exists (k - 1), (mk_machine [] (mc_out a) (mc_table a)), x, DROPPED_PACKET.
          split; [exact E|]. split; [exact L|]. split; [reflexivity|]. split; [reflexivity|]. split; [exact Hsil|].
          split; [left; split; auto; split; auto; unfold k; lia|]. apply Hmid. intros j Hj. apply Hbefore. lia.
    - (* the index is complete *)
      assert (Hd : exists f, designated fm (mc_table a) (mc_in a) = Some f /\ length (mc_in a) < w + wire_sizes (params f)).
      { unfold examine in Hex. cbn [fm format_of fm_w] in Hex. fold w fm in Hex.
        destruct (Nat.ltb_spec (length (mc_in a)) w); [lia|]. destruct (designated fm (mc_table a) (mc_in a)) as [f|]; [|discriminate].
        destruct (Nat.ltb_spec (length (mc_in a)) (w + wire_sizes (params f))); [|discriminate]. eauto. }
      destruct Hd as (f & Hd & Hl). pose proof (longest_bound (mc_table a) f Ht (designated_in _ _ _ Hd)) as Hlong.
      apply (Hcall (w + wire_sizes (params f) - length (mc_in a) - 1) f).
      + lia.
      + rewrite designated_app; auto.
      + lia.
      + intros j Hj. unfold examine. cbn [fm format_of fm_w]. fold w fm. rewrite Hlen, designated_app, Hd by auto.
        destruct (Nat.ltb_spec (length (mc_in a) + j) w); [reflexivity|].
        destruct (Nat.ltb_spec (length (mc_in a) + j) (w + wire_sizes (params f))); [reflexivity|lia].
      + intros E. rewrite E in Hge. cbn [length] in Hge. lia.
      + unfold params in *. split; intros; lia.
  Qed.

  (** At the beginning of a request: a bad index, again and again. *)
  Lemma flood_idle : forall a x, quiet dbl a -> map f_sig (mc_table a) = kr_signatures kr -> mc_in a = [] ->
    forall n, exists vs, mc_run fm (flood n) a x
      = Ok (mk_machine (repeat byte (n mod w)) (mc_out a) (mc_table a), x, vs)
      /\ along fm legit (flood n) a x /\ count_resolved vs = 0.
  Proof.
    intros a x Hq Ht Hin n. pose proof w_positive as Hw.
    induction n as [|n IH].
    - exists []. rewrite Nat.mod_small by lia. unfold flood. cbn [repeat mc_run along]. destruct a as [mi mo mt]. cbn in Hin. subst mi. auto.
    - destruct IH as (vs & E & L & C).
      set (a1 := mk_machine (repeat byte (n mod w)) (mc_out a) (mc_table a)) in *.
      assert (Hm : n mod w < w) by (apply Nat.mod_upper_bound; lia).
      pose proof (Nat.div_mod n w ltac:(lia)) as Hdm.
      destruct (Nat.eq_dec (S (n mod w)) w) as [Ew|Ew].
      + destruct (received_bad p kr (mc_table a) Ht (repeat byte w) a1 x) as (Hr & Hserv & _); [apply (ones_bad p true kr Hk (or_introl eq_refl))|reflexivity|].
        fold fm in Hr, Hserv. exists (vs ++ [OStatus DROPPED_PACKET]).
        assert (Em : S n mod w = 0).
        { replace (S n) with (w * S (n / w)) by lia. rewrite Nat.mul_comm. apply Nat.mod_mul. lia. }
        rewrite Em. split; [|split].
        * eapply mc_run_last; [exact E|]. unfold mc_put. cbn [a1 mc_in]. rewrite <- repeat_app_one, Ew. exact Hr.
        * eapply along_last; [exact L|exact E|]. split; [|exact Hq]. cbn [step_ok a1 mc_table mc_in]. split; [exact is_byte_255|].
          rewrite <- repeat_app_one, Ew. exact Hserv.
        * rewrite count_app, C. reflexivity.
      + assert (Em : S n mod w = S (n mod w)).
        { symmetry. apply (Nat.mod_unique (S n) w (n / w)); lia. }
        assert (Ex : examine fm (mc_table a) (repeat byte (S (n mod w))) = Incomplete).
        { unfold examine. cbn [fm format_of fm_w]. fold w fm. rewrite repeat_length.
          destruct (Nat.ltb_spec (S (n mod w)) w); [reflexivity|lia]. }
        exists (vs ++ [OStatus LOADING_PACKET]). rewrite Em. split; [|split].
        * eapply mc_run_last; [exact E|]. unfold mc_put, received. cbn [a1 mc_in mc_table]. rewrite <- repeat_app_one, Ex. reflexivity.
        * eapply along_last; [exact L|exact E|]. split; [|exact Hq]. cbn [step_ok a1 mc_table mc_in]. split; [exact is_byte_255|].
          unfold servable. rewrite <- repeat_app_one. fold fm. rewrite Ex. exact I.
        * rewrite count_app, C. reflexivity.
  Qed.

  Lemma along_then : forall ops ops' a x a1 x1 vs, along fm legit ops a x -> mc_run fm ops a x = Ok (a1, x1, vs) ->
    along fm legit ops' a1 x1 -> along fm legit (ops ++ ops') a x.
  Proof.
    induction ops as [|o ops IH]; intros ops' a x a1 x1 vs H E Hl; cbn [app along mc_run] in *.
    - injection E as <- <- <-. exact Hl.
    - destruct H as [H0 H]. split; auto. intros a2 x2 v Ev. ok_inv E q. destruct q as [[a3 x3] v3].
      assert (a3 = a2 /\ x3 = x2) as [-> ->] by (rewrite Ev in E0; split; congruence).
      ok_inv E q. destruct q as [[a4 x4] vs4]. injection E as -> -> <-. eapply IH; eauto.
  Qed.

  Lemma flood_app : forall n m, flood (n + m) = flood n ++ flood m.
  Proof. intros. apply repeat_app. Qed.
End Recovery.

Section Dropping.
  Context {X : Type}.
  Variables (p : platform) (dbl : bool) (kr : keyring X) (ft : action_features).
  Hypothesis Hk : keyring_ok p kr.

  Lemma flood_dropped : forall a x, silent dbl kr a -> map f_sig (mc_table a) = kr_signatures kr ->
    accepts_any p kr (mc_table a) -> Forall is_byte (mc_in a) -> examine (format_of kr) (mc_table a) (mc_in a) = Incomplete ->
    exists n a' x' vs,
      mc_run (format_of kr) (flood (S n)) a x = Ok (a', x', vs ++ [OStatus DROPPED_PACKET])
      /\ along (format_of kr) (legitimate p dbl kr ft) (flood (S n)) a x
      /\ ~ In (OStatus DROPPED_PACKET) vs
      /\ S n <= 2 * kr_index_size kr - 1 + longest kr
      /\ count_resolved vs <= 1
      /\ (mc_in a = [] -> S n = kr_index_size kr /\ count_resolved vs = 0 /\ x' = x)
      /\ mc_in a' = [] /\ mc_table a' = mc_table a /\ silent dbl kr a'.
  Proof.
    intros a x Hsil Ht Hacc Hb Hex. pose proof (w_positive p kr Hk) as Hw.
    destruct (flood_first p dbl kr ft Hk a x Hsil Ht Hacc Hb Hex) as (n & a1 & x1 & s & E & L & Hin1 & Ht1 & Hsil1 & Hcase & _).
    assert (Hnd : forall k, ~ In (OStatus DROPPED_PACKET) (repeat (OStatus LOADING_PACKET) k)).
    { intros k Hin. apply repeat_spec in Hin. discriminate. }
    destruct Hcase as [(-> & -> & Hn)|(-> & Hn & _ & Hne)].
    - exists n, a1, x, (repeat (OStatus LOADING_PACKET) n). split; [exact E|]. split; [exact L|]. split; [apply Hnd|].
      split; [lia|]. split; [rewrite count_loading; lia|]. split; [|auto].
      intros Hidle. split; [|split; [apply count_loading|reflexivity]].
      assert (Hlt : ~ S n < kr_index_size kr).
      { intros Hlt. destruct (flood_loading p dbl kr ft (S n) a x) as [E2 _].
        - apply silent_quiet with kr. exact Hsil.
        - intros j Hj. rewrite Hidle. unfold examine. cbn [app format_of fm_w]. rewrite repeat_length.
          destruct (Nat.ltb_spec j (kr_index_size kr)); [reflexivity|lia].
        - rewrite E in E2. assert (EL : repeat (OStatus LOADING_PACKET) n ++ [OStatus DROPPED_PACKET]
            = repeat (OStatus LOADING_PACKET) (S n)) by congruence.
          apply (Hnd (S n)). rewrite <- EL. apply in_or_app. right. left. reflexivity. }
      lia.
    - destruct (mc_feed_bad p dbl kr ft (kr_index_size kr) 0 (repeat 255%Z (kr_index_size kr)) x1 a1) as [E2 L2].
      { rewrite Ht1. exact Ht. }
      { apply (ones_bad p true kr Hk (or_introl eq_refl)). }
      { rewrite Hin1. reflexivity. }
      { rewrite repeat_length. lia. }
      { lia. }
      { apply silent_quiet with kr. exact Hsil1. }
      cbn [skipn] in E2, L2. rewrite map_repeated in E2, L2.
      exists (n + kr_index_size kr), (mk_machine [] (mc_out a1) (mc_table a1)), x1,
        ((repeat (OStatus LOADING_PACKET) n ++ [OStatus RESOLVED_PACKET]) ++ repeat (OStatus LOADING_PACKET) (kr_index_size kr - 1)).
      change (S (n + kr_index_size kr)) with (S n + kr_index_size kr). rewrite flood_app.
      split; [|split; [|split; [|split; [|split; [|split; [|split; [reflexivity|split; [exact Ht1|exact Hsil1]]]]]]]].
      + rewrite mc_run_app. rewrite E. cbn [bind]. unfold flood. rewrite E2. cbn [bind]. rewrite <- !app_assoc. reflexivity.
      + eapply along_then; [exact L|exact E|exact L2].
      + intros Hin. apply in_app_or in Hin. destruct Hin as [Hin|Hin]; [|exact (Hnd _ Hin)].
        apply in_app_or in Hin. destruct Hin as [Hin|[Hin|[]]]; [exact (Hnd _ Hin)|discriminate].
      + lia.
      + rewrite !count_app, !count_loading. cbn. lia.
      + intros Hi. exfalso. apply Hne, Hi.
  Qed.
End Dropping.

(** ** C86 *)

(** A master which sends 255 until a packet is dropped resynchronises the
    slave, whatever the slave received before: the number of bytes is bounded,
    at most one callback is called, none if no request was in progress. *)
Theorem C86_until_dropped : forall (X : Type) p dbl (kr : keyring X) ft b a x,
  wf_platform p -> keyring_ok p kr -> well_sized dbl kr ft -> reached p dbl kr ft b a x ->
  dbl = true \/ (all_void kr /\ mc_out a = []) -> accepts_any p kr (mc_table a) ->
  exists n b' a' x' vs,
    run_ops p (repeat (Put 255%Z) (S n)) b x = Ok (b', x', vs ++ [OStatus DROPPED_PACKET])
    /\ ~ In (OStatus DROPPED_PACKET) vs
    /\ S n <= 2 * kr_index_size kr - 1 + longest kr
    /\ count_resolved vs <= 1
    /\ (idle kr b -> S n = kr_index_size kr /\ count_resolved vs = 0 /\ x' = x)
    /\ reached p dbl kr ft b' a' x' /\ mc_in a' = [] /\ mc_table a' = mc_table a /\ quiet dbl a' /\ idle kr b'.
Proof.
  intros X p dbl kr ft b a x Hp Hk Hs H Hsil Hacc.
  pose proof (reached_table p dbl kr ft Hp Hk Hs b a x H) as Ht.
  destruct (reached_pending p dbl kr ft Hp Hk Hs b a x H) as (Hb & Hex & _ & Hidle).
  destruct (flood_dropped p dbl kr ft Hk a x Hsil Ht Hacc Hb Hex)
    as (n & a' & x' & vs & E & L & Hnd & Hn & Hc & Hi & Hin & Hta & Hsil').
  destruct (reached_run p dbl kr ft Hp Hk Hs _ b a x _ _ _ H L E) as (b' & R & H').
  exists n, b', a', x', vs. split; [exact R|]. split; [exact Hnd|]. split; [exact Hn|]. split; [exact Hc|].
  split; [intros Hid; apply Hi, Hidle, Hid|]. split; [exact H'|]. split; [exact Hin|]. split; [exact Hta|].
  split; [exact (silent_quiet dbl kr a' Hsil')|]. apply (reached_pending p dbl kr ft Hp Hk Hs b' a' x' H'). exact Hin.
Qed.

(** With an index of one byte (up to 255 callbacks) the master needs no answer:
    as many bytes as the arguments of a request may take are enough. *)
Theorem C86_blind : forall (X : Type) p dbl (kr : keyring X) ft b a x n,
  wf_platform p -> keyring_ok p kr -> well_sized dbl kr ft -> reached p dbl kr ft b a x ->
  dbl = true \/ (all_void kr /\ mc_out a = []) -> accepts_any p kr (mc_table a) ->
  kr_index_size kr = 1 -> longest kr <= n ->
  exists b' a' x' vs,
    run_ops p (repeat (Put 255%Z) n) b x = Ok (b', x', vs)
    /\ reached p dbl kr ft b' a' x' /\ mc_in a' = [] /\ mc_table a' = mc_table a /\ quiet dbl a' /\ idle kr b'
    /\ (idle kr b -> count_resolved vs = 0 /\ x' = x)
    /\ (~ idle kr b -> count_resolved vs = 1).
Proof.
  intros X p dbl kr ft b a x n Hp Hk Hs H Hsil Hacc Hw1 Hn.
  pose proof (reached_table p dbl kr ft Hp Hk Hs b a x H) as Ht.
  destruct (reached_pending p dbl kr ft Hp Hk Hs b a x H) as (Hb & Hex & Hidle' & Hidle).
  destruct (mc_in a) as [|c l] eqn:Ein.
  - destruct (flood_idle p dbl kr ft Hk a x (silent_quiet dbl kr a Hsil) Ht Ein n) as (vs & E & L & C).
    rewrite Hw1, Nat.mod_1_r in E. cbn [repeat] in E.
    destruct (reached_run p dbl kr ft Hp Hk Hs _ b a x _ _ _ H L E) as (b' & R & H').
    exists b', (mk_machine [] (mc_out a) (mc_table a)), x, vs. split; [exact R|]. split; [exact H'|].
    split; [reflexivity|]. split; [reflexivity|]. split; [exact (silent_quiet dbl kr a Hsil)|].
    split; [apply (reached_pending p dbl kr ft Hp Hk Hs b' _ x H'); reflexivity|].
    split; [auto|]. intros Hni. exfalso. apply Hni, Hidle'. reflexivity.
  - rewrite <- Ein in *.
    destruct (flood_first p dbl kr ft Hk a x Hsil Ht Hacc Hb Hex) as (k & a1 & x1 & s & E & L & Hin1 & Ht1 & Hsil1 & Hcase & _).
    assert (Hge : 1 <= length (mc_in a)) by (rewrite Ein; cbn [length]; lia).
    destruct Hcase as [(-> & -> & Hk1)|(-> & _ & Hk2 & _)].
    { (* no request is dropped once its index is known *)
      exfalso. rewrite Hw1 in Hk1. replace k with 0 in * by lia. cbn [repeat app] in E.
      unfold flood in E. cbn [repeat mc_run mc_step] in E. unfold mc_put, received, examine in E. unfold examine in Hex.
      cbn [format_of fm_w] in Hex, E. rewrite app_length in E. cbn [length] in E.
      rewrite Hw1 in Hex, E. destruct (Nat.ltb_spec (length (mc_in a)) 1); [lia|].
      destruct (Nat.ltb_spec (length (mc_in a) + 1) 1); [lia|].
      pose proof (designated_app kr (mc_table a) (mc_in a) [255%Z]) as Hd. rewrite Hw1 in Hd. specialize (Hd Hge).
      rewrite Hd in E. destruct (designated (format_of kr) (mc_table a) (mc_in a)) as [f|]; [|discriminate].
      destruct (Nat.ltb (length (mc_in a) + 1) (1 + wire_sizes (params f))).
      - discriminate E.
      - destruct (serve _ f _ x). discriminate E. }
    specialize (Hk2 ltac:(rewrite Hw1; exact Hge)).
    destruct (flood_idle p dbl kr ft Hk a1 x1 (silent_quiet dbl kr a1 Hsil1) ltac:(rewrite Ht1; exact Ht) Hin1 (n - S k)) as (vs & E2 & L2 & C).
    rewrite Hw1, Nat.mod_1_r in E2. cbn [repeat] in E2.
    pose proof (along_then p dbl kr ft _ _ a x a1 x1 _ L E L2) as L3. rewrite <- flood_app in L3.
    assert (E3 : mc_run (format_of kr) (flood (S k + (n - S k))) a x
      = Ok (mk_machine [] (mc_out a1) (mc_table a1), x1, (repeat (OStatus LOADING_PACKET) k ++ [OStatus RESOLVED_PACKET]) ++ vs)).
    { rewrite flood_app, mc_run_app, E. cbn [bind]. rewrite E2. reflexivity. }
    replace (S k + (n - S k)) with n in * by lia.
    destruct (reached_run p dbl kr ft Hp Hk Hs _ b a x _ _ _ H L3 E3) as (b' & R & H').
    do 4 eexists. split; [exact R|]. split; [exact H'|]. split; [reflexivity|]. split; [exact Ht1|].
    split; [exact (silent_quiet dbl kr a1 Hsil1)|].
    split; [apply (reached_pending p dbl kr ft Hp Hk Hs b' _ x1 H'); reflexivity|]. split.
    + intros Hi. specialize (Hidle Hi). rewrite Ein in Hidle. discriminate.
    + intros _. rewrite !count_app, count_loading, C. reflexivity.
Qed.

(** Hence a request which follows these bytes is served, whatever came before. *)
Theorem C86_served : forall (X : Type) p dbl (kr : keyring X) ft b a x n,
  wf_platform p -> keyring_ok p kr -> well_sized dbl kr ft -> reached p dbl kr ft b a x ->
  dbl = true \/ (all_void kr /\ mc_out a = []) -> accepts_any p kr (mc_table a) ->
  kr_index_size kr = 1 -> longest kr <= n ->
  exists x1, (idle kr b -> x1 = x) /\
  forall i f args x2 r, nth_error (mc_table a) i = Some f -> calls p kr f args x1 x2 r ->
  exists b' vs,
    run_ops p (repeat (Put 255%Z) n ++ map Put (packet kr i f args)) b x = Ok (b', x2, vs ++ [OStatus RESOLVED_PACKET])
    /\ reached p dbl kr ft b' (mk_machine [] (answer kr f r) (mc_table a)) x2.
Proof.
  intros X p dbl kr ft b a x n Hp Hk Hs H Hsil Hacc Hw1 Hn.
  destruct (C86_blind X p dbl kr ft b a x n Hp Hk Hs H Hsil Hacc Hw1 Hn) as (b1 & a1 & x1 & vs & E & H1 & Hin & Ht1 & Hq & _ & Hi & _).
  exists x1. split; [intros Hid; apply Hi; exact Hid|]. intros i f args x2 r Hnth Hc. rewrite <- Ht1 in Hnth.
  pose proof (reached_table p dbl kr ft Hp Hk Hs b1 a1 x1 H1) as Ht.
  pose proof (packet_length p kr i f args x1 x2 r Hc) as Hl.
  destruct (mc_feed p dbl kr ft Hk (length (packet kr i f args)) 0 i f args x1 x2 r a1 Ht Hnth Hc Hin) as [E2 L2].
  { lia. }
  { lia. }
  { exact Hq. }
  cbn [skipn] in E2, L2.
  destruct (reached_run p dbl kr ft Hp Hk Hs _ b1 a1 x1 _ _ _ H1 L2 E2) as (b2 & R & H2). rewrite Ht1 in H2.
  exists b2. eexists. split; [|exact H2]. rewrite run_ops_app, E. cbn [bind]. rewrite R. cbn [bind]. rewrite app_assoc. reflexivity.
Qed.

Lemma list_max_in : forall l, list_max l = 0 \/ In (list_max l) l.
Proof.
  induction l as [|n l IH]; [left; reflexivity|]. cbn [list_max fold_right].
  change (fold_right Nat.max 0 l) with (list_max l). destruct (Nat.max_spec n (list_max l)) as [[_ E]|[_ E]]; rewrite E.
  - destruct IH as [->|H]; [left; reflexivity|right; right; exact H].
  - right. left. reflexivity.
Qed.

(** No smaller number is enough: the index of the callback whose arguments take
    the most bytes may have been received. *)
Theorem C86_blind_exact : forall (X : Type) p dbl (kr : keyring X) ft g g' b0 (x0 : X) n,
  wf_platform p -> keyring_ok p kr -> well_sized dbl kr ft -> make_buffered dbl kr ft g g' = Some b0 ->
  dbl = true \/ all_void kr -> accepts_any p kr (map snd (kr_funcs kr)) -> kr_index_size kr = 1 ->
  (forall b a x, reached p dbl kr ft b a x -> dbl = true \/ mc_out a = [] -> accepts_any p kr (mc_table a) ->
    exists b' x' vs, run_ops p (repeat (Put 255%Z) n) b x = Ok (b', x', vs) /\ idle kr b')
  <-> longest kr <= n.
Proof.
  intros X p dbl kr ft g g' b0 x0 n Hp Hk Hs Hb Hv Hacc Hw1. split.
  - intros Hall. destruct (Nat.le_gt_cases (longest kr) n) as [Hle|Hgt]; [exact Hle|exfalso].
    destruct (list_max_in (map (fun sg => wire_sizes (sig_params sg)) (kr_signatures kr))) as [Hz|Hin].
    { unfold longest in Hgt. lia. }
    change (list_max _) with (longest kr) in Hin. apply in_map_iff in Hin. destruct Hin as (sg & Esg & Hin).
    unfold kr_signatures in Hin. apply in_map_iff in Hin. destruct Hin as ([name f] & Ef & Hin). cbn [snd] in Ef.
    assert (Hin' : In f (mc_table (fresh kr))) by (apply (in_map snd) in Hin; exact Hin).
    apply In_nth_error in Hin'. destruct Hin' as [i Hi].
    pose proof (reached_new p dbl kr ft g g' b0 x0 Hb) as H0.
    pose proof (reached_table p dbl kr ft Hp Hk Hs b0 _ x0 H0) as Ht.
    pose proof (wire_bytes_length (kr_e kr) (kr_index_size kr) (Z.of_nat i)) as Hl.
    pose proof (wire_bytes_bytes (kr_e kr) (kr_index_size kr) (Z.of_nat i)) as Hbs.
    destruct (wire_bytes (kr_e kr) (kr_index_size kr) (Z.of_nat i)) as [|c [|]] eqn:Ei; try (rewrite Hw1 in Hl; discriminate Hl).
    inversion_clear Hbs as [|? ? Hc _].
    assert (Hd : forall l, designated (format_of kr) (mc_table (fresh kr)) (c :: l) = Some f).
    { intros l. apply (packet_designates p kr Hk (mc_table (fresh kr)) Ht i f []); [exact Hi|].
      rewrite packet_index, Ei, Hw1. reflexivity. }
    assert (Hex : forall j, j <= n -> examine (format_of kr) (mc_table (fresh kr)) (c :: repeat 255%Z j) = Incomplete).
    { intros j Hj. unfold examine. cbn [format_of fm_w length]. rewrite repeat_length, Hw1.
      destruct (Nat.ltb_spec (S j) 1); [lia|]. rewrite Hd. unfold params. rewrite Ef, Esg.
      destruct (Nat.ltb_spec (S j) (1 + longest kr)); [reflexivity|lia]. }
    set (a1 := mk_machine [c] [] (mc_table (fresh kr))).
    assert (H1 : exists b1, reached p dbl kr ft b1 a1 x0).
    { destruct (reached_step p dbl kr ft Hp Hk Hs (Put c) b0 (fresh kr) x0 a1 x0 (OStatus LOADING_PACKET) H0) as (b1 & _ & H1).
      - split; [|right; reflexivity]. cbn [step_ok]. split; [exact Hc|]. unfold servable. cbn [fresh mc_in app].
        pose proof (Hex 0 ltac:(lia)) as E. cbn [repeat] in E. fold (fresh kr). rewrite E. exact I.
      - cbn [mc_step]. unfold mc_put, received. cbn [fresh mc_in app mc_out].
        pose proof (Hex 0 ltac:(lia)) as E. cbn [repeat] in E. unfold fresh at 1. cbn [mc_in mc_table app]. change (map snd (kr_funcs kr)) with (mc_table (fresh kr)). rewrite E. reflexivity.
      - exists b1. exact H1. }
    destruct H1 as [b1 H1].
    destruct (flood_loading p dbl kr ft n a1 x0) as [E L].
    { right. reflexivity. }
    { intros j Hj. apply Hex. lia. }
    destruct (reached_run p dbl kr ft Hp Hk Hs _ b1 a1 x0 _ _ _ H1 L E) as (b2 & R & H2).
    destruct (Hall b1 a1 x0 H1) as (b' & x' & vs & R' & Hidle); [right; reflexivity|exact Hacc|].
    assert (b' = b2) by (unfold flood in R; rewrite R in R'; congruence). subst b'.
    pose proof (proj2 (proj2 (proj2 (reached_pending p dbl kr ft Hp Hk Hs b2 _ x0 H2))) Hidle) as Hn. discriminate Hn.
  - intros Hle b a x H Hq Ha.
    assert (Hsil : dbl = true \/ all_void kr /\ mc_out a = []).
    { destruct Hv as [Hd|Hv]; [left; exact Hd|]. destruct Hq as [Hd|Ho]; [left; exact Hd|right; auto]. }
    destruct (C86_blind X p dbl kr ft b a x n Hp Hk Hs H Hsil Ha Hw1 Hle) as (b' & a' & x' & vs & R & _ & _ & _ & _ & Hid & _).
    exists b', x', vs. auto.
Qed.

(** With an index of two bytes or more no number of bytes 255 is enough. *)
Theorem C86_wide : forall (X : Type) p dbl (kr : keyring X) ft g g' b0 (x0 : X) n,
  wf_platform p -> keyring_ok p kr -> well_sized dbl kr ft -> make_buffered dbl kr ft g g' = Some b0 ->
  2 <= kr_index_size kr ->
  exists b b' vs, (b = b0 \/ exists v, run_ops p [Put 255%Z] b0 x0 = Ok (b, x0, [v]))
    /\ run_ops p (repeat (Put 255%Z) n) b x0 = Ok (b', x0, vs) /\ ~ idle kr b'.
Proof.
  intros X p dbl kr ft g g' b0 x0 n Hp Hk Hs Hb Hw.
  pose proof (reached_new p dbl kr ft g g' b0 x0 Hb) as H0.
  pose proof (reached_table p dbl kr ft Hp Hk Hs b0 _ x0 H0) as Ht.
  pose proof (Nat.mod_upper_bound n (kr_index_size kr) ltac:(lia)) as Hm.
  assert (Hwait : forall b a x, reached p dbl kr ft b a x -> mc_in a <> [] -> ~ idle kr b).
  { intros b a x H Hne Hi. apply Hne. apply (reached_pending p dbl kr ft Hp Hk Hs b a x H). exact Hi. }
  assert (Hne : forall k, k <> 0 -> repeat 255%Z k <> []) by (intros [|k] Hk0; [lia|discriminate]).
  destruct (Nat.eq_dec (n mod kr_index_size kr) 0) as [Ez|Enz].
  - destruct (flood_idle p dbl kr ft Hk (fresh kr) x0 (or_intror eq_refl) Ht eq_refl (1 + n)) as (vs & E & L & _).
    destruct (reached_run p dbl kr ft Hp Hk Hs _ b0 _ x0 _ _ _ H0 L E) as (b2 & R & H2).
    rewrite flood_app, run_ops_app in R. ok_inv R q. destruct q as [[b1 x1] v1].
    destruct (flood_idle p dbl kr ft Hk (fresh kr) x0 (or_intror eq_refl) Ht eq_refl 1) as (v & E1 & L1 & _).
    destruct (reached_run p dbl kr ft Hp Hk Hs _ b0 _ x0 _ _ _ H0 L1 E1) as (b3 & R3 & H3).
    assert (x1 = x0) by congruence. subst x1. ok_inv R q. destruct q as [[b4 x4] v4]. injection R as -> -> _.
    exists b1, b2, v4. split; [|split; [exact E2|]].
    + right. unfold flood in E0. cbn [repeat run_ops] in E0. ok_inv E0 q. destruct q as [[b5 x5] v5].
      cbn [bind] in E0. exists v5. injection E0 as -> -> _. cbn [run_ops]. rewrite E3. reflexivity.
    + apply (Hwait b2 _ x0 H2). cbn [mc_in]. apply Hne.
      rewrite <- Nat.add_mod_idemp_r, Ez, Nat.mod_small; lia.
  - destruct (flood_idle p dbl kr ft Hk (fresh kr) x0 (or_intror eq_refl) Ht eq_refl n) as (vs & E & L & _).
    destruct (reached_run p dbl kr ft Hp Hk Hs _ b0 _ x0 _ _ _ H0 L E) as (b2 & R & H2).
    exists b0, b2, vs. split; [left; reflexivity|]. split; [exact R|]. apply (Hwait b2 _ x0 H2). apply Hne. exact Enz.
Qed.

(** Requests for the lights, and the requests the slave sees when the first byte
    is lost. *)
Definition lit (r : nat * nat) : nat * list val := (2 + fst r, [VInt (Z.of_nat (snd r))]).

Fixpoint sent (rs : list (nat * nat)) : list Z :=
  match rs with [] => [] | (i, c) :: rs' => Z.of_nat i :: Z.of_nat c :: sent rs' end.

Fixpoint shifted (c : nat) (rs : list (nat * nat)) : list (nat * nat) :=
  match rs with [] => [] | (i, c') :: rs' => (c, i) :: shifted c' rs' end.

Lemma light_pair : forall c i c' x, c < 3 -> i < 3 -> c' < 3 ->
  let a := mk_machine [Z.of_nat c] [] (mc_table (fresh lights)) in
  mc_run (format_of lights) [Put (Z.of_nat i); Put (Z.of_nat c')] a x
    = Ok (mk_machine [Z.of_nat c'] [] (mc_table (fresh lights)), lit (c, i) :: x,
          [OStatus RESOLVED_PACKET; OStatus LOADING_PACKET])
  /\ along (format_of lights) (legitimate pc_native false lights WEAK_REFERENCE) [Put (Z.of_nat i); Put (Z.of_nat c')] a x.
Proof.
  intros c i c' x Hc Hi Hc' a. unfold a. clear a.
  destruct c as [|[|[|c]]]; try lia; destruct i as [|[|[|i]]]; try lia; destruct c' as [|[|[|c']]]; try lia;
    (split; [reflexivity|]);
    (split; [split; [split; [range|]|right; reflexivity]|
       intros a1 x1 v E; cbn in E; injection E as <- <- <-;
       split; [split; [split; [range|exact I]|right; reflexivity]|intros; exact I]]);
    cbn; repeat split; range.
Qed.

Lemma lights_shifted : forall rs c x, c < 3 -> Forall (fun r => fst r < 3 /\ snd r < 3) rs ->
  exists c',
  let a := mk_machine [Z.of_nat c] [] (mc_table (fresh lights)) in
  mc_run (format_of lights) (map Put (sent rs)) a x
    = Ok (mk_machine [Z.of_nat c'] [] (mc_table (fresh lights)), rev (map lit (shifted c rs)) ++ x,
          concat (repeat [OStatus RESOLVED_PACKET; OStatus LOADING_PACKET] (length rs)))
  /\ along (format_of lights) (legitimate pc_native false lights WEAK_REFERENCE) (map Put (sent rs)) a x.
Proof.
  induction rs as [|[i c'] rs IH]; intros c x Hc Hrs.
  - exists c. cbn [sent map mc_run along shifted rev app]. auto.
  - inversion_clear Hrs as [|? ? [Hi Hc'] Hrs']. cbn [fst snd] in Hi, Hc'.
    destruct (light_pair c i c' x Hc Hi Hc') as [E L].
    destruct (IH c' (lit (c, i) :: x) Hc' Hrs') as (c2 & E2 & L2).
    exists c2. change (map Put (sent ((i, c') :: rs)))
      with ([@Put log (Z.of_nat i); Put (Z.of_nat c')] ++ map Put (sent rs)). split.
    + rewrite mc_run_app, E. cbn [bind]. rewrite E2. cbn [bind shifted map rev]. rewrite <- app_assoc. reflexivity.
    + eapply along_then; [exact L|exact E|exact L2].
Qed.

(** The first byte of a sequence of requests is lost.  None of the requests is
    dropped: the argument of each is taken for the index of the next one, and
    this lasts as long as the sequence does. *)
Theorem C86_lost_byte : forall i c rs, Forall (fun r => fst r < 3 /\ snd r < 3) ((i, c) :: rs) ->
  exists b b', make_single lights WEAK_REFERENCE [] = Some b
    /\ run_ops pc_native (map Put (tl (sent ((i, c) :: rs)))) b []
       = Ok (b', rev (map lit (shifted c rs)),
             OStatus LOADING_PACKET :: concat (repeat [OStatus RESOLVED_PACKET; OStatus LOADING_PACKET] (length rs)))
    /\ ~ idle lights b'.
Proof.
  intros i c rs H. inversion_clear H as [|? ? [_ Hc] Hrs]. cbn [snd] in Hc. cbn [sent tl].
  destruct (make_single lights WEAK_REFERENCE []) as [b|] eqn:Hb; [|discriminate Hb].
  pose proof (reached_new pc_native false lights WEAK_REFERENCE [] [] b [] Hb) as H0.
  destruct (lights_shifted rs c [] Hc Hrs) as (c' & E & L). rewrite app_nil_r in E.
  set (a := mk_machine [Z.of_nat c] [] (mc_table (fresh lights))) in *.
  assert (E1 : mc_run (format_of lights) [Put (Z.of_nat c)] (fresh lights) [] = Ok (a, [], [OStatus LOADING_PACKET])).
  { destruct c as [|[|[|c]]]; try lia; reflexivity. }
  assert (L1 : along (format_of lights) (legitimate pc_native false lights WEAK_REFERENCE) [Put (Z.of_nat c)] (fresh lights) []).
  { split; [|intros; exact I]. split; [|right; reflexivity]. split; [unfold is_byte; lia|]. destruct c as [|[|[|c]]]; try lia; exact I. }
  assert (E2 : mc_run (format_of lights) (map Put (Z.of_nat c :: sent rs)) (fresh lights) []
    = Ok (mk_machine [Z.of_nat c'] [] (mc_table (fresh lights)), rev (map lit (shifted c rs)), OStatus LOADING_PACKET :: concat (repeat [OStatus RESOLVED_PACKET; OStatus LOADING_PACKET] (length rs)))).
  { change (map Put (Z.of_nat c :: sent rs)) with ([@Put log (Z.of_nat c)] ++ map Put (sent rs)).
    rewrite mc_run_app, E1. cbn [bind]. rewrite E. reflexivity. }
  pose proof (along_then pc_native false lights WEAK_REFERENCE _ (map Put (sent rs)) _ _ _ _ _ L1 E1 L) as L2.
  destruct (reached_run pc_native false lights WEAK_REFERENCE pc_native_wf lights_ok lights_well_sized _ b _ [] _ _ _ H0 L2 E2)
    as (b' & R & H').
  exists b, b'. split; [reflexivity|]. split; [exact R|].
  intros Hi. pose proof (proj2 (proj2 (proj2 (reached_pending pc_native false lights WEAK_REFERENCE pc_native_wf lights_ok
      lights_well_sized b' _ _ H'))) Hi) as Hn. discriminate Hn.
Qed.

(** The requests of README.md 84-87 sent again and again (the second light, off):
    the first light is switched on each time instead. *)
Example C86_lost_byte_example : exists b,
  make_single lights WEAK_REFERENCE [] = Some b
  /\ Forall (fun r => fst r < 3 /\ snd r < 3) [(1, 0); (1, 0); (1, 0)]
  /\ tl (sent [(1, 0); (1, 0); (1, 0)]) = [0; 1; 0; 1; 0]%Z
  /\ observe (run_ops pc_native (map Put [0; 1; 0; 1; 0]%Z) b [])
     = Ok ([(2, [VInt 1]); (2, [VInt 1])],
           [OStatus LOADING_PACKET; OStatus RESOLVED_PACKET; OStatus LOADING_PACKET; OStatus RESOLVED_PACKET;
            OStatus LOADING_PACKET]).
Proof.
  eexists. split; [reflexivity|]. split; [repeat constructor; lia|]. split; [reflexivity|]. vm_compute. reflexivity.
Qed.

Lemma lights_accept : accepts_any pc_native lights (mc_table (fresh lights)).
Proof.
  repeat constructor; cbn in *; destruct payload as [|? [|]]; try discriminate; cbn; auto.
Qed.

(** The index of the first light was received. *)
Example C86_example : exists b b1 a1,
  keyring_ok pc_native lights /\ well_sized false lights WEAK_REFERENCE /\ all_void lights
  /\ kr_index_size lights = 1 /\ longest lights = 1
  /\ make_single lights WEAK_REFERENCE [] = Some b
  /\ reached pc_native false lights WEAK_REFERENCE b1 a1 [] /\ mc_in a1 = [0%Z] /\ mc_out a1 = [] /\ ~ idle lights b1
  /\ accepts_any pc_native lights (mc_table a1)
  /\ observe (run_ops pc_native [Put 0; Put 255; Put 255; Put 1; Put 7]%Z b [])
     = Ok ([(3, [VInt 7]); (2, [VInt 255])],
           [OStatus LOADING_PACKET; OStatus RESOLVED_PACKET; OStatus DROPPED_PACKET;
            OStatus LOADING_PACKET; OStatus RESOLVED_PACKET]).
Proof.
  destruct (make_single lights WEAK_REFERENCE []) as [b|] eqn:Hb; [|discriminate Hb].
  pose proof (reached_new pc_native false lights WEAK_REFERENCE [] [] b [] Hb) as H0.
  set (a := mk_machine [0%Z] [] (mc_table (fresh lights))).
  assert (H1 : exists b1, reached pc_native false lights WEAK_REFERENCE b1 a []).
  { destruct (reached_step pc_native false lights WEAK_REFERENCE pc_native_wf lights_ok lights_well_sized (Put 0%Z) b
      (fresh lights) [] a [] (OStatus LOADING_PACKET) H0) as (b1 & _ & H1).
    - split; [|right; reflexivity]. split; [unfold is_byte; lia|exact I].
    - reflexivity.
    - exists b1. exact H1. }
  destruct H1 as [b1 H1]. exists b, b1, a.
  split; [exact lights_ok|]. split; [exact lights_well_sized|]. split; [exact lights_void|].
  split; [reflexivity|]. split; [reflexivity|]. split; [reflexivity|]. split; [exact H1|]. split; [reflexivity|].
  split; [reflexivity|]. split.
  { intros Hi. pose proof (proj2 (proj2 (proj2 (reached_pending pc_native false lights WEAK_REFERENCE pc_native_wf lights_ok
      lights_well_sized b1 _ _ H1))) Hi) as Hn. discriminate Hn. }
  split; [exact lights_accept|]. injection Hb as <-. vm_compute. reflexivity.
Qed.

(** 256 lights: the index takes two bytes.  Three bytes 255, then a request which
    switches light 0 on: light 255 is switched off. *)
Definition many_lights : keyring log := mk_keyring LITTLE TWOS_COMPLEMENT (map (fun n => (n, light n)) (seq 0 256)).

Example C86_wide_example : exists b,
  keyring_ok pc_native many_lights /\ well_sized false many_lights WEAK_REFERENCE
  /\ make_single many_lights WEAK_REFERENCE [] = Some b /\ kr_index_size many_lights = 2
  /\ observe (run_ops pc_native [Put 255; Put 255; Put 255; Put 0; Put 0; Put 1]%Z b [])
     = Ok ([(255, [VInt 0])],
           [OStatus LOADING_PACKET; OStatus DROPPED_PACKET; OStatus LOADING_PACKET; OStatus LOADING_PACKET;
            OStatus RESOLVED_PACKET; OStatus LOADING_PACKET]).
Proof.
  eexists. split; [|split; [|split; [reflexivity|split; [vm_compute; reflexivity|]]]].
  - split; [vm_compute; reflexivity|]. unfold many_lights. cbn [kr_funcs kr_e kr_m]. rewrite Forall_map.
    apply Forall_forall. intros n _. split; cbn [snd f_sig sig_params sig_ret light ret_ty_ok]; tyoks.
  - unfold well_sized, kr_signatures. unfold many_lights at 3. cbn [kr_funcs]. rewrite map_map, Forall_map.
    apply Forall_forall. intros n _. cbn [snd f_sig light]. split; [reflexivity|].
    split; vm_compute; lia.
  - vm_compute. reflexivity.
Qed.

Print Assumptions C86_until_dropped.
Print Assumptions C86_blind.
Print Assumptions C86_served.
Print Assumptions C86_blind_exact.
Print Assumptions C86_wide.
Print Assumptions C86_lost_byte.
