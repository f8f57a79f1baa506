(** Properties C38 to C40 and C48: packets through a buffered
    dispatcher. *)

From Coq Require Import List ZArith Lia Bool Arith.
From Verif Require Import Base CInt Spec IntModel Conditions MemFacts TypeLevel Serial TupleModel
  TypeLevelProofs IntProofs SignedProofs SerialProofs CodecFacts Bounds TupleProofs SpecRpc Rpc RpcProofs
  Hosts Closed PropertiesTypes PropertiesRpc Buffered SpecBuffered BufferedProofs PropertiesBuffered
  PropertiesBuffers.
Import ListNotations.
Open Scope nat_scope.

(** ** Setting *)

(** The bytes of a request for the callback [f] at index [i], of its response. *)
Definition packet {X : Type} (kr : keyring X) (i : nat) (f : func X) (args : list val) : list Z :=
  request (kr_e kr) (kr_m kr) (kr_index_size kr) i (sig_params (f_sig f)) args.
Definition answer {X : Type} (kr : keyring X) (f : func X) (r : val) : list Z :=
  response (kr_e kr) (kr_m kr) (sig_ret (f_sig f)) r.

(** [f] can be called on [args] in the world [x], which becomes [x']; it
    returns [r]. *)
Definition calls {X : Type} (p : platform) (kr : keyring X) (f : func X) (args : list val) (x x' : X) (r : val) : Prop :=
  Forall2 (encodable p (kr_m kr)) (sig_params (f_sig f)) args
  /\ f_call f args x = (x', r) /\ ret_encodable p (kr_m kr) (sig_ret (f_sig f)) r.

(** A single buffered dispatcher receives nothing while a response is pending. *)
Definition quiet {X : Type} (dbl : bool) (a : machine X) : Prop := dbl = true \/ mc_out a = [].

(** Bytes which designate no callback. *)
Definition bad_index {X : Type} (kr : keyring X) (idx : list Z) : Prop :=
  length idx = kr_index_size kr /\ Forall is_byte idx
  /\ (Z.of_nat (length (kr_funcs kr)) <= wire_value (kr_e kr) idx)%Z.

Lemma firstn_app_exact : forall (A : Type) (l l' : list A), firstn (length l) (l ++ l') = l.
Proof. intros. rewrite firstn_app, firstn_all, Nat.sub_diag. apply app_nil_r. Qed.
Lemma skipn_app_exact : forall (A : Type) (l l' : list A), skipn (length l) (l ++ l') = l'.
Proof. intros. rewrite skipn_app, skipn_all, Nat.sub_diag. reflexivity. Qed.

Section Packets.
  Context {X : Type}.
  Variables (p : platform) (kr : keyring X).
  Hypothesis Hk : keyring_ok p kr.
  Let fm := format_of kr.
  Let w := kr_index_size kr.

  Variable table : list (func X).
  Hypothesis Htable : map f_sig table = kr_signatures kr.

  Lemma table_len : length table = length (kr_funcs kr).
  Proof. rewrite <- (map_length f_sig), Htable. apply map_length. Qed.

  Lemma table_sig_ok : forall i f, nth_error table i = Some f -> sig_ok p (kr_e kr) (kr_m kr) (f_sig f).
  Proof.
    intros i f Hi. apply (keyring_sig p kr Hk). rewrite <- Htable. apply in_map. eapply nth_error_In; eauto.
  Qed.

  Lemma packet_length : forall i f args x x' r, calls p kr f args x x' r ->
    length (packet kr i f args) = w + wire_sizes (sig_params (f_sig f)).
  Proof.
    intros i f args x x' r (Ha & _). unfold packet, request. rewrite app_length, wire_bytes_length.
    rewrite enc_list_length by (eapply encodable_has; eauto). reflexivity.
  Qed.

  Lemma packet_bytes : forall i f args, Forall is_byte (packet kr i f args).
  Proof. intros. apply Forall_app. split; [apply wire_bytes_bytes|apply enc_list_bytes]. Qed.

  Lemma packet_index : forall i (f : func X) args, firstn w (packet kr i f args) = wire_bytes (kr_e kr) w (Z.of_nat i).
  Proof.
    intros. unfold packet, request. fold w.
    rewrite <- (wire_bytes_length (kr_e kr) w (Z.of_nat i)) at 1. apply firstn_app_exact.
  Qed.

  Lemma packet_payload : forall i (f : func X) args,
    skipn w (packet kr i f args) = enc_list (kr_e kr) (kr_m kr) (sig_params (f_sig f)) args.
  Proof.
    intros. unfold packet, request. fold w.
    rewrite <- (wire_bytes_length (kr_e kr) w (Z.of_nat i)) at 1. apply skipn_app_exact.
  Qed.

  Lemma packet_designates : forall i f args bs, nth_error table i = Some f ->
    firstn w bs = firstn w (packet kr i f args) -> designated fm table bs = Some f.
  Proof.
    intros i f args bs Hi Hbs. unfold designated. cbn [fm format_of fm_w fm_e]. fold w. rewrite Hbs, packet_index.
    unfold w. rewrite wire_index; auto.
    - apply Hk.
    - rewrite <- table_len. apply nth_error_Some. congruence.
  Qed.

  Lemma examine_packet : forall i f args x x' r, nth_error table i = Some f -> calls p kr f args x x' r ->
    examine fm table (packet kr i f args) = Request f (enc_list (kr_e kr) (kr_m kr) (sig_params (f_sig f)) args).
  Proof.
    intros i f args x x' r Hi Hc. pose proof (packet_length i f args x x' r Hc) as Hl.
    unfold examine. cbn [fm format_of fm_w]. fold w fm.
    destruct (Nat.ltb_spec (length (packet kr i f args)) w); [lia|].
    rewrite (packet_designates i f args) by auto. unfold params.
    destruct (Nat.ltb_spec (length (packet kr i f args)) (w + wire_sizes (sig_params (f_sig f)))); [lia|].
    rewrite packet_payload. reflexivity.
  Qed.

  Lemma examine_prefix : forall i f args x x' r k, nth_error table i = Some f -> calls p kr f args x x' r ->
    k < length (packet kr i f args) -> examine fm table (firstn k (packet kr i f args)) = Incomplete.
  Proof.
    intros i f args x x' r k Hi Hc Hlt. pose proof (packet_length i f args x x' r Hc) as Hl.
    unfold examine. cbn [fm format_of fm_w]. fold w fm. rewrite firstn_length, Nat.min_l by lia.
    destruct (Nat.ltb_spec k w); auto.
    rewrite (packet_designates i f args) by (auto; rewrite firstn_firstn, Nat.min_l by lia; auto). unfold params.
    destruct (Nat.ltb_spec k (w + wire_sizes (sig_params (f_sig f)))); auto. lia.
  Qed.

  Lemma packet_decoded : forall i f args x x' r, nth_error table i = Some f -> calls p kr f args x x' r ->
    let payload := enc_list (kr_e kr) (kr_m kr) (sig_params (f_sig f)) args in
    dec_list (kr_e kr) (kr_m kr) (sig_params (f_sig f)) payload = args
    /\ decodable_list p (kr_e kr) (kr_m kr) (sig_params (f_sig f)) payload.
  Proof.
    intros i f args x x' r Hi (Ha & _) payload. destruct (table_sig_ok i f Hi) as [Hp _].
    assert (Hwf : Forall wf_ty (sig_params (f_sig f))).
    { eapply Forall_impl; [|exact Hp]. intros t Ht. apply Ht. }
    split; [apply (dec_list_enc_list p); auto|apply encodable_decodable_list; auto].
  Qed.

  Lemma received_packet : forall i f args x x' r a, nth_error table i = Some f -> calls p kr f args x x' r ->
    mc_table a = table ->
    received fm (packet kr i f args) a x = (mk_machine [] (answer kr f r) table, x', RESOLVED_PACKET)
    /\ servable fm p table (packet kr i f args) x.
  Proof.
    intros i f args x x' r a Hi Hc Ha. unfold received, servable. rewrite Ha, (examine_packet i f args x x' r Hi Hc).
    destruct (packet_decoded i f args x x' r Hi Hc) as [H1 H2]. destruct Hc as (_ & Hcall & Hret).
    unfold serve, params, ret. cbn [fm format_of fm_e fm_m]. rewrite H1, Hcall. cbn [snd]. auto.
  Qed.

  (** A prefix of a packet. *)
  Lemma received_prefix : forall i f args x x' r a k y, nth_error table i = Some f -> calls p kr f args x x' r ->
    k < length (packet kr i f args) -> mc_table a = table ->
    received fm (firstn k (packet kr i f args)) a y
      = (mk_machine (firstn k (packet kr i f args)) (mc_out a) table, y, LOADING_PACKET)
    /\ servable fm p table (firstn k (packet kr i f args)) y.
  Proof.
    intros i f args x x' r a k y Hi Hc Hlt Ha. unfold received, servable.
    rewrite Ha, (examine_prefix i f args x x' r k Hi Hc Hlt). auto.
  Qed.

  Lemma received_bad : forall idx a x, bad_index kr idx -> mc_table a = table ->
    received fm idx a x = (mk_machine [] (mc_out a) table, x, DROPPED_PACKET)
    /\ servable fm p table idx x /\ designated fm table idx = None.
  Proof.
    intros idx a x (Hl & Hb & Hbad) Ha.
    assert (Hd : designated fm table idx = None).
    { unfold designated. cbn [fm format_of fm_w fm_e]. rewrite firstn_all2 by lia. apply nth_error_None.
      rewrite table_len. lia. }
    unfold received, servable, examine. cbn [fm format_of fm_w]. fold fm. rewrite Ha, Hd.
    destruct (Nat.ltb_spec (length idx) (kr_index_size kr)); [lia|]. auto.
  Qed.

  Lemma received_bad_prefix : forall idx a x k, bad_index kr idx -> mc_table a = table -> k < w ->
    received fm (firstn k idx) a x = (mk_machine (firstn k idx) (mc_out a) table, x, LOADING_PACKET)
    /\ servable fm p table (firstn k idx) x.
  Proof.
    intros idx a x k (Hl & Hb & Hbad) Ha Hlt. unfold received, servable, examine. cbn [fm format_of fm_w].
    rewrite firstn_length. fold w. destruct (Nat.ltb_spec (Nat.min k (length idx)) w); [|lia].
    rewrite Ha. auto.
  Qed.
End Packets.

Lemma firstn_skipn_next : forall (A : Type) (l : list A) k, k < length l ->
  exists b, skipn k l = b :: skipn (S k) l /\ firstn k l ++ [b] = firstn (S k) l.
Proof.
  intros A. induction l as [|b l IH]; intros [|k] Hk; cbn [length] in Hk; try lia.
  - exists b. auto.
  - destruct (IH k ltac:(lia)) as (c & E1 & E2). exists c. cbn [skipn firstn app]. rewrite E2. auto.
Qed.

Section Feeding.
  Context {X : Type}.
  Variables (p : platform) (dbl : bool) (kr : keyring X) (ft : action_features).
  Hypothesis Hp : wf_platform p.
  Hypothesis Hk : keyring_ok p kr.
  Hypothesis Hs : well_sized dbl kr ft.
  Let fm := format_of kr.
  Let w := kr_index_size kr.

  (** The rest of a packet, on the abstract machine. *)
  Lemma mc_feed : forall n k i f args x x' r a,
    map f_sig (mc_table a) = kr_signatures kr -> nth_error (mc_table a) i = Some f -> calls p kr f args x x' r ->
    mc_in a = firstn k (packet kr i f args) -> n = length (packet kr i f args) - k -> 0 < n -> quiet dbl a ->
    mc_run fm (map Put (skipn k (packet kr i f args))) a x
      = Ok (mk_machine [] (answer kr f r) (mc_table a), x',
            repeat (OStatus LOADING_PACKET) (n - 1) ++ [OStatus RESOLVED_PACKET])
    /\ along fm (legitimate p dbl kr ft) (map Put (skipn k (packet kr i f args))) a x.
  Proof.
    induction n as [|n IH]; intros k i f args x x' r a Ht Hi Hc Hin Hn Hpos Hq; [lia|].
    destruct (firstn_skipn_next _ (packet kr i f args) k ltac:(lia)) as (byte & E1 & E2).
    rewrite E1. cbn [map mc_run along mc_step]. unfold mc_put. rewrite Hin, E2.
    assert (Hbyte : is_byte byte).
    { pose proof (packet_bytes kr i f args) as Hb. rewrite Forall_forall in Hb. apply Hb.
      rewrite <- (firstn_skipn k (packet kr i f args)), E1. apply in_or_app. right. left. reflexivity. }
    destruct n as [|n].
    - rewrite (firstn_all2 (n := S k)) by lia. rewrite (skipn_all2 (n := S k)) by lia.
      destruct (received_packet p kr Hk (mc_table a) Ht i f args x x' r a Hi Hc eq_refl) as [Hr Hserv].
      fold fm in Hr, Hserv. rewrite Hr. cbn [bind map mc_run Nat.sub repeat app]. split; auto.
      split; [|intros; exact I]. split; [|exact Hq]. cbn [step_ok]. split; auto.
      rewrite Hin, E2. rewrite (firstn_all2 (n := S k)) by lia. auto.
    - destruct (received_prefix p kr Hk (mc_table a) Ht i f args x x' r a (S k) x Hi Hc ltac:(lia) eq_refl) as [Hr Hserv].
      fold fm in Hr, Hserv. rewrite Hr. cbn [bind].
      set (a1 := mk_machine (firstn (S k) (packet kr i f args)) (mc_out a) (mc_table a)) in *.
      destruct (IH (S k) i f args x x' r a1) as [H1 H2]; auto; [lia|lia|].
      cbn [Nat.sub repeat app] in *. rewrite Nat.sub_0_r in H1. rewrite H1. cbn [bind].
      split; auto. split.
      + split; [|exact Hq]. cbn [step_ok]. split; auto. rewrite Hin, E2. auto.
      + intros a2 x2 v E. injection E as <- <- <-. exact H2.
  Qed.

  Lemma mc_feed_bad : forall n k idx x a,
    map f_sig (mc_table a) = kr_signatures kr -> bad_index kr idx ->
    mc_in a = firstn k idx -> n = length idx - k -> 0 < n -> quiet dbl a ->
    mc_run fm (map Put (skipn k idx)) a x
      = Ok (mk_machine [] (mc_out a) (mc_table a), x,
            repeat (OStatus LOADING_PACKET) (n - 1) ++ [OStatus DROPPED_PACKET])
    /\ along fm (legitimate p dbl kr ft) (map Put (skipn k idx)) a x.
  Proof.
    induction n as [|n IH]; intros k idx x a Ht Hbad Hin Hn Hpos Hq; [lia|].
    pose proof Hbad as (Hl & Hbytes & _).
    destruct (firstn_skipn_next _ idx k ltac:(lia)) as (byte & E1 & E2).
    rewrite E1. cbn [map mc_run along mc_step]. unfold mc_put. rewrite Hin, E2.
    assert (Hbyte : is_byte byte).
    { rewrite Forall_forall in Hbytes. apply Hbytes.
      rewrite <- (firstn_skipn k idx), E1. apply in_or_app. right. left. reflexivity. }
    destruct n as [|n].
    - rewrite (firstn_all2 (n := S k)) by lia. rewrite (skipn_all2 (n := S k)) by lia.
      destruct (received_bad p kr (mc_table a) Ht idx a x Hbad eq_refl) as (Hr & Hserv & _).
      fold fm in Hr, Hserv. rewrite Hr. cbn [bind map mc_run Nat.sub repeat app]. split; auto.
      split; [|intros; exact I]. split; [|exact Hq]. cbn [step_ok]. split; auto.
      rewrite Hin, E2. rewrite (firstn_all2 (n := S k)) by lia. auto.
    - destruct (received_bad_prefix p kr (mc_table a) idx a x (S k) Hbad eq_refl ltac:(lia)) as [Hr Hserv].
      fold fm in Hr, Hserv. rewrite Hr. cbn [bind].
      set (a1 := mk_machine (firstn (S k) idx) (mc_out a) (mc_table a)) in *.
      destruct (IH (S k) idx x a1) as [H1 H2]; auto; [lia|lia|].
      cbn [Nat.sub repeat app] in *. rewrite Nat.sub_0_r in H1. rewrite H1. cbn [bind].
      split; auto. split.
      + split; [|exact Hq]. cbn [step_ok]. split; auto. rewrite Hin, E2. auto.
      + intros a2 x2 v E. injection E as <- <- <-. exact H2.
  Qed.

  Lemma pull_prefix_bytes : forall (src : source X) n x x' bs, pull src n x = Ok (x', bs) -> Forall is_byte bs ->
    gives_bytes src n x.
  Proof.
    intros src n x x' bs H Hb k y l Hle E. replace n with (k + (n - k)) in H by lia. rewrite pull_app, E in H.
    cbn [bind] in H. destruct (pull src (n - k) y) as [[y2 l2]|]; [|discriminate]. cbn [bind] in H.
    assert (El : l ++ l2 = bs) by congruence. rewrite <- El in Hb. apply Forall_app in Hb. apply Hb.
  Qed.

  Lemma fetched_readable : forall (src : source X) (a : machine X) x x' bs, mc_fetch fm src a x = Ok (x', bs) ->
    Forall is_byte bs -> servable fm p (mc_table a) bs x' -> readable fm p src a x.
  Proof.
    intros src a x x' bs H Hb Hsv.
    assert (Hs3 : forall y l, mc_fetch fm src a x = Ok (y, l) -> servable fm p (mc_table a) l y).
    { intros y l E. rewrite H in E. injection E as <- <-. auto. }
    unfold mc_fetch in H. ok_inv H q. destruct q as [x1 l1]. ok_inv H q. destruct q as [x2 l2].
    assert (El : mc_in a ++ l1 ++ l2 = bs) by congruence. rewrite <- El in Hb.
    apply Forall_app in Hb. destruct Hb as [_ Hb]. apply Forall_app in Hb. destruct Hb as [Hb1 Hb2].
    split; [eapply pull_prefix_bytes; eauto|]. split; auto.
    intros y l E1. rewrite E in E1. injection E1 as <- <-. eapply pull_prefix_bytes; eauto.
  Qed.

  (** One packet through [mc_read]. *)
  Lemma mc_read_packet : forall (src : source X) i f args x x1 x2 r (a : machine X) k,
    map f_sig (mc_table a) = kr_signatures kr -> nth_error (mc_table a) i = Some f -> calls p kr f args x1 x2 r ->
    mc_in a = firstn k (packet kr i f args) -> k < length (packet kr i f args) ->
    pull src (length (packet kr i f args) - k) x = Ok (x1, skipn k (packet kr i f args)) ->
    mc_read fm src a x = Ok (mk_machine [] (answer kr f r) (mc_table a), x2, RESOLVED_PACKET)
    /\ readable fm p src a x.
  Proof.
    intros src i f args x x1 x2 r a k Ht Hi Hc Hin Hlt Hpull.
    assert (Hf : mc_fetch fm src a x = Ok (x1, packet kr i f args)).
    { set (pk := packet kr i f args) in *.
      pose proof (packet_length p kr i f args x1 x2 r Hc) as Hl. fold pk w in Hl.
      unfold mc_fetch, missing. rewrite Hin, firstn_length, Nat.min_l by lia.
      cbn [fm format_of fm_w]. fold fm w.
      destruct (Nat.ltb_spec k w) as [Hkw|Hkw].
      - replace (length pk - k) with ((w - k) + wire_sizes (sig_params (f_sig f))) in Hpull by lia.
        rewrite pull_app in Hpull.
        destruct (pull src (w - k) x) as [[y1 bs1]|] eqn:E1; [|discriminate]. cbn [bind] in Hpull |- *.
        destruct (pull src (wire_sizes (sig_params (f_sig f))) y1) as [[y2 bs2]|] eqn:E2; [|discriminate].
        cbn [bind] in Hpull. assert (y2 = x1) by congruence. assert (Ebs : bs1 ++ bs2 = skipn k pk) by congruence.
        subst y2. pose proof (pull_length _ _ _ _ _ _ E1) as L1. pose proof (pull_length _ _ _ _ _ _ E2) as L2.
        assert (Eidx : firstn k pk ++ bs1 = firstn w pk).
        { transitivity (firstn w (firstn k pk ++ (bs1 ++ bs2))).
          - rewrite app_assoc. replace w with (length (firstn k pk ++ bs1)) at 1.
            + symmetry. apply firstn_app_exact.
            + rewrite app_length, firstn_length. lia.
          - rewrite Ebs, firstn_skipn. reflexivity. }
        rewrite Eidx, firstn_length, Nat.min_l by lia.
        destruct (Nat.ltb_spec w w); [lia|].
        unfold pk. rewrite (packet_designates p kr Hk (mc_table a) Ht i f args); auto.
        2:{ fold w. rewrite firstn_firstn, Nat.min_id. reflexivity. }
        fold pk. unfold params. replace (w + wire_sizes (sig_params (f_sig f)) - w) with (wire_sizes (sig_params (f_sig f))) by lia.
        rewrite E2. cbn [bind]. do 2 f_equal. rewrite Ebs. apply firstn_skipn.
      - unfold pk. rewrite (packet_designates p kr Hk (mc_table a) Ht i f args); auto.
        2:{ fold w. rewrite firstn_firstn, Nat.min_l by lia. reflexivity. }
        fold pk. unfold params. replace (w + wire_sizes (sig_params (f_sig f)) - k) with (length pk - k) by lia.
        rewrite Hpull. cbn [bind]. rewrite firstn_skipn. rewrite Hl.
        destruct (Nat.ltb_spec (w + wire_sizes (sig_params (f_sig f))) w); [lia|].
        unfold pk. rewrite (packet_designates p kr Hk (mc_table a) Ht i f args) by auto. fold pk.
        unfold params. rewrite Nat.sub_diag. cbn [pull bind]. rewrite app_nil_r, firstn_skipn. reflexivity. }
    destruct (received_packet p kr Hk (mc_table a) Ht i f args x1 x2 r a Hi Hc eq_refl) as [Hr Hserv].
    fold fm in Hr, Hserv. split.
    - unfold mc_read. rewrite Hf. cbn [bind]. rewrite Hr. reflexivity.
    - apply (fetched_readable src a x x1 (packet kr i f args)); auto. apply packet_bytes.
  Qed.

  Lemma mc_read_bad : forall (src : source X) idx x x1 (a : machine X) k,
    map f_sig (mc_table a) = kr_signatures kr -> bad_index kr idx ->
    mc_in a = firstn k idx -> k < length idx ->
    pull src (length idx - k) x = Ok (x1, skipn k idx) ->
    mc_read fm src a x = Ok (mk_machine [] (mc_out a) (mc_table a), x1, DROPPED_PACKET)
    /\ readable fm p src a x.
  Proof.
    intros src idx x x1 a k Ht Hbad Hin Hlt Hpull. pose proof Hbad as (Hl & _).
    destruct (received_bad p kr (mc_table a) Ht idx a x1 Hbad eq_refl) as (Hr & Hserv & Hd).
    fold fm in Hr, Hserv, Hd. fold w in Hl.
    assert (Hf : mc_fetch fm src a x = Ok (x1, idx)).
    { unfold mc_fetch, missing. rewrite Hin, firstn_length, Nat.min_l by lia.
      cbn [fm format_of fm_w]. fold fm w.
      destruct (Nat.ltb_spec k w) as [Hkw|Hkw]; [|lia]. rewrite <- Hl, Hpull. cbn [bind].
      rewrite firstn_skipn, Hl. destruct (Nat.ltb_spec w w); [lia|]. rewrite Hd. cbn [pull bind].
      rewrite app_nil_r, firstn_skipn. reflexivity. }
    split.
    - unfold mc_read. rewrite Hf. cbn [bind]. rewrite Hr. reflexivity.
    - apply (fetched_readable src a x x1 idx); auto. apply Hbad.
  Qed.
End Feeding.

Section Theorems.
  Context {X : Type}.
  Variables (p : platform) (dbl : bool) (kr : keyring X) (ft : action_features).
  Hypothesis Hp : wf_platform p.
  Hypothesis Hk : keyring_ok p kr.
  Hypothesis Hs : well_sized dbl kr ft.
  Let fm := format_of kr.

  Lemma reached_loaded : forall b a x, reached p dbl kr ft b a x -> is_loaded b = mc_loaded a.
  Proof.
    intros b a x H.
    destruct (reached_step p dbl kr ft Hp Hk Hs IsLoaded b a x a x (OBool (mc_loaded a)) H) as (b' & E & _).
    - split; [exact I|right; exact I].
    - reflexivity.
    - cbn [step] in E. congruence.
  Qed.

  Lemma reached_write : forall b a x dest, reached p dbl kr ft b a x ->
    match push dest (mc_out a) x with
    | Ok x' => exists b', write_to dest b x = Ok (b', x')
                 /\ reached p dbl kr ft b' (mk_machine (mc_in a) [] (mc_table a)) x'
    | Fault f => write_to dest b x = Fault f
    end.
  Proof.
    intros b a x dest H. assert (Hl : legitimate p dbl kr ft (WriteTo dest) a x) by (split; [exact I|right; exact I]).
    destruct (push dest (mc_out a) x) as [x'|flt] eqn:E.
    - destruct (reached_step p dbl kr ft Hp Hk Hs (WriteTo dest) b a x
                  (mk_machine (mc_in a) [] (mc_table a)) x' ONone H Hl) as (b' & E' & H').
      + cbn [mc_step]. unfold mc_write. rewrite E. reflexivity.
      + exists b'. split; auto. cbn [step] in E'. ok_inv E' r. destruct r as [b1 x1]. congruence.
    - assert (E' : step p (WriteTo dest) b x = Fault flt).
      { apply (reached_fault p dbl kr ft Hp Hk Hs (WriteTo dest) b a x flt H Hl).
        cbn [mc_step]. unfold mc_write. rewrite E. reflexivity. }
      cbn [step] in E'. destruct (write_to dest b x) as [[b1 x1]|]; [discriminate|]. cbn [bind] in E'. congruence.
  Qed.

  Lemma reached_gets : forall n b a x, reached p dbl kr ft b a x ->
    exists b', run_ops p (repeat Get n) b x
               = Ok (b', x, map OByte (firstn n (mc_out a) ++ repeat 0%Z (n - length (mc_out a))))
      /\ reached p dbl kr ft b' (mk_machine (mc_in a) (skipn n (mc_out a)) (mc_table a)) x.
  Proof.
    intros n b a x H.
    assert (E : mc_run fm (repeat Get n) a x
                = Ok (mk_machine (mc_in a) (skipn n (mc_out a)) (mc_table a), x,
                      map OByte (firstn n (mc_out a) ++ repeat 0%Z (n - length (mc_out a))))).
    { clear H. revert a. induction n as [|n IH]; intros [i o t]; cbn [repeat mc_run mc_step].
      - reflexivity.
      - unfold mc_get. cbn [mc_out mc_in mc_table]. destruct o as [|c o]; cbn [bind]; rewrite IH; cbn [bind mc_out mc_in mc_table].
        + rewrite firstn_nil, skipn_nil. cbn [firstn skipn length app map repeat]. rewrite Nat.sub_0_r. reflexivity.
        + reflexivity. }
    apply (reached_run p dbl kr ft Hp Hk Hs _ b a x _ _ _ H); auto.
    clear. revert a. induction n; intros a; cbn [repeat along]; auto.
    split; [split; [exact I|right; exact I]|]. intros a1 x1 v E. cbn [mc_step] in E.
    destruct (mc_get a) as [a2 c]. injection E as <- <- _. auto.
  Qed.
End Theorems.

(** ** C38 *)

(** The last byte of a request is received: the response can then be taken
    byte by byte, the rest of it at once. *)
Theorem C38_drain : forall (X : Type) p dbl (kr : keyring X) ft b a x byte i f args x' r,
  wf_platform p -> keyring_ok p kr -> well_sized dbl kr ft -> reached p dbl kr ft b a x -> quiet dbl a ->
  nth_error (mc_table a) i = Some f -> calls p kr f args x x' r ->
  mc_in a ++ [byte] = packet kr i f args ->
  exists b1, put p byte b x = Ok (b1, x', RESOLVED_PACKET)
  /\ forall n, exists b2,
       run_ops p (repeat Get n) b1 x'
         = Ok (b2, x', map OByte (firstn n (answer kr f r) ++ repeat 0%Z (n - length (answer kr f r))))
       /\ is_loaded b2 = (n <? length (answer kr f r))
       /\ (length (answer kr f r) <= n -> get_byte b2 = Ok (b2, 0%Z))
       /\ forall dest : destination X,
            match push dest (skipn n (answer kr f r)) x' with
            | Ok x'' => exists b3, write_to dest b2 x' = Ok (b3, x'') /\ is_loaded b3 = false
            | Fault flt => write_to dest b2 x' = Fault flt
            end.
Proof.
  intros X p dbl kr ft b a x byte i f args x' r Hp Hk Hs H Hq Hi Hc Hin.
  pose proof (reached_table p dbl kr ft Hp Hk Hs b a x H) as Ht.
  destruct (received_packet p kr Hk (mc_table a) Ht i f args x x' r a Hi Hc eq_refl) as [Hr Hserv].
  assert (Hb : is_byte byte).
  { pose proof (packet_bytes kr i f args) as Hb. rewrite <- Hin in Hb. apply Forall_app in Hb. destruct Hb as [_ Hb].
    inversion Hb. auto. }
  destruct (reached_step p dbl kr ft Hp Hk Hs (Put byte) b a x
              (mk_machine [] (answer kr f r) (mc_table a)) x' (OStatus RESOLVED_PACKET) H) as (b1 & E1 & H1).
  { split; [|exact Hq]. cbn [step_ok]. rewrite Hin. auto. }
  { cbn [mc_step]. unfold mc_put. rewrite Hin, Hr. reflexivity. }
  exists b1. split.
  { cbn [step] in E1. ok_inv E1 q. destruct q as [[b' y] s]. congruence. }
  intros n. destruct (reached_gets p dbl kr ft Hp Hk Hs n b1 _ x' H1) as (b2 & E2 & H2).
  cbn [mc_in mc_out mc_table] in E2, H2. exists b2. split; auto.
  assert (Hl : is_loaded b2 = (n <? length (answer kr f r))).
  { rewrite (reached_loaded p dbl kr ft Hp Hk Hs b2 _ x' H2). unfold mc_loaded. cbn [mc_out].
    pose proof (skipn_length n (answer kr f r)) as Hlen.
    destruct (skipn n (answer kr f r)), (Nat.ltb_spec n (length (answer kr f r))); cbn [length] in Hlen; auto; lia. }
  split; auto. split.
  { intros Hn. unfold get_byte. rewrite Hl. destruct (Nat.ltb_spec n (length (answer kr f r))); auto. lia. }
  intros dest. pose proof (reached_write p dbl kr ft Hp Hk Hs b2 _ x' dest H2) as Hw. cbn [mc_in mc_out mc_table] in Hw.
  destruct (push dest (skipn n (answer kr f r)) x') as [x''|flt]; auto.
  destruct Hw as (b3 & E3 & H3). exists b3. split; auto.
  rewrite (reached_loaded p dbl kr ft Hp Hk Hs b3 _ x'' H3). reflexivity.
Qed.

(** ** C39 *)

(** [read_from] takes from the source exactly the bytes the packet lacks and
    resolves it. *)
Theorem C39_resolved : forall (X : Type) p dbl (kr : keyring X) ft b a x src i f args k x1 x2 r,
  wf_platform p -> keyring_ok p kr -> well_sized dbl kr ft -> reached p dbl kr ft b a x -> quiet dbl a ->
  nth_error (mc_table a) i = Some f -> calls p kr f args x1 x2 r ->
  k < length (packet kr i f args) -> mc_in a = firstn k (packet kr i f args) ->
  pull src (length (packet kr i f args) - k) x = Ok (x1, skipn k (packet kr i f args)) ->
  exists b', read_from p src b x = Ok (b', x2, RESOLVED_PACKET)
    /\ reached p dbl kr ft b' (mk_machine [] (answer kr f r) (mc_table a)) x2.
Proof.
  intros X p dbl kr ft b a x src i f args k x1 x2 r Hp Hk Hs H Hq Hi Hc Hlt Hin Hpull.
  pose proof (reached_table p dbl kr ft Hp Hk Hs b a x H) as Ht.
  destruct (mc_read_packet p kr Hk src i f args x x1 x2 r a k Ht Hi Hc Hin Hlt Hpull) as [Hr Hread].
  destruct (reached_step p dbl kr ft Hp Hk Hs (ReadFrom src) b a x
              (mk_machine [] (answer kr f r) (mc_table a)) x2 (OStatus RESOLVED_PACKET) H) as (b' & E & H').
  { split; [exact Hread|exact Hq]. }
  { cbn [mc_step]. rewrite Hr. reflexivity. }
  exists b'. split; auto. cbn [step] in E. ok_inv E q. destruct q as [[b1 y] s]. congruence.
Qed.

(** ... or drops it after the index. *)
Theorem C39_dropped : forall (X : Type) p dbl (kr : keyring X) ft b a x src idx k x1,
  wf_platform p -> keyring_ok p kr -> well_sized dbl kr ft -> reached p dbl kr ft b a x -> quiet dbl a ->
  bad_index kr idx -> k < length idx -> mc_in a = firstn k idx ->
  pull src (length idx - k) x = Ok (x1, skipn k idx) ->
  exists b', read_from p src b x = Ok (b', x1, DROPPED_PACKET)
    /\ reached p dbl kr ft b' (mk_machine [] (mc_out a) (mc_table a)) x1.
Proof.
  intros X p dbl kr ft b a x src idx k x1 Hp Hk Hs H Hq Hbad Hlt Hin Hpull.
  pose proof (reached_table p dbl kr ft Hp Hk Hs b a x H) as Ht.
  destruct (mc_read_bad p kr src idx x x1 a k Ht Hbad Hin Hlt Hpull) as [Hr Hread].
  destruct (reached_step p dbl kr ft Hp Hk Hs (ReadFrom src) b a x
              (mk_machine [] (mc_out a) (mc_table a)) x1 (OStatus DROPPED_PACKET) H) as (b' & E & H').
  { split; [exact Hread|exact Hq]. }
  { cbn [mc_step]. rewrite Hr. reflexivity. }
  exists b'. split; auto. cbn [step] in E. ok_inv E q. destruct q as [[b1 y] s]. congruence.
Qed.

Lemma read_index_ends : forall (X : Type) p (src : source X) fuel b x s b' x' s',
  read_index p fuel src b x s = Ok (b', x', s') -> b_is_index_loaded b' = true \/ s' <> LOADING_PACKET.
Proof.
  intros X p src. induction fuel as [|fuel IH]; intros b x s b' x' s' H; cbn [read_index] in H;
    destruct (b_is_index_loaded b) eqn:El; cbn [negb andb] in H; try (injection H as <- _ _; auto);
    destruct s; cbn [is_loading] in H; try discriminate; try (injection H as _ _ <-; right; discriminate).
  ok_inv H q. destruct q as [y c]. ok_inv H q. destruct q as [[b2 y2] s2]. eapply IH; eauto.
Qed.

Lemma read_payload_ends : forall (X : Type) p (src : source X) fuel b x s b' x' s',
  b_is_index_loaded b = true \/ s <> LOADING_PACKET ->
  read_payload p fuel src b x s = Ok (b', x', s') -> s' <> LOADING_PACKET /\ b_is_index_loaded b' = false.
Proof.
  intros X p src. induction fuel as [|fuel IH]; intros b x s b' x' s' H1 H; cbn [read_payload] in H;
    destruct (b_is_index_loaded b) eqn:El; try discriminate;
    try (injection H as <- _ <-; destruct H1; [congruence|auto]; fail).
  ok_inv H q. destruct q as [y c]. ok_inv H q. destruct q as [[b2 y2] s2]. eapply IH; [|exact H].
  destruct (put_progress p X c b y b2 y2 s2 E0) as [(_ & Hl & _)|[(Hl & _)|(_ & Hl)]]; auto;
    left; congruence.
Qed.

(** Whatever the state and the source, [read_from] ends (see also
    [read_index_fuel] and [read_payload_fuel]) and never returns
    [LOADING_PACKET]. *)
Theorem C39_never_loading : forall (X : Type) p (src : source X) b x b' x' s,
  read_from p src b x = Ok (b', x', s) -> s <> LOADING_PACKET /\ b_is_index_loaded b' = false.
Proof.
  intros X p src b x b' x' s H. unfold read_from in H. ok_inv H q. destruct q as [[b1 x1] s1].
  eapply read_payload_ends; [|exact H]. eapply read_index_ends; eauto.
Qed.

Example C39_example : exists b,
  make_double (lift_keyring ex_keyring) ANY [] [] = Some b
  /\ observe (run_ops pc_native [Put 0; Put 255; ReadFrom take_wire; ReadFrom take_wire]%Z b
                (mk_wires [254; 5; 9; 2; 1]%Z [] []))
     = Ok (mk_wires [2; 1]%Z [] [(0, [VInt (-2); VInt 5])],
           [OStatus LOADING_PACKET; OStatus LOADING_PACKET; OStatus RESOLVED_PACKET; OStatus DROPPED_PACKET]).
Proof. eexists. split; [reflexivity|]. vm_compute. reflexivity. Qed.

(** The hypotheses of C38 and C39 on the same keyring: the callback [ex_add],
    two bytes of the request received. *)
Example C39_hypotheses : exists b a,
  reached pc_native true ex_keyring ANY b a [] /\ quiet true a
  /\ nth_error (mc_table a) 0 = Some ex_add
  /\ calls pc_native ex_keyring ex_add [VInt (-2); VInt 5] [] [(0, [VInt (-2); VInt 5])] (VInt 3)
  /\ packet ex_keyring 0 ex_add [VInt (-2); VInt 5] = [0; 255; 254; 5]%Z
  /\ answer ex_keyring ex_add (VInt 3) = [0; 0; 0; 3]%Z
  /\ mc_in a = firstn 3 [0; 255; 254; 5]%Z
  /\ bad_index ex_keyring [7%Z].
Proof.
  eexists. exists (mk_machine [0; 255; 254]%Z [] (map snd (kr_funcs ex_keyring))). split.
  - exists [], []. eexists. exists ([Put 0; Put 255; Put 254]%Z), []. eexists.
    split; [reflexivity|]. split; [legit|]. split; vm_compute; reflexivity.
  - split; [left; reflexivity|]. split; [reflexivity|]. split; [split; [encs|split; [reflexivity|split; range]]|].
    split; [reflexivity|]. split; [reflexivity|]. split; [reflexivity|].
    split; [reflexivity|]. split; [repeat constructor; discriminate|]. vm_compute. discriminate.
Qed.

(** ** C40 *)

(** In any state: a dropped packet resets the input, and nothing else. *)
Theorem C40_reset : forall (X : Type) p byte (b : buffered X) x b' x',
  put p byte b x = Ok (b', x', DROPPED_PACKET) ->
  x' = x /\ b_is_index_loaded b' = false /\ b_ibuf_next b' = 0 /\ b_load_count b' = kr_index_size (d_keyring (b_dispatcher b))
  /\ b_dispatcher b' = b_dispatcher b /\ b_obuf_next b' = b_obuf_next b /\ b_obuf_bottom b' = b_obuf_bottom b
  /\ (is_double (b_bufs b) = true -> obuf (b_bufs b') = obuf (b_bufs b)).
Proof.
  intros X p byte b x b' x' H. unfold put in H. ok_inv H m. destruct (b_load_count b) as [|count]; [discriminate|].
  destruct (0 <? count); [discriminate|]. destruct (b_is_index_loaded b).
  { ok_inv H q. destruct q. discriminate. }
  ok_inv H q. destruct q as [w0 i]. destruct (i <? d_size (b_dispatcher b)).
  { ok_inv H a. ok_inv H n. destruct (n =? 0); [|discriminate]. ok_inv H q. destruct q. discriminate. }
  injection H as <- <-. cbn [b_dispatcher b_is_index_loaded b_load_count b_ibuf_next b_obuf_next b_obuf_bottom b_bufs].
  repeat (split; [reflexivity|]). destruct (b_bufs b); [discriminate|reflexivity].
Qed.

(** An index which designates nothing, received between two packets, changes
    nothing of what follows. *)
Theorem C40_resynchronised : forall (X : Type) p dbl (kr : keyring X) ft b a x idx,
  wf_platform p -> keyring_ok p kr -> well_sized dbl kr ft -> reached p dbl kr ft b a x -> quiet dbl a ->
  mc_in a = [] -> bad_index kr idx ->
  exists b', run_ops p (map Put idx) b x
             = Ok (b', x, repeat (OStatus LOADING_PACKET) (length idx - 1) ++ [OStatus DROPPED_PACKET])
    /\ forall ops, along (format_of kr) (legitimate p dbl kr ft) ops a x ->
         observe (run_ops p ops b' x) = observe (run_ops p ops b x).
Proof.
  intros X p dbl kr ft b a x idx Hp Hk Hs H Hq Hin Hbad.
  pose proof (reached_table p dbl kr ft Hp Hk Hs b a x H) as Ht.
  pose proof (index_size X kr ltac:(apply Hk)) as ((Hw & _) & _ & _). pose proof Hbad as (Hl & _).
  destruct (mc_feed_bad p dbl kr ft (length idx) 0 idx x a Ht Hbad Hin ltac:(lia) ltac:(lia) Hq) as [Hr Hal].
  cbn [skipn] in Hr, Hal.
  assert (Ea : mk_machine [] (mc_out a) (mc_table a) = a) by (destruct a; cbn in *; subst; reflexivity).
  rewrite Ea in Hr.
  destruct (reached_run p dbl kr ft Hp Hk Hs (map Put idx) b a x a x _ H Hal Hr) as (b' & E & H').
  exists b'. split; auto. intros ops Hops.
  destruct (reached_represents p dbl kr ft Hp Hk Hs b a x H) as (ni & no & R1 & R2 & R3).
  destruct (reached_represents p dbl kr ft Hp Hk Hs b' a x H') as (ni' & no' & R1' & R2' & R3').
  pose proof (run_refines p kr ft ni no dbl Hp Hk R1 R2 ops b a x R3 Hops) as A1.
  pose proof (run_refines p kr ft ni' no' dbl Hp Hk R1' R2' ops b' a x R3' Hops) as A2.
  unfold agrees in A1, A2. destruct (mc_run (format_of kr) ops a x) as [[[a2 x2] vs]|flt].
  - destruct A1 as (c1 & -> & _). destruct A2 as (c2 & -> & _). reflexivity.
  - rewrite A1, A2. reflexivity.
Qed.

Example C40_example : exists b,
  make_double ex_keyring ANY [] [] = Some b
  /\ bad_index ex_keyring [3%Z] /\ bad_index ex_keyring [255%Z]
  /\ observe (run_ops pc_native [Put 0; Put 255; Put 254; Put 5; Get; Put 3; Get; Get; Put 255; Get; Put 1]%Z b [])
     = Ok ([(1, []); (0, [VInt (-2); VInt 5])],
           [OStatus LOADING_PACKET; OStatus LOADING_PACKET; OStatus LOADING_PACKET; OStatus RESOLVED_PACKET; OByte 0;
            OStatus DROPPED_PACKET; OByte 0; OByte 0; OStatus DROPPED_PACKET; OByte 3; OStatus RESOLVED_PACKET]%Z).
Proof.
  eexists. split; [reflexivity|].
  split; [split; [reflexivity|split; [repeat constructor; discriminate|vm_compute; discriminate]]|].
  split; [split; [reflexivity|split; [repeat constructor; discriminate|vm_compute; discriminate]]|].
  vm_compute. reflexivity.
Qed.

(** ** C48 *)

Theorem C48_resolved : forall (X : Type) p dbl (kr : keyring X) ft b a x src (dest : destination X) i f args k x1 x2 r,
  wf_platform p -> keyring_ok p kr -> well_sized dbl kr ft -> reached p dbl kr ft b a x -> quiet dbl a ->
  nth_error (mc_table a) i = Some f -> calls p kr f args x1 x2 r ->
  k < length (packet kr i f args) -> mc_in a = firstn k (packet kr i f args) ->
  pull src (length (packet kr i f args) - k) x = Ok (x1, skipn k (packet kr i f args)) ->
  match push dest (answer kr f r) x2 with
  | Ok x3 => exists b', process p src dest b x = Ok (b', x3, RESOLVED_PACKET)
               /\ reached p dbl kr ft b' (mk_machine [] [] (mc_table a)) x3
  | Fault flt => process p src dest b x = Fault flt
  end.
Proof.
  intros X p dbl kr ft b a x src dest i f args k x1 x2 r Hp Hk Hs H Hq Hi Hc Hlt Hin Hpull.
  pose proof (reached_table p dbl kr ft Hp Hk Hs b a x H) as Ht.
  destruct (mc_read_packet p kr Hk src i f args x x1 x2 r a k Ht Hi Hc Hin Hlt Hpull) as [Hr Hread].
  assert (Hl : legitimate p dbl kr ft (Process src dest) a x) by (split; [exact Hread|exact Hq]).
  assert (E : mc_step (format_of kr) (Process src dest) a x
              = (x3 <- push dest (answer kr f r) x2;; Ok (mk_machine [] [] (mc_table a), x3, OStatus RESOLVED_PACKET))).
  { cbn [mc_step]. unfold mc_process. rewrite Hr. cbn [bind]. unfold mc_write. cbn [mc_out mc_in mc_table].
    destruct (push dest (answer kr f r) x2); reflexivity. }
  destruct (push dest (answer kr f r) x2) as [x3|flt]; cbn [bind] in E.
  - destruct (reached_step p dbl kr ft Hp Hk Hs _ b a x _ _ _ H Hl E) as (b' & E' & H').
    exists b'. split; auto. cbn [step] in E'. ok_inv E' q. destruct q as [[b1 y] s]. congruence.
  - pose proof (reached_fault p dbl kr ft Hp Hk Hs _ b a x flt H Hl E) as E'.
    cbn [step] in E'. destruct (process p src dest b x) as [[[b1 y] s]|]; [discriminate|]. cbn [bind] in E'. congruence.
Qed.

(** Nothing is written, whatever the destination. *)
Theorem C48_dropped : forall (X : Type) p dbl (kr : keyring X) ft b a x src (dest : destination X) idx k x1,
  wf_platform p -> keyring_ok p kr -> well_sized dbl kr ft -> reached p dbl kr ft b a x -> quiet dbl a ->
  bad_index kr idx -> k < length idx -> mc_in a = firstn k idx ->
  pull src (length idx - k) x = Ok (x1, skipn k idx) ->
  exists b', process p src dest b x = Ok (b', x1, DROPPED_PACKET)
    /\ reached p dbl kr ft b' (mk_machine [] (mc_out a) (mc_table a)) x1.
Proof.
  intros X p dbl kr ft b a x src dest idx k x1 Hp Hk Hs H Hq Hbad Hlt Hin Hpull.
  pose proof (reached_table p dbl kr ft Hp Hk Hs b a x H) as Ht.
  destruct (mc_read_bad p kr src idx x x1 a k Ht Hbad Hin Hlt Hpull) as [Hr Hread].
  destruct (reached_step p dbl kr ft Hp Hk Hs (Process src dest) b a x
              (mk_machine [] (mc_out a) (mc_table a)) x1 (OStatus DROPPED_PACKET) H) as (b' & E & H').
  { split; [exact Hread|exact Hq]. }
  { cbn [mc_step]. unfold mc_process. rewrite Hr. reflexivity. }
  exists b'. split; auto. cbn [step] in E. ok_inv E q. destruct q as [[b1 y] s]. congruence.
Qed.

Example C48_example : exists b,
  make_single (lift_keyring ex_keyring) ANY [] = Some b
  /\ observe (run_ops pc_native [Process take_wire give_wire; Process take_wire give_wire; Process take_wire give_wire]%Z b
                (mk_wires [0; 255; 254; 5; 9; 2; 1; 0; 7; 8]%Z [] []))
     = Ok (mk_wires [8]%Z [0; 0; 0; 3; 7; 9]%Z [(2, [VList [VInt 1; VInt 7]]); (0, [VInt (-2); VInt 5])],
           [OStatus RESOLVED_PACKET; OStatus DROPPED_PACKET; OStatus RESOLVED_PACKET]).
Proof. eexists. split; [reflexivity|]. vm_compute. reflexivity. Qed.

Print Assumptions C38_drain.
Print Assumptions C39_resolved.
Print Assumptions C39_dropped.
Print Assumptions C39_never_loading.
Print Assumptions C40_reset.
Print Assumptions C40_resynchronised.
Print Assumptions C48_resolved.
Print Assumptions C48_dropped.
