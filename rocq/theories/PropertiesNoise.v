(** Property C92: bytes which are altered on the wire, none being lost.

    The dispatcher may have received anything before ([reached] allows any
    history) and is between two requests. *)

From Coq Require Import List ZArith Lia Bool Arith.
From Verif Require Import Base CInt Spec IntModel Conditions MemFacts TypeLevel Serial TupleModel
  TypeLevelProofs IntProofs SignedProofs SerialProofs CodecFacts Bounds TupleProofs SpecRpc Rpc RpcProofs
  Hosts Closed PropertiesTypes PropertiesRpc Buffered SpecBuffered BufferedProofs PropertiesBuffered
  PropertiesBuffers PropertiesPackets PropertiesStreams Firmware PropertiesCallee PropertiesRecovery.
Import ListNotations.
Open Scope nat_scope.

(** ** Specification *)

(** What a callee understands of the bytes [bs], whoever wrote them: the
    callback [f], at the index [i], is called on the values they encode. *)
Definition heard {X : Type} (p : platform) (kr : keyring X) (i : nat) (f : func X) (bs : list Z) (x x' : X) (r : val) : Prop :=
  length bs = kr_index_size kr + wire_sizes (sig_params (f_sig f)) /\ Forall is_byte bs
  /\ wire_value (kr_e kr) (firstn (kr_index_size kr) bs) = Z.of_nat i
  /\ decodable_list p (kr_e kr) (kr_m kr) (sig_params (f_sig f)) (skipn (kr_index_size kr) bs)
  /\ f_call f (dec_list (kr_e kr) (kr_m kr) (sig_params (f_sig f)) (skipn (kr_index_size kr) bs)) x = (x', r)
  /\ ret_encodable p (kr_m kr) (sig_ret (f_sig f)) r.

(** The same of a sequence of groups of bytes. *)
Inductive hearing {S : Type} (p : platform) (kr : keyring S) : list (list Z) -> S -> list Z -> S -> Prop :=
| hearing_nil : forall s, hearing p kr [] s [] s
| hearing_cons : forall i name f bs s s1 r groups outs s2,
    nth_error (kr_funcs kr) i = Some (name, f) -> heard p kr i f bs s s1 r ->
    hearing p kr groups s1 outs s2 ->
    hearing p kr (bs :: groups) s (answer kr f r ++ outs) s2.

(** The arguments of all the callbacks take the same number of bytes. *)
Definition uniform {X : Type} (kr : keyring X) (n : nat) : Prop :=
  Forall (fun s => wire_sizes (sig_params s) = n) (kr_signatures kr).

(** ** Proofs *)

Section Noise.
  Context {X : Type}.
  Variables (p : platform) (dbl : bool) (kr : keyring X) (ft : action_features).
  Hypothesis Hp : wf_platform p.
  Hypothesis Hk : keyring_ok p kr.
  Hypothesis Hs : well_sized dbl kr ft.
  Let fm := format_of kr.
  Let w := kr_index_size kr.

  Lemma heard_designates : forall (table : list (func X)) i f bs l, nth_error table i = Some f ->
    wire_value (kr_e kr) (firstn w bs) = Z.of_nat i -> firstn w l = firstn w bs -> designated fm table l = Some f.
  Proof.
    intros table i f bs l Hi Hv Hl. unfold designated. cbn [fm format_of fm_w fm_e]. fold w. rewrite Hl, Hv, Nat2Z.id. exact Hi.
  Qed.

  Lemma prefix_examine : forall (table : list (func X)) i f bs k, nth_error table i = Some f ->
    wire_value (kr_e kr) (firstn w bs) = Z.of_nat i -> k <= length bs -> k < w + wire_sizes (sig_params (f_sig f)) ->
    examine fm table (firstn k bs) = Incomplete.
  Proof.
    intros table i f bs k Hi Hv Hlt Hl. unfold examine. cbn [fm format_of fm_w]. fold w fm.
    rewrite firstn_length, Nat.min_l by lia. destruct (Nat.ltb_spec k w); auto.
    rewrite (heard_designates table i f bs) by (auto; rewrite firstn_firstn, Nat.min_l by lia; auto). unfold params.
    destruct (Nat.ltb_spec k (w + wire_sizes (sig_params (f_sig f)))); auto. lia.
  Qed.

  Lemma heard_examine : forall (table : list (func X)) i f bs x x' r, nth_error table i = Some f -> heard p kr i f bs x x' r ->
    examine fm table bs = Request f (skipn w bs).
  Proof.
    intros table i f bs x x' r Hi (Hl & _ & Hv & _). unfold examine. cbn [fm format_of fm_w]. fold w fm. fold w in Hl, Hv.
    destruct (Nat.ltb_spec (length bs) w); [lia|]. rewrite (heard_designates table i f bs) by auto. unfold params.
    destruct (Nat.ltb_spec (length bs) (w + wire_sizes (sig_params (f_sig f)))); [lia|]. reflexivity.
  Qed.

  Lemma heard_received : forall i f bs x x' r a, nth_error (mc_table a) i = Some f -> heard p kr i f bs x x' r ->
    received fm bs a x = (mk_machine [] (answer kr f r) (mc_table a), x', RESOLVED_PACKET)
    /\ servable fm p (mc_table a) bs x.
  Proof.
    intros i f bs x x' r a Hi Hh. unfold received, servable. rewrite (heard_examine (mc_table a) i f bs x x' r Hi Hh).
    destruct Hh as (_ & _ & _ & Hd & Hc & Hr). unfold serve, params, ret. cbn [fm format_of fm_e fm_m].
    fold w in Hd, Hc. rewrite Hc. cbn [snd]. auto.
  Qed.

  (** Bytes none of which ends a request. *)
  Lemma loading_bytes : forall bs a x, quiet dbl a -> Forall is_byte bs ->
    (forall k, 1 <= k <= length bs -> examine fm (mc_table a) (mc_in a ++ firstn k bs) = Incomplete) ->
    mc_run fm (map Put bs) a x
      = Ok (mk_machine (mc_in a ++ bs) (mc_out a) (mc_table a), x, repeat (OStatus LOADING_PACKET) (length bs))
    /\ along fm (legitimate p dbl kr ft) (map Put bs) a x.
  Proof.
    induction bs as [|c bs IH]; intros a x Hq Hb Hex.
    - cbn [map mc_run along length repeat]. rewrite app_nil_r. destruct a. auto.
    - inversion_clear Hb as [|? ? Hc Hb']. cbn [map mc_run along mc_step length repeat]. unfold mc_put, received.
      pose proof (Hex 1 ltac:(cbn [length]; lia)) as H1. cbn [firstn] in H1. rewrite H1. cbn [bind].
      set (a1 := mk_machine (mc_in a ++ [c]) (mc_out a) (mc_table a)).
      destruct (IH a1 x) as [E L]; [exact Hq|exact Hb'| |].
      { intros k Hk1. unfold a1. cbn [mc_table mc_in]. rewrite <- app_assoc. apply (Hex (S k)). cbn [length]. lia. }
      split.
      + rewrite E. cbn [bind]. unfold a1. cbn [mc_in mc_out mc_table]. rewrite <- app_assoc. reflexivity.
      + split.
        * split; [|exact Hq]. cbn [step_ok]. split; auto. unfold servable. fold fm. rewrite H1. exact I.
        * intros a2 x2 v E'. injection E' as <- <- <-. exact L.
  Qed.

  (** A whole request. *)
  Lemma heard_bytes : forall i f bs x x' r a, nth_error (mc_table a) i = Some f -> heard p kr i f bs x x' r ->
    mc_in a = [] -> quiet dbl a ->
    mc_run fm (map Put bs) a x
      = Ok (mk_machine [] (answer kr f r) (mc_table a), x',
            repeat (OStatus LOADING_PACKET) (length bs - 1) ++ [OStatus RESOLVED_PACKET])
    /\ along fm (legitimate p dbl kr ft) (map Put bs) a x.
  Proof.
    intros i f bs x x' r a Hi Hh Hin Hq. pose proof Hh as (Hl & Hb & Hv & _). pose proof (w_positive p kr Hk) as Hw. fold w in Hw, Hl, Hv.
    destruct (exists_last (l := bs)) as (bs0 & c & Ebs); [intros ->; cbn in Hl; lia|]. rewrite Ebs in Hb.
    apply Forall_app in Hb. destruct Hb as [Hb0 Hc]. inversion_clear Hc as [|? ? Hc' _].
    assert (Hl0 : length bs = S (length bs0)) by (rewrite Ebs, app_length; cbn [length]; lia).
    destruct (loading_bytes bs0 a x Hq Hb0) as [E L].
    { intros k Hk1. rewrite Hin. cbn [app]. replace (firstn k bs0) with (firstn k bs).
      - apply (prefix_examine _ i f); auto; lia.
      - rewrite Ebs, firstn_app. replace (k - length bs0) with 0 by lia. cbn [firstn]. apply app_nil_r. }
    rewrite Hin in E. cbn [app] in E. set (a1 := mk_machine bs0 (mc_out a) (mc_table a)) in *.
    destruct (heard_received i f bs x x' r a1 Hi Hh) as [Hr Hserv]. cbn [a1 mc_table] in Hserv.
    rewrite Ebs, map_app. split.
    - rewrite mc_run_app, E. cbn [bind map mc_run mc_step]. unfold mc_put. cbn [a1 mc_in]. rewrite <- Ebs.
      fold a1. rewrite Hr. cbn [bind]. rewrite Hl0. replace (S (length bs0) - 1) with (length bs0) by lia. reflexivity.
    - eapply along_then; [exact L|exact E|]. cbn [map along]. split; [|intros; exact I]. split; [|exact Hq].
      cbn [step_ok a1 mc_in mc_table]. rewrite <- Ebs. auto.
  Qed.

  Lemma heard_read : forall (src : source X) i f bs x x1 x2 r (a : machine X), nth_error (mc_table a) i = Some f ->
    heard p kr i f bs x1 x2 r -> mc_in a = [] -> pull src (length bs) x = Ok (x1, bs) ->
    mc_read fm src a x = Ok (mk_machine [] (answer kr f r) (mc_table a), x2, RESOLVED_PACKET)
    /\ readable fm p src a x.
  Proof.
    intros src i f bs x x1 x2 r a Hi Hh Hin Hpull. pose proof Hh as (Hl & Hb & Hv & _). fold w in Hl, Hv.
    pose proof (w_positive p kr Hk) as Hw. fold w in Hw.
    assert (Hf : mc_fetch fm src a x = Ok (x1, bs)).
    { unfold mc_fetch, missing. rewrite Hin. cbn [length app]. cbn [fm format_of fm_w]. fold fm w.
      destruct (Nat.ltb_spec 0 w); [|lia]. rewrite Nat.sub_0_r. rewrite Hl, pull_app in Hpull.
      destruct (pull src w x) as [[y1 bs1]|] eqn:E1; [|discriminate]. cbn [bind] in Hpull |- *.
      destruct (pull src (wire_sizes (sig_params (f_sig f))) y1) as [[y2 bs2]|] eqn:E2; [|discriminate].
      cbn [bind] in Hpull. assert (y2 = x1) by congruence. assert (Ebs : bs1 ++ bs2 = bs) by congruence. subst y2.
      pose proof (pull_length _ _ _ _ _ _ E1) as L1. pose proof (pull_length _ _ _ _ _ _ E2) as L2.
      rewrite L1. destruct (Nat.ltb_spec w w); [lia|].
      rewrite (heard_designates (mc_table a) i f bs) by (auto; rewrite <- Ebs, <- L1, firstn_all, firstn_app_exact; auto).
      unfold params. replace (w + wire_sizes (sig_params (f_sig f)) - w) with (wire_sizes (sig_params (f_sig f))) by lia.
      rewrite E2. cbn [bind]. rewrite Ebs. reflexivity. }
    destruct (heard_received i f bs x1 x2 r a Hi Hh) as [Hr Hserv]. split.
    - unfold mc_read. rewrite Hf. cbn [bind]. rewrite Hr. reflexivity.
    - apply (fetched_readable p kr src a x x1 bs); auto.
  Qed.

  Lemma not_idle : forall b a x, reached p dbl kr ft b a x -> mc_in a <> [] -> ~ idle kr b.
  Proof. intros b a x H Hne Hi. apply Hne. apply (reached_pending p dbl kr ft Hp Hk Hs b a x H). exact Hi. Qed.
End Noise.

(** ** Theorems *)

(** The bytes of the arguments are altered: the same callback is called, once,
    when the last byte is received; only the arguments some bytes of which were
    altered differ; the dispatcher then awaits the next request. *)
Theorem C92_arguments : forall (X : Type) p dbl (kr : keyring X) ft b a x i f args noisy x' r,
  wf_platform p -> keyring_ok p kr -> well_sized dbl kr ft -> reached p dbl kr ft b a x ->
  idle kr b -> quiet dbl a -> nth_error (mc_table a) i = Some f ->
  Forall2 (encodable p (kr_m kr)) (sig_params (f_sig f)) args ->
  length noisy = length (packet kr i f args) -> Forall is_byte noisy ->
  firstn (kr_index_size kr) noisy = firstn (kr_index_size kr) (packet kr i f args) ->
  decodable_list p (kr_e kr) (kr_m kr) (sig_params (f_sig f)) (skipn (kr_index_size kr) noisy) ->
  let args' := dec_list (kr_e kr) (kr_m kr) (sig_params (f_sig f)) (skipn (kr_index_size kr) noisy) in
  f_call f args' x = (x', r) -> ret_encodable p (kr_m kr) (sig_ret (f_sig f)) r ->
  (exists b', run_ops p (map Put noisy) b x
                = Ok (b', x', repeat (OStatus LOADING_PACKET) (length noisy - 1) ++ [OStatus RESOLVED_PACKET])
     /\ reached p dbl kr ft b' (mk_machine [] (answer kr f r) (mc_table a)) x' /\ idle kr b')
  /\ length args' = length args
  /\ forall k t, nth_error (sig_params (f_sig f)) k = Some t ->
       slice noisy (kr_index_size kr + offset_of (sig_params (f_sig f)) k) (wire_size t)
         = slice (packet kr i f args) (kr_index_size kr + offset_of (sig_params (f_sig f)) k) (wire_size t) ->
       nth_error args' k = nth_error args k.
Proof.
  intros X p dbl kr ft b a x i f args noisy x' r Hp Hk Hs H Hid Hq Hi Hargs Hl Hb Hidx Hd args' Hc Hr.
  pose proof (reached_table p dbl kr ft Hp Hk Hs b a x H) as Ht.
  destruct (reached_pending p dbl kr ft Hp Hk Hs b a x H) as (_ & _ & _ & Hin). specialize (Hin Hid).
  assert (Hlp : length (packet kr i f args) = kr_index_size kr + wire_sizes (sig_params (f_sig f))).
  { unfold packet, request. rewrite app_length, wire_bytes_length.
    rewrite enc_list_length by (eapply encodable_has; eauto). reflexivity. }
  assert (Hn : i < length (kr_funcs kr)).
  { rewrite <- (table_len kr (mc_table a) Ht). apply nth_error_Some. congruence. }
  assert (Hh : heard p kr i f noisy x x' r).
  { split; [lia|]. split; [exact Hb|]. split; [|auto]. rewrite Hidx, packet_index.
    rewrite <- (Z2Nat.id (wire_value _ _)).
    - f_equal. apply wire_index; [apply Hk|exact Hn].
    - pose proof (wire_value_bounds (kr_e kr) _ (wire_bytes_bytes (kr_e kr) (kr_index_size kr) (Z.of_nat i))). lia. }
  split; [|split].
  - destruct (heard_bytes p dbl kr ft Hk i f noisy x x' r a Hi Hh Hin Hq) as [E L].
    destruct (reached_run p dbl kr ft Hp Hk Hs _ b a x _ _ _ H L E) as (b' & R & H').
    exists b'. split; [exact R|]. split; [exact H'|]. apply (reached_pending p dbl kr ft Hp Hk Hs b' _ x' H'). reflexivity.
  - unfold args'. rewrite dec_list_length. eapply Forall2_length; eauto.
  - intros k t Hkt Hsl. unfold args'. rewrite (dec_list_nth _ _ _ _ _ _ Hkt).
    destruct (table_sig_ok p kr Hk (mc_table a) Ht i f Hi) as [Hpar _].
    assert (Hwf : Forall wf_ty (sig_params (f_sig f))).
    { eapply Forall_impl; [|exact Hpar]. intros t' Ht'. apply Ht'. }
    rewrite <- (dec_list_enc_list p (kr_e kr) (kr_m kr) _ _ Hwf Hargs) at 1.
    rewrite (dec_list_nth _ _ _ _ _ _ Hkt). do 2 f_equal. rewrite <- (packet_payload kr i f args).
    unfold slice in *. rewrite !skipn_skipn. try rewrite !(Nat.add_comm (offset_of (sig_params (f_sig f)) k)). exact Hsl.
Qed.

(** Whatever was sent, bytes which are a request to [f] are one call of [f]. *)
Theorem C92_heard : forall (X : Type) p dbl (kr : keyring X) ft b a x i f bs x' r,
  wf_platform p -> keyring_ok p kr -> well_sized dbl kr ft -> reached p dbl kr ft b a x ->
  idle kr b -> quiet dbl a -> nth_error (mc_table a) i = Some f -> heard p kr i f bs x x' r ->
  exists b', run_ops p (map Put bs) b x
               = Ok (b', x', repeat (OStatus LOADING_PACKET) (length bs - 1) ++ [OStatus RESOLVED_PACKET])
    /\ reached p dbl kr ft b' (mk_machine [] (answer kr f r) (mc_table a)) x' /\ idle kr b'.
Proof.
  intros X p dbl kr ft b a x i f bs x' r Hp Hk Hs H Hid Hq Hi Hh.
  destruct (reached_pending p dbl kr ft Hp Hk Hs b a x H) as (_ & _ & _ & Hin). specialize (Hin Hid).
  destruct (heard_bytes p dbl kr ft Hk i f bs x x' r a Hi Hh Hin Hq) as [E L].
  destruct (reached_run p dbl kr ft Hp Hk Hs _ b a x _ _ _ H L E) as (b' & R & H').
  exists b'. split; [exact R|]. split; [exact H'|]. apply (reached_pending p dbl kr ft Hp Hk Hs b' _ x' H'). reflexivity.
Qed.

(** The bytes of the index are altered too: [i] was sent and [j] is received.
    - [j] designates nothing: the request is dropped once its index is received,
      and the bytes of the arguments are taken for requests;
    - it designates a callback whose arguments take as many bytes: it is called,
      and the next request is understood;
    - they take fewer bytes: it is called before the end of the request, the rest
      of which is taken for requests;
    - they take more: nothing is called, and the dispatcher still waits at the
      end of the request: it takes the missing bytes from the next ones. *)
Theorem C92_index : forall (X : Type) p dbl (kr : keyring X) ft b a x i f args noisy,
  wf_platform p -> keyring_ok p kr -> well_sized dbl kr ft -> reached p dbl kr ft b a x ->
  idle kr b -> quiet dbl a -> nth_error (mc_table a) i = Some f ->
  Forall2 (encodable p (kr_m kr)) (sig_params (f_sig f)) args ->
  length noisy = length (packet kr i f args) -> Forall is_byte noisy ->
  let w := kr_index_size kr in
  let j := Z.to_nat (wire_value (kr_e kr) (firstn w noisy)) in
  let size (g : func X) := wire_sizes (sig_params (f_sig g)) in
  match nth_error (mc_table a) j with
  | None =>
      exists b', run_ops p (map Put (firstn w noisy)) b x
                   = Ok (b', x, repeat (OStatus LOADING_PACKET) (w - 1) ++ [OStatus DROPPED_PACKET])
        /\ reached p dbl kr ft b' (mk_machine [] (mc_out a) (mc_table a)) x /\ idle kr b'
  | Some g =>
      (size g = size f -> forall x' r, heard p kr j g noisy x x' r ->
         exists b', run_ops p (map Put noisy) b x
                      = Ok (b', x', repeat (OStatus LOADING_PACKET) (length noisy - 1) ++ [OStatus RESOLVED_PACKET])
           /\ reached p dbl kr ft b' (mk_machine [] (answer kr g r) (mc_table a)) x' /\ idle kr b')
      /\ (size g < size f -> forall x' r, heard p kr j g (firstn (w + size g) noisy) x x' r ->
         exists b', run_ops p (map Put (firstn (w + size g) noisy)) b x
                      = Ok (b', x', repeat (OStatus LOADING_PACKET) (w + size g - 1) ++ [OStatus RESOLVED_PACKET])
           /\ reached p dbl kr ft b' (mk_machine [] (answer kr g r) (mc_table a)) x' /\ idle kr b'
           /\ length (skipn (w + size g) noisy) = size f - size g)
      /\ (size f < size g ->
         (exists b', run_ops p (map Put noisy) b x = Ok (b', x, repeat (OStatus LOADING_PACKET) (length noisy))
            /\ reached p dbl kr ft b' (mk_machine noisy (mc_out a) (mc_table a)) x /\ ~ idle kr b')
         /\ forall next x' r, length next = size g - size f -> heard p kr j g (noisy ++ next) x x' r ->
            exists b', run_ops p (map Put (noisy ++ next)) b x
                         = Ok (b', x', repeat (OStatus LOADING_PACKET) (w + size g - 1) ++ [OStatus RESOLVED_PACKET])
              /\ reached p dbl kr ft b' (mk_machine [] (answer kr g r) (mc_table a)) x' /\ idle kr b')
  end.
Proof.
  intros X p dbl kr ft b a x i f args noisy Hp Hk Hs H Hid Hq Hi Hargs Hl Hb w j size.
  pose proof (reached_table p dbl kr ft Hp Hk Hs b a x H) as Ht.
  destruct (reached_pending p dbl kr ft Hp Hk Hs b a x H) as (_ & _ & _ & Hin). specialize (Hin Hid).
  pose proof (w_positive p kr Hk) as Hw. fold w in Hw.
  assert (Hlp : length noisy = w + size f).
  { rewrite Hl. unfold packet, request. rewrite app_length, wire_bytes_length.
    rewrite enc_list_length by (eapply encodable_has; eauto). reflexivity. }
  assert (Hbi : Forall is_byte (firstn w noisy)).
  { rewrite <- (firstn_skipn w noisy) in Hb. apply Forall_app in Hb. apply Hb. }
  assert (Hj : wire_value (kr_e kr) (firstn w noisy) = Z.of_nat j).
  { unfold j. rewrite Z2Nat.id; auto. pose proof (wire_value_bounds (kr_e kr) _ Hbi). lia. }
  destruct (nth_error (mc_table a) j) as [g|] eqn:Eg.
  - split; [|split].
    + intros _ x' r Hh. exact (C92_heard X p dbl kr ft b a x j g noisy x' r Hp Hk Hs H Hid Hq Eg Hh).
    + intros Hlt x' r Hh.
      destruct (C92_heard X p dbl kr ft b a x j g _ x' r Hp Hk Hs H Hid Hq Eg Hh) as (b' & R & H' & Hid').
      rewrite firstn_length, Nat.min_l in R by lia. exists b'. split; [exact R|]. split; [exact H'|]. split; [exact Hid'|].
      rewrite skipn_length. lia.
    + intros Hlt. split.
      * destruct (loading_bytes p dbl kr ft noisy a x Hq Hb) as [E L].
        { intros k Hk1. rewrite Hin. cbn [app]. apply (prefix_examine kr (mc_table a) j g); auto; [lia|].
          fold w. change (wire_sizes (sig_params (f_sig g))) with (size g). lia. }
        rewrite Hin in E. cbn [app] in E.
        destruct (reached_run p dbl kr ft Hp Hk Hs _ b a x _ _ _ H L E) as (b' & R & H').
        exists b'. split; [exact R|]. split; [exact H'|]. apply (not_idle p dbl kr ft Hp Hk Hs b' _ x H').
        cbn [mc_in]. intros ->. cbn [length] in Hlp. lia.
      * intros next x' r Hn Hh.
        destruct (C92_heard X p dbl kr ft b a x j g _ x' r Hp Hk Hs H Hid Hq Eg Hh) as (b' & R & H' & Hid').
        rewrite app_length in R. replace (length noisy + length next - 1) with (w + size g - 1) in R by lia.
        exists b'. auto.
  - assert (Hbad : bad_index kr (firstn w noisy)).
    { split; [rewrite firstn_length; fold w; lia|]. split; [exact Hbi|]. rewrite Hj. apply nth_error_None in Eg.
      rewrite (table_len kr (mc_table a) Ht) in Eg. lia. }
    destruct (mc_feed_bad p dbl kr ft w 0 (firstn w noisy) x a Ht Hbad Hin) as [E L]; auto.
    { rewrite firstn_length. lia. }
    cbn [skipn] in E, L.
    destruct (reached_run p dbl kr ft Hp Hk Hs _ b a x _ _ _ H L E) as (b' & R & H').
    exists b'. split; [exact R|]. split; [exact H'|]. apply (reached_pending p dbl kr ft Hp Hk Hs b' _ x H'). reflexivity.
Qed.

(** A server reads groups of bytes which are requests, whoever wrote them. *)
Theorem C92_server : forall (S : Type) p dbl (kr : keyring S) ft groups s0 outs s2 out0 g g' b0,
  wf_platform p -> keyring_ok p kr -> well_sized dbl kr ft -> hearing p kr groups s0 outs s2 ->
  make_buffered dbl (lift_keyring kr) ft g g' = Some b0 ->
  exists b, perform_all p (concat (repeat [Read; Drain] (length groups))) b0 (mk_wires (concat groups) out0 s0)
            = Ok (b, mk_wires [] (out0 ++ outs) s2).
Proof.
  intros S p dbl kr ft groups s0 outs s2 out0 g g' b0 Hp Hk Hs Hses Hb.
  pose proof (lift_keyring_ok S p kr Hk) as Hk'. pose proof (lift_well_sized S dbl kr ft Hs) as Hs'.
  assert (H : reached p dbl (lift_keyring kr) ft b0 (fresh (lift_keyring kr)) (mk_wires (concat groups) out0 s0)).
  { eapply reached_new. exact Hb. }
  clear Hb g g'. revert b0 out0 H.
  induction Hses as [s|i name f bs s s1 r groups outs s2 Hn Hh Hses IH]; intros b0 out0 H;
    cbn [length repeat concat app perform_all].
  { exists b0. rewrite app_nil_r. reflexivity. }
  cbn [perform]. set (a := fresh (lift_keyring kr)) in *. cbn [concat] in H.
  assert (Hh' : heard p (lift_keyring kr) i (lift_func f) bs (mk_wires (concat groups) out0 s) (mk_wires (concat groups) out0 s1) r).
  { destruct Hh as (H1 & H2 & H3 & H4 & H5 & H6). rewrite <- (lift_index_size S kr) in H1, H3, H4, H5.
    split; [exact H1|]. split; [exact H2|]. split; [exact H3|]. split; [exact H4|]. split; [|exact H6].
    cbn [lift_func f_call w_user w_in w_out lift_keyring kr_e kr_m f_sig]. cbn [lift_keyring kr_e kr_m] in H5. rewrite H5. reflexivity. }
  assert (Hi : nth_error (mc_table a) i = Some (lift_func f)).
  { apply (table_lift kr a i name f); auto. }
  destruct (heard_read p (lift_keyring kr) Hk' take_wire i (lift_func f) bs
              (mk_wires (bs ++ concat groups) out0 s) _ _ r a Hi Hh' eq_refl) as [Hr Hread].
  { apply take_wires. }
  destruct (reached_step p dbl (lift_keyring kr) ft Hp Hk' Hs' (ReadFrom take_wire) b0 a _
              (mk_machine [] (answer (lift_keyring kr) (lift_func f) r) (mc_table a)) (mk_wires (concat groups) out0 s1)
              (OStatus RESOLVED_PACKET) H) as (b1 & E1 & H1).
  { split; [exact Hread|right; reflexivity]. }
  { cbn [mc_step]. rewrite Hr. reflexivity. }
  cbn [step] in E1. ok_inv E1 q. destruct q as [[b1' y] st]. injection E1 as -> -> ->. cbn [bind].
  pose proof (reached_write p dbl (lift_keyring kr) ft Hp Hk' Hs' b1 _ _ give_wire H1) as Hw.
  cbn [mc_out mc_in mc_table] in Hw. rewrite give_wires in Hw. destruct Hw as (b2 & E2 & H2). rewrite E2. cbn [bind].
  destruct (IH b2 (out0 ++ answer kr f r) H2) as (b3 & E3). exists b3. rewrite app_assoc. exact E3.
Qed.

(** If the arguments of all the callbacks take the same number of bytes, then
    whatever is altered, as long as the indices designate callbacks, the bytes of
    every request are a request: as many calls are made as requests are sent,
    and those which were not altered are the expected ones. *)
Theorem C92_uniform : forall (S : Type) p (kr : keyring S) n groups s0,
  keyring_ok p kr -> uniform kr n -> accepts_any p kr (map snd (kr_funcs kr)) ->
  Forall (fun bs => length bs = kr_index_size kr + n /\ Forall is_byte bs
            /\ (wire_value (kr_e kr) (firstn (kr_index_size kr) bs) < Z.of_nat (length (kr_funcs kr)))%Z) groups ->
  exists outs s2, hearing p kr groups s0 outs s2.
Proof.
  intros S p kr n groups s0 Hk Hu Hacc Hg. revert s0.
  induction Hg as [|bs groups (Hl & Hb & Hi) _ IH]; intros s0.
  { exists [], s0. constructor. }
  assert (Hbi : Forall is_byte (firstn (kr_index_size kr) bs) /\ Forall is_byte (skipn (kr_index_size kr) bs)).
  { rewrite <- (firstn_skipn (kr_index_size kr) bs) in Hb. apply Forall_app in Hb. exact Hb. }
  destruct Hbi as [Hbi Hbp].
  pose proof (wire_value_bounds (kr_e kr) _ Hbi) as [Hv _].
  set (v := wire_value (kr_e kr) (firstn (kr_index_size kr) bs)) in *.
  destruct (nth_error (kr_funcs kr) (Z.to_nat v)) as [[name f]|] eqn:En.
  2:{ apply nth_error_None in En. lia. }
  assert (Hsize : wire_sizes (sig_params (f_sig f)) = n).
  { unfold uniform in Hu. rewrite Forall_forall in Hu. apply Hu. unfold kr_signatures.
    apply in_map_iff. exists (name, f). split; [reflexivity|]. eapply nth_error_In; eauto. }
  unfold accepts_any in Hacc. rewrite Forall_forall in Hacc.
  assert (Hin : In f (map snd (kr_funcs kr))) by (apply nth_error_In in En; apply (in_map snd) in En; exact En).
  destruct (Hacc f Hin (skipn (kr_index_size kr) bs) s0 Hbp) as [Hd Hr].
  { rewrite skipn_length. lia. }
  destruct (f_call f (dec_list (kr_e kr) (kr_m kr) (sig_params (f_sig f)) (skipn (kr_index_size kr) bs)) s0) as [s1 r] eqn:Ec.
  destruct (IH s1) as (outs & s2 & Hh). exists (answer kr f r ++ outs), s2.
  apply (hearing_cons p kr (Z.to_nat v) name f bs s0 s1 r groups outs s2 En); [|exact Hh].
  split; [lia|]. split; [exact Hb|]. split; [fold v; lia|]. auto.
Qed.

(** A request which was not altered is heard as it was sent. *)
Theorem C92_intact : forall (S : Type) p (kr : keyring S) i name f args s s1 r,
  keyring_ok p kr -> nth_error (kr_funcs kr) i = Some (name, f) -> calls p kr f args s s1 r ->
  heard p kr i f (packet kr i f args) s s1 r
  /\ forall j g s1' r', j < length (kr_funcs kr) -> nth_error (kr_funcs kr) j = Some g ->
       heard p kr j (snd g) (packet kr i f args) s s1' r' -> j = i /\ s1' = s1 /\ r' = r.
Proof.
  intros S p kr i name f args s s1 r Hk Hn Hc.
  assert (Ht : map f_sig (map snd (kr_funcs kr)) = kr_signatures kr) by (rewrite map_map; reflexivity).
  assert (Hi : nth_error (map snd (kr_funcs kr)) i = Some f) by (rewrite nth_error_map, Hn; reflexivity).
  assert (Hlt : i < length (kr_funcs kr)) by (apply nth_error_Some; congruence).
  destruct (packet_decoded p kr Hk (map snd (kr_funcs kr)) Ht i f args s s1 r Hi Hc) as [Hdec Hd].
  assert (Hv : wire_value (kr_e kr) (firstn (kr_index_size kr) (packet kr i f args)) = Z.of_nat i).
  { rewrite packet_index, <- (Z2Nat.id (wire_value _ _)).
    - f_equal. apply wire_index; [apply Hk|exact Hlt].
    - pose proof (wire_value_bounds (kr_e kr) _ (wire_bytes_bytes (kr_e kr) (kr_index_size kr) (Z.of_nat i))). lia. }
  assert (Hh : heard p kr i f (packet kr i f args) s s1 r).
  { destruct Hc as (Hc1 & Hc2 & Hc3). split; [apply (packet_length p kr i f args s s1 r); split; auto|].
    split; [apply packet_bytes|]. split; [exact Hv|]. rewrite packet_payload. split; [exact Hd|]. split; [|exact Hc3].
    rewrite Hdec. exact Hc2. }
  split; [exact Hh|]. intros j [name' g] s1' r' Hj Hg (_ & _ & Hv' & _ & Hc' & _). cbn [snd] in *.
  assert (j = i) by (rewrite Hv in Hv'; lia). subst j. assert (g = f) by congruence. subst g.
  destruct Hh as (_ & _ & _ & _ & Hc'' & _). rewrite Hc'' in Hc'. split; [reflexivity|]. split; congruence.
Qed.

(** It is exactly the keyrings whose callbacks take as many bytes of arguments
    which lose no request but the altered one. *)
Theorem C92_exact : forall (X : Type) p dbl (kr : keyring X) ft g g' b0 (x0 : X),
  wf_platform p -> keyring_ok p kr -> well_sized dbl kr ft -> make_buffered dbl kr ft g g' = Some b0 ->
  accepts_any p kr (map snd (kr_funcs kr)) ->
  (forall s noisy, In s (kr_signatures kr) ->
     length noisy = kr_index_size kr + wire_sizes (sig_params s) -> Forall is_byte noisy ->
     (wire_value (kr_e kr) (firstn (kr_index_size kr) noisy) < Z.of_nat (length (kr_funcs kr)))%Z ->
     exists b x vs, run_ops p (map Put noisy) b0 x0 = Ok (b, x, vs ++ [OStatus RESOLVED_PACKET])
       /\ count_resolved vs = 0 /\ idle kr b)
  <-> exists n, uniform kr n.
Proof.
  intros X p dbl kr ft g g' b0 x0 Hp Hk Hs Hb Hacc.
  pose proof (reached_new p dbl kr ft g g' b0 x0 Hb) as H0.
  assert (Hid0 : idle kr b0) by (apply (reached_pending p dbl kr ft Hp Hk Hs b0 _ x0 H0); reflexivity).
  assert (Hq0 : quiet dbl (fresh kr)) by (right; reflexivity).
  split.
  - intros Hall.
    assert (Hle : forall s s', In s (kr_signatures kr) -> In s' (kr_signatures kr) ->
                    wire_sizes (sig_params s') <= wire_sizes (sig_params s)).
    { intros s s' Hin Hin'. apply Nat.nlt_ge. intros Hlt.
      apply In_nth_error in Hin'. destruct Hin' as [j Hj]. pose proof Hj as Hj'. unfold kr_signatures in Hj.
      rewrite nth_error_map in Hj. destruct (nth_error (kr_funcs kr) j) as [[name f']|] eqn:En; [|discriminate].
      cbn [option_map snd] in Hj. injection Hj as Ef.
      assert (Hjl : j < length (kr_funcs kr)) by (apply nth_error_Some; congruence).
      set (idx := wire_bytes (kr_e kr) (kr_index_size kr) (Z.of_nat j)).
      assert (Hli : length idx = kr_index_size kr) by apply wire_bytes_length.
      set (noisy := idx ++ repeat 0%Z (wire_sizes (sig_params s))).
      assert (Hf : firstn (kr_index_size kr) noisy = idx).
      { unfold noisy. rewrite <- Hli. apply firstn_app_exact. }
      assert (Hv : wire_value (kr_e kr) (firstn (kr_index_size kr) noisy) = Z.of_nat j).
      { rewrite Hf. unfold idx. rewrite <- (Z2Nat.id (wire_value _ _)).
        - f_equal. apply wire_index; [apply Hk|exact Hjl].
        - pose proof (wire_value_bounds (kr_e kr) _ (wire_bytes_bytes (kr_e kr) (kr_index_size kr) (Z.of_nat j))). lia. }
      assert (Hln : length noisy = kr_index_size kr + wire_sizes (sig_params s)).
      { unfold noisy. rewrite app_length, repeat_length. lia. }
      assert (Hbn : Forall is_byte noisy).
      { apply Forall_app. split; [apply wire_bytes_bytes|]. apply Forall_forall. intros c Hc. apply repeat_spec in Hc. subst c. unfold is_byte. lia. }
      destruct (Hall s noisy Hin Hln Hbn ltac:(lia)) as (b & x & vs & R & _ & _).
      assert (Etab : nth_error (mc_table (fresh kr)) j = Some f').
      { cbn [fresh mc_table]. rewrite nth_error_map, En. reflexivity. }
      destruct (loading_bytes p dbl kr ft noisy (fresh kr) x0 Hq0 Hbn) as [E L].
      { intros k Hk1. apply (prefix_examine kr (mc_table (fresh kr)) j f'); auto; [lia|]. rewrite Ef. lia. }
      destruct (reached_run p dbl kr ft Hp Hk Hs _ b0 _ x0 _ _ _ H0 L E) as (b' & R' & _).
      rewrite R in R'. assert (Evs : vs ++ [OStatus RESOLVED_PACKET] = repeat (OStatus LOADING_PACKET) (length noisy)) by congruence.
      assert (Hr : In (OStatus RESOLVED_PACKET) (repeat (OStatus LOADING_PACKET) (length noisy))).
      { rewrite <- Evs. apply in_or_app. right. left. reflexivity. }
      apply repeat_spec in Hr. discriminate Hr. }
    destruct (kr_signatures kr) as [|s l] eqn:Es.
    + exists 0. unfold uniform. rewrite Es. constructor.
    + exists (wire_sizes (sig_params s)). unfold uniform. rewrite Es. apply Forall_forall. intros s' Hin'.
      pose proof (Hle s s' (or_introl eq_refl) Hin'). pose proof (Hle s' s Hin' (or_introl eq_refl)). lia.
  - intros [n Hu] s noisy Hin Hln Hbn Hv.
    assert (Hsn : wire_sizes (sig_params s) = n) by (unfold uniform in Hu; rewrite Forall_forall in Hu; apply Hu; exact Hin).
    destruct (C92_uniform X p kr n [noisy] x0 Hk Hu Hacc) as (outs & x2 & Hh).
    { constructor; [|constructor]. split; [lia|]. auto. }
    inversion Hh as [|i name f bs s0 s1 r gr outs' s2 Hn Hhd Htl]; subst.
    assert (Etab : nth_error (mc_table (fresh kr)) i = Some f).
    { cbn [fresh mc_table]. rewrite nth_error_map, Hn. reflexivity. }
    destruct (C92_heard X p dbl kr ft b0 (fresh kr) x0 i f noisy s1 r Hp Hk Hs H0 Hid0 Hq0 Etab Hhd) as (b' & R & _ & Hid).
    eexists b', s1, _. split; [exact R|]. split; [apply count_loading|exact Hid].
Qed.

Lemma ex_heard : heard pc_native ex_keyring 0 ex_add [0; 255; 251; 8]%Z [] [(0, [VInt (-5); VInt 8])] (VInt 3).
Proof.
  split; [reflexivity|]. split; [list_cases; unfold is_byte; lia|]. split; [reflexivity|].
  split; [|split; [reflexivity|]]; vm_compute; repeat split; auto; discriminate.
Qed.

(** [add(-5, 7)] is sent, and its last byte is altered. *)
Example C92_arguments_example : exists b b',
  make_double ex_keyring ANY [] [] = Some b
  /\ keyring_ok pc_native ex_keyring /\ well_sized true ex_keyring ANY /\ idle ex_keyring b
  /\ packet ex_keyring 0 ex_add [VInt (-5); VInt 7] = [0; 255; 251; 7]%Z
  /\ heard pc_native ex_keyring 0 ex_add [0; 255; 251; 8]%Z [] [(0, [VInt (-5); VInt 8])] (VInt 3)
  /\ run_ops pc_native (map Put [0; 255; 251; 8]%Z) b []
     = Ok (b', [(0, [VInt (-5); VInt 8])], map OStatus [LOADING_PACKET; LOADING_PACKET; LOADING_PACKET; RESOLVED_PACKET]).
Proof.
  do 2 eexists. split; [vm_compute; reflexivity|]. split; [exact ex_keyring_ok|]. split; [apply ex_well_sized|].
  split; [repeat split|]. split; [reflexivity|]. split; [exact ex_heard|]. vm_compute. reflexivity.
Qed.

(** Its index is altered: [swap] is called, whose arguments take as many bytes;
    or [notify], which takes none: the bytes of the arguments are then taken for
    indices; or nothing is designated.  [notify()] becomes a request to [add],
    which takes its arguments from the next request. *)
Example C92_index_example : exists b,
  make_double ex_keyring ANY [] [] = Some b
  /\ (exists b', run_ops pc_native (map Put [2; 255; 251; 7]%Z) b []
        = Ok (b', [(2, [VList [VInt 255; VInt (-1273)]])], map OStatus [LOADING_PACKET; LOADING_PACKET; LOADING_PACKET; RESOLVED_PACKET]))
  /\ (exists b', run_ops pc_native (map Put [1; 255; 251; 7]%Z) b []
        = Ok (b', [(1, [])], map OStatus [RESOLVED_PACKET; DROPPED_PACKET; DROPPED_PACKET; DROPPED_PACKET]))
  /\ (exists b', run_ops pc_native (map Put [1; 0; 0; 7]%Z) b []
        = Ok (b', [(1, [])], map OStatus [RESOLVED_PACKET; LOADING_PACKET; LOADING_PACKET; LOADING_PACKET])
        /\ ~ idle ex_keyring b')
  /\ (exists b', run_ops pc_native (map Put [9; 255; 251; 7]%Z) b []
        = Ok (b', [], map OStatus [DROPPED_PACKET; DROPPED_PACKET; DROPPED_PACKET; DROPPED_PACKET]))
  /\ (exists b', run_ops pc_native (map Put ([0] ++ [0; 255; 251; 7])%Z) b []
        = Ok (b', [(0, [VInt 255; VInt 251])],
              map OStatus [LOADING_PACKET; LOADING_PACKET; LOADING_PACKET; RESOLVED_PACKET; DROPPED_PACKET])).
Proof.
  eexists. split; [vm_compute; reflexivity|]. repeat split; try (eexists; vm_compute; reflexivity).
  eexists. split; [vm_compute; reflexivity|]. intros (E & _). vm_compute in E. discriminate E.
Qed.

(** The lights of the README: every callback takes one byte. *)
Example C92_uniform_example : uniform lights 1 /\ accepts_any pc_native lights (map snd (kr_funcs lights))
  /\ keyring_ok pc_native lights /\ well_sized false lights WEAK_REFERENCE
  /\ ~ (exists n, uniform ex_keyring n)
  /\ exists b0 b, make_buffered false (lift_keyring lights) WEAK_REFERENCE [] [] = Some b0
       /\ perform_all pc_native (concat (repeat [Read; Drain] 3)) b0 (mk_wires (concat [[0; 1]; [2; 1]; [1; 77]]%Z) [] [])
          = Ok (b, mk_wires [] [] [(3, [VInt 77]); (4, [VInt 1]); (2, [VInt 1])]).
Proof.
  split; [repeat constructor|]. split; [exact lights_accept|]. split; [exact lights_ok|]. split; [exact lights_well_sized|].
  split.
  - intros [n H]. unfold uniform, kr_signatures in H. cbn [ex_keyring kr_funcs map snd] in H.
    inversion H as [|? ? Ha Hb]. inversion Hb as [|? ? Hc _]. vm_compute in Ha, Hc. congruence.
  - do 2 eexists. split; [vm_compute; reflexivity|]. vm_compute. reflexivity.
Qed.

Print Assumptions C92_arguments.
Print Assumptions C92_heard.
Print Assumptions C92_index.
Print Assumptions C92_server.
Print Assumptions C92_uniform.
Print Assumptions C92_intact.
Print Assumptions C92_exact.
