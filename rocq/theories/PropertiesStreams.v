(** Property C43: streams of requests. *)

From Coq Require Import List ZArith Lia Bool Arith.
From Verif Require Import Base CInt Spec IntModel Conditions MemFacts TypeLevel Serial TupleModel
  TypeLevelProofs IntProofs SignedProofs SerialProofs CodecFacts Bounds TupleProofs SpecRpc Rpc RpcProofs
  Hosts Closed PropertiesTypes PropertiesRpc Buffered SpecBuffered BufferedProofs PropertiesBuffered
  PropertiesBuffers PropertiesPackets.
Import ListNotations.
Open Scope nat_scope.

(** ** C43 *)

(** A sequence of local calls, from the state [s] to the state [s']: the
    requests, the bytes which encode them, the bytes of the results. *)
Inductive session {S : Type} (p : platform) (kr : keyring S)
  : list (nat * list val) -> S -> list Z -> list Z -> S -> Prop :=
| session_nil : forall s, session p kr [] s [] [] s
| session_cons : forall i name f args s s1 r reqs bytes outs s2,
    nth_error (kr_funcs kr) i = Some (name, f) -> calls p kr f args s s1 r ->
    session p kr reqs s1 bytes outs s2 ->
    session p kr ((i, args) :: reqs) s (packet kr i f args ++ bytes) (answer kr f r ++ outs) s2.

(** What the user of a dispatcher does with it, the bytes coming from a wire and
    going to another: put the next byte, read the rest of a packet, send one
    byte of the response, send the rest of it. *)
Inductive duty : Type := Feed | Read | Send | Drain.

Definition perform {S : Type} (p : platform) (m : duty) (b : buffered (wires S)) (x : wires S)
    : res (buffered (wires S) * wires S) :=
  match m with
  | Feed =>
      '(x1, byte) <- take_wire x;;
      '(b', x2, _) <- put p byte b x1;;
      Ok (b', x2)
  | Read => '(b', x', _) <- read_from p take_wire b x;; Ok (b', x')
  | Send =>
      if is_loaded b then
        '(b', byte) <- get_byte b;;
        x' <- give_wire byte x;;
        Ok (b', x')
      else Ok (b, x)
  | Drain => write_to give_wire b x
  end.

Fixpoint perform_all {S : Type} (p : platform) (ms : list duty) (b : buffered (wires S)) (x : wires S)
    : res (buffered (wires S) * wires S) :=
  match ms with
  | [] => Ok (b, x)
  | m :: ms' => '(b', x') <- perform p m b x;; perform_all p ms' b' x'
  end.

(** No response is lost: a packet is completed only once the previous response
    was sent, and a single buffered dispatcher does not even receive a byte
    before. *)
Definition turn {S : Type} (p : platform) (dbl : bool) (m : duty) (b : buffered (wires S)) (x : wires S) : Prop :=
  match m with
  | Feed =>
      is_loaded b = false
      \/ dbl = true /\ forall x1 byte b' x2 st, take_wire x = Ok (x1, byte) -> put p byte b x1 = Ok (b', x2, st) ->
                        st = LOADING_PACKET
  | Read => is_loaded b = false
  | Send | Drain => True
  end.

Fixpoint in_turn {S : Type} (p : platform) (dbl : bool) (ms : list duty) (b : buffered (wires S)) (x : wires S) : Prop :=
  match ms with
  | [] => True
  | m :: ms' =>
      turn p dbl m b x /\ forall b' x', perform p m b x = Ok (b', x') -> in_turn p dbl ms' b' x'
  end.

Lemma lift_signatures : forall (S : Type) (kr : keyring S), kr_signatures (lift_keyring kr) = kr_signatures kr.
Proof. intros S kr. unfold kr_signatures, lift_keyring. cbn [kr_funcs]. rewrite map_map. reflexivity. Qed.

Lemma lift_index_size : forall (S : Type) (kr : keyring S), kr_index_size (lift_keyring kr) = kr_index_size kr.
Proof. intros S kr. unfold kr_index_size. rewrite lift_funcs_length. reflexivity. Qed.

Lemma lift_keyring_ok : forall (S : Type) p (kr : keyring S), keyring_ok p kr -> keyring_ok p (lift_keyring kr).
Proof.
  intros S p kr [H1 H2]. split.
  - rewrite lift_funcs_length. auto.
  - unfold lift_keyring. cbn [kr_funcs kr_e kr_m]. apply Forall_map. exact H2.
Qed.

Lemma lift_well_sized : forall (S : Type) dbl (kr : keyring S) ft, well_sized dbl kr ft -> well_sized dbl (lift_keyring kr) ft.
Proof.
  intros S dbl kr ft H. unfold well_sized, out_capacity, max_native in *. rewrite lift_signatures, lift_index_size. exact H.
Qed.

Lemma lift_packet : forall (S : Type) (kr : keyring S) i (f : func S) args,
  packet (lift_keyring kr) i (lift_func f) args = packet kr i f args.
Proof. intros. unfold packet. rewrite lift_index_size. reflexivity. Qed.

Lemma lift_calls : forall (S : Type) p (kr : keyring S) f args s s' r inp out, calls p kr f args s s' r ->
  calls p (lift_keyring kr) (lift_func f) args (mk_wires inp out s) (mk_wires inp out s') r.
Proof.
  intros S p kr f args s s' r inp out (H1 & H2 & H3). split; [exact H1|]. split; [|exact H3].
  cbn [lift_func f_call w_user w_in w_out]. rewrite H2. reflexivity.
Qed.

Lemma session_app : forall (S : Type) p (kr : keyring S) reqs s bytes outs s1 reqs' bytes' outs' s2,
  session p kr reqs s bytes outs s1 -> session p kr reqs' s1 bytes' outs' s2 ->
  session p kr (reqs ++ reqs') s (bytes ++ bytes') (outs ++ outs') s2.
Proof.
  intros S p kr reqs s bytes outs s1 reqs' bytes' outs' s2 H H'.
  induction H as [s|i name f args s s1 r reqs bytes outs s3 Hn Hc H IH]; cbn [app]; auto.
  rewrite <- !app_assoc. econstructor; eauto.
Qed.

(** A sequence of calls has one outcome. *)
Lemma session_same : forall (S : Type) p (kr : keyring S) reqs s bytes outs s2 bytes' outs' s2',
  session p kr reqs s bytes outs s2 -> session p kr reqs s bytes' outs' s2' ->
  bytes = bytes' /\ outs = outs' /\ s2 = s2'.
Proof.
  intros S p kr reqs s bytes outs s2 bytes' outs' s2' H. revert bytes' outs' s2'.
  induction H as [s|i name f args s s1 r reqs bytes outs s2 Hn Hc H IH]; intros bytes' outs' s2' H'; inversion H'; subst; auto.
  assert (f0 = f) by congruence. subst f0. destruct Hc as (_ & Hc & _).
  match goal with Hc' : calls _ _ _ _ _ _ _ |- _ => destruct Hc' as (_ & Hc' & _); rewrite Hc in Hc'; injection Hc' as <- <- end.
  edestruct IH as (-> & -> & ->); eauto.
Qed.

Lemma session_bytes : forall (S : Type) p (kr : keyring S) reqs s bytes outs s2 bytes' outs' s2',
  session p kr reqs s bytes outs s2 -> session p kr reqs s bytes' outs' s2' -> bytes = bytes'.
Proof. intros S p kr reqs s bytes outs s2 bytes' outs' s2' H H'. destruct (session_same S p kr reqs s bytes outs s2 bytes' outs' s2' H H') as (? & ? & ?). auto. Qed.

Lemma session_outs : forall (S : Type) p (kr : keyring S) reqs s bytes outs s2 bytes' outs' s2',
  session p kr reqs s bytes outs s2 -> session p kr reqs s bytes' outs' s2' -> outs = outs'.
Proof. intros S p kr reqs s bytes outs s2 bytes' outs' s2' H H'. destruct (session_same S p kr reqs s bytes outs s2 bytes' outs' s2' H H') as (? & ? & ?). auto. Qed.

Lemma session_state : forall (S : Type) p (kr : keyring S) reqs s bytes outs s2 bytes' outs' s2',
  session p kr reqs s bytes outs s2 -> session p kr reqs s bytes' outs' s2' -> s2 = s2'.
Proof. intros S p kr reqs s bytes outs s2 bytes' outs' s2' H H'. destruct (session_same S p kr reqs s bytes outs s2 bytes' outs' s2' H H') as (? & ? & ?). auto. Qed.

Lemma session_split : forall (S : Type) p (kr : keyring S) reqs reqs' s bytes outs s2,
  session p kr (reqs ++ reqs') s bytes outs s2 ->
  exists b1 o1 s1 b2 o2, session p kr reqs s b1 o1 s1 /\ session p kr reqs' s1 b2 o2 s2
    /\ bytes = b1 ++ b2 /\ outs = o1 ++ o2.
Proof.
  intros S p kr. induction reqs as [|[i args] reqs IH]; intros reqs' s bytes outs s2 H; cbn [app] in H.
  - exists [], [], s, bytes, outs. split; [constructor|]. auto.
  - inversion H as [|i' name f args' s' s1 r reqs0 bytes' outs' s'' Hn Hc Hr]; subst.
    destruct (IH _ _ _ _ _ Hr) as (b1 & o1 & s3 & b2 & o2 & H1 & H2 & -> & ->).
    do 5 eexists. split; [econstructor; eauto|]. split; [exact H2|]. rewrite !app_assoc. auto.
Qed.

Section Streams.
  Context {S : Type}.
  Variables (p : platform) (dbl : bool) (kr : keyring S) (ft : action_features).
  Hypothesis Hp : wf_platform p.
  Hypothesis Hk : keyring_ok p kr.
  Hypothesis Hs : well_sized dbl kr ft.
  Let kr' := lift_keyring kr.
  Let fm := format_of kr'.

  Variables (reqs : list (nat * list val)) (s0 s2 : S) (out0 : list Z).
  (** Whether no response is lost. *)
  Variable turns : bool.
  Hypothesis Hturns : dbl = true \/ turns = true.

  (** The next packet is received up to some point. *)
  Definition position (rest : list (nat * list val)) (bytes : list Z) (a : machine (wires S)) (x : wires S) : Prop :=
    match rest with
    | [] => mc_in a = [] /\ w_in x = []
    | (i, args) :: _ =>
        exists name f j, nth_error (kr_funcs kr) i = Some (name, f) /\ j < length (packet kr i f args)
          /\ mc_in a = firstn j (packet kr i f args) /\ w_in x = skipn j bytes
    end.

  Definition on_track (b : buffered (wires S)) (x : wires S) : Prop :=
    exists a fin rest bf bytes outf outs,
      reached p dbl kr' ft b a x /\ mc_table a = map snd (kr_funcs kr')
      /\ reqs = fin ++ rest
      /\ session p kr fin s0 bf outf (w_user x) /\ session p kr rest (w_user x) bytes outs s2
      /\ position rest bytes a x
      /\ (turns = true -> w_out x ++ mc_out a = out0 ++ outf).

  Lemma session_position : forall rest s bytes outs a x, session p kr rest s bytes outs s2 ->
    mc_in a = [] -> w_in x = bytes -> position rest bytes a x.
  Proof.
    intros rest s bytes outs a x H Ha Hx. unfold position. inversion H as [|i name f args]; subst; auto.
    exists name, f, 0. split; auto. split; [|cbn; auto].
    assert (Hl : length (packet kr i f args) = kr_index_size kr + wire_sizes (sig_params (f_sig f))) by
      (eapply packet_length; eauto).
    destruct (index_size S kr ltac:(apply Hk)) as ((Hw & _) & _). lia.
  Qed.

  Lemma table_lift : forall a i name f, mc_table a = map snd (kr_funcs kr') ->
    nth_error (kr_funcs kr) i = Some (name, f) -> nth_error (mc_table a) i = Some (lift_func f).
  Proof.
    intros a i name f -> Hn. unfold kr', lift_keyring. cbn [kr_funcs]. rewrite map_map, nth_error_map, Hn. reflexivity.
  Qed.

  (** A packet is resolved. *)
  Lemma on_track_resolved : forall b (a : machine (wires S)) fin rest i name f args r bf outf s1 bytes outs out,
    reached p dbl kr' ft b (mk_machine [] (answer kr f r) (map snd (kr_funcs kr'))) (mk_wires bytes out s1) ->
    reqs = fin ++ (i, args) :: rest ->
    nth_error (kr_funcs kr) i = Some (name, f) ->
    forall s, session p kr fin s0 bf outf s -> calls p kr f args s s1 r ->
    session p kr rest s1 bytes outs s2 ->
    (turns = true -> mc_out a = [] /\ out ++ mc_out a = out0 ++ outf) ->
    on_track b (mk_wires bytes out s1).
  Proof.
    intros b a fin rest i name f args r bf outf s1 bytes outs out H Hreqs Hn s Hf Hc Hr Ho.
    exists (mk_machine [] (answer kr f r) (map snd (kr_funcs kr'))), (fin ++ [(i, args)]), rest,
      (bf ++ (packet kr i f args ++ [])), bytes, (outf ++ (answer kr f r ++ [])), outs.
    split; [exact H|]. split; [reflexivity|]. split; [rewrite <- app_assoc; exact Hreqs|].
    cbn [w_user]. split; [eapply session_app; eauto; econstructor; eauto; constructor|].
    split; [exact Hr|]. split; [eapply session_position; eauto|].
    intros Ht. destruct (Ho Ht) as [H1 H2]. cbn [w_out mc_out]. rewrite H1, app_nil_r in H2.
    rewrite app_nil_r, app_assoc, <- H2. reflexivity.
  Qed.

  Lemma perform_on_track : forall m b x, on_track b x ->
    (turns = true -> turn p dbl m b x) ->
    match perform p m b x with
    | Ok (b', x') =>
        on_track b' x'
        /\ match m with
           | Feed => exists byte, w_in x = byte :: w_in x'
           | Read => length (w_in x') < length (w_in x)
           | Send | Drain => w_in x' = w_in x
           end
    | Fault flt => flt = NoInput /\ w_in x = [] /\ (m = Feed \/ m = Read)
    end.
  Proof.
    pose proof (lift_keyring_ok S p kr Hk) as Hk'. pose proof (lift_well_sized S dbl kr ft Hs) as Hs'.
    fold kr' in Hk', Hs'.
    intros m b [inp out s] (a & fin & rest & bf & bytes & outf & outs & H & Htab & Hreqs & Hf & Hr & Hpos & Hout) Hm.
    cbn [w_user w_out w_in] in *.
    pose proof (reached_table p dbl kr' ft Hp Hk' Hs' b a _ H) as Ht.
    assert (Hl : is_loaded b = false -> mc_out a = []).
    { intros E. rewrite (reached_loaded p dbl kr' ft Hp Hk' Hs' b a _ H) in E. unfold mc_loaded in E.
      destruct (mc_out a); [reflexivity|discriminate]. }
    assert (Hq : match m with Feed | Read => quiet dbl a | _ => True end).
    { destruct m; auto; (destruct Hturns as [E|E]; [left; exact E|]); specialize (Hm E); cbn [turn] in Hm; unfold quiet;
        tauto. }
    destruct m; cbn [perform].
    - (* Feed *)
      destruct rest as [|[i args] rest]; cbn [position] in Hpos.
      { destruct Hpos as [_ Hin]. cbn [w_in] in Hin. unfold take_wire. cbn [w_in]. rewrite Hin. cbn [bind]. auto. }
      destruct Hpos as (name & f & j & Hn & Hj & Hin & Hw). cbn [w_in] in Hw.
      inversion Hr as [|i' name' f' args' s' s1 r reqs' bytes' outs' s'' Hn' Hc Hr']; subst i' args' reqs' s' s'' bytes outs.
      assert (E : name' = name /\ f' = f) by (split; congruence). destruct E as [-> ->].
      destruct (firstn_skipn_next _ (packet kr i f args) j Hj) as (byte & E1 & E2).
      assert (Ew : inp = byte :: skipn (Datatypes.S j) (packet kr i f args) ++ bytes').
      { rewrite Hw, skipn_app, E1. replace (j - length (packet kr i f args)) with 0 by lia. reflexivity. }
      unfold take_wire. cbn [w_in w_out w_user]. rewrite Ew. cbn [bind].
      set (inp1 := skipn (Datatypes.S j) (packet kr i f args) ++ bytes') in *.
      destruct (reached_step p dbl kr' ft Hp Hk' Hs' (Outside (fun _ => mk_wires inp1 out s)) b a _ a
                  (mk_wires inp1 out s) ONone H) as (b1 & S1 & H1).
      { split; [exact I|right; exact I]. } { reflexivity. }
      cbn [step] in S1. assert (b1 = b) by congruence. subst b1. clear S1.
      pose proof (table_lift a i name f Htab Hn) as Hi.
      pose proof (lift_calls S p kr f args s s1 r inp1 out Hc) as Hc'. fold kr' in Hc'.
      assert (Hb : is_byte byte).
      { pose proof (packet_bytes kr i f args) as Hb. rewrite Forall_forall in Hb. apply Hb.
        rewrite <- (firstn_skipn j (packet kr i f args)), E1. apply in_or_app. right. left. reflexivity. }
      destruct (Nat.eq_dec (Datatypes.S j) (length (packet kr i f args))) as [Hlast|Hlast].
      + destruct (received_packet p kr' Hk' (mc_table a) Ht i (lift_func f) args _ _ r a Hi Hc' eq_refl) as [Hrec Hsv].
        assert (Epk : mc_in a ++ [byte] = packet kr' i (lift_func f) args).
        { unfold kr'. rewrite lift_packet, Hin, E2. apply firstn_all2. lia. }
        destruct (reached_step p dbl kr' ft Hp Hk' Hs' (Put byte) b a _
                    (mk_machine [] (answer kr f r) (mc_table a)) (mk_wires inp1 out s1) (OStatus RESOLVED_PACKET) H1) as (b2 & S2 & H2).
        { split; [|exact Hq]. cbn [step_ok]. rewrite Epk. split; [exact Hb|exact Hsv]. }
        { cbn [mc_step]. unfold mc_put. rewrite Epk, Hrec. reflexivity. }
        cbn [step] in S2. ok_inv S2 q. destruct q as [[b3 x3] st]. cbn [bind].
        assert (b3 = b2 /\ x3 = mk_wires inp1 out s1) as [-> ->] by (split; congruence).
        assert (Ei : inp1 = bytes') by (unfold inp1; rewrite skipn_all2 by lia; reflexivity).
        rewrite Ei in *. rewrite Htab in H2.
        split; [|exists byte; reflexivity].
        eapply (on_track_resolved b2 a fin rest i name f args r); eauto.
        intros Htt. split; [|exact (Hout Htt)]. specialize (Hm Htt). cbn [turn] in Hm.
        destruct Hm as [Hm|[_ Hm]]; [exact (Hl Hm)|].
        specialize (Hm (mk_wires bytes' out s) byte b2 (mk_wires bytes' out s1) st).
        unfold take_wire in Hm. cbn [w_in w_out w_user] in Hm. rewrite Ew in Hm. specialize (Hm eq_refl E). congruence.
      + destruct (received_prefix p kr' Hk' (mc_table a) Ht i (lift_func f) args _ _ r a (Datatypes.S j) (mk_wires inp1 out s) Hi Hc')
          as [Hrec Hsv]; auto.
        { unfold kr'. rewrite lift_packet. lia. }
        assert (Epk : mc_in a ++ [byte] = firstn (Datatypes.S j) (packet kr' i (lift_func f) args)).
        { unfold kr'. rewrite lift_packet, Hin, E2. reflexivity. }
        destruct (reached_step p dbl kr' ft Hp Hk' Hs' (Put byte) b a _
                    (mk_machine (firstn (Datatypes.S j) (packet kr' i (lift_func f) args)) (mc_out a) (mc_table a))
                    (mk_wires inp1 out s) (OStatus LOADING_PACKET) H1) as (b2 & S2 & H2).
        { split; [|exact Hq]. cbn [step_ok]. rewrite Epk. split; [exact Hb|exact Hsv]. }
        { cbn [mc_step]. unfold mc_put. rewrite Epk, Hrec. reflexivity. }
        cbn [step] in S2. ok_inv S2 q. destruct q as [[b3 x3] st]. cbn [bind].
        assert (b3 = b2 /\ x3 = mk_wires inp1 out s) as [-> ->] by (split; congruence).
        split; [|exists byte; reflexivity].
        do 7 eexists. split; [exact H2|]. split; [exact Htab|]. split; [exact Hreqs|]. split; [exact Hf|].
        split; [exact Hr|]. split; [|exact Hout]. cbn [position mc_in w_in].
        exists name, f, (Datatypes.S j). split; [exact Hn|]. split; [lia|].
        split; [unfold kr'; rewrite lift_packet; reflexivity|].
        unfold inp1. rewrite skipn_app. replace (Datatypes.S j - length (packet kr i f args)) with 0 by lia. reflexivity.
    - (* Read *)
      destruct rest as [|[i args] rest]; cbn [position] in Hpos.
      { destruct Hpos as [Hin Hw]. cbn [w_in] in Hw. subst inp.
        pose proof (index_size (wires S) kr' ltac:(apply Hk')) as ((Hw1 & _) & _).
        assert (Em : missing fm (mc_table a) (mc_in a) = kr_index_size kr').
        { unfold missing. rewrite Hin. cbn [length fm format_of fm_w].
          destruct (Nat.ltb_spec 0 (kr_index_size kr')); lia. }
        assert (Efetch : mc_fetch fm take_wire a (mk_wires [] out s) = Fault NoInput).
        { unfold mc_fetch. rewrite Em. destruct (kr_index_size kr'); [lia|]. reflexivity. }
        assert (Estep : mc_step fm (ReadFrom take_wire) a (mk_wires [] out s) = Fault NoInput).
        { cbn [mc_step]. unfold mc_read. rewrite Efetch. reflexivity. }
        assert (Hleg : legitimate p dbl kr' ft (ReadFrom take_wire) a (mk_wires [] out s)).
        { split; [|exact Hq]. cbn [step_ok]. fold fm. split; [|split].
          - intros [|k] y bs _ E; [injection E as _ <-; constructor|discriminate].
          - rewrite Em. destruct (kr_index_size kr'); [lia|]. intros y bs E. discriminate.
          - intros y bs E. rewrite Efetch in E. discriminate. }
        pose proof (reached_fault p dbl kr' ft Hp Hk' Hs' _ b a _ NoInput H Hleg Estep) as E. cbn [step] in E.
        destruct (read_from p take_wire b (mk_wires [] out s)) as [[[b1 x1] st]|flt]; cbn [bind w_in] in *; [discriminate|].
        split; [congruence|]. auto. }
      destruct Hpos as (name & f & j & Hn & Hj & Hin & Hw). cbn [w_in] in Hw.
      inversion Hr as [|i' name' f' args' s' s1 r reqs' bytes' outs' s'' Hn' Hc Hr']; subst i' args' reqs' s' s'' bytes outs.
      assert (E : name' = name /\ f' = f) by (split; congruence). destruct E as [-> ->].
      pose proof (table_lift a i name f Htab Hn) as Hi.
      pose proof (lift_calls S p kr f args s s1 r bytes' out Hc) as Hc'. fold kr' in Hc'.
      destruct (C39_resolved (wires S) p dbl kr' ft b a (mk_wires inp out s) take_wire i (lift_func f) args j
                  (mk_wires bytes' out s) (mk_wires bytes' out s1) r Hp Hk' Hs' H Hq Hi Hc') as (b1 & E1 & H1).
      { unfold kr'. rewrite lift_packet. exact Hj. }
      { unfold kr'. rewrite lift_packet. exact Hin. }
      { unfold kr'. rewrite lift_packet, Hw, skipn_app. replace (j - length (packet kr i f args)) with 0 by lia. cbn [skipn].
        replace (length (packet kr i f args) - j) with (length (skipn j (packet kr i f args))) by apply skipn_length.
        apply take_wires. }
      rewrite E1. cbn [bind]. rewrite Htab in H1.
      split.
      + eapply (on_track_resolved b1 a fin rest i name f args r); eauto.
        intros Htt. split; [exact (Hl (Hm Htt))|exact (Hout Htt)].
      + rewrite Hw. cbn [w_in]. rewrite skipn_length, app_length. lia.
    - (* Send *)
      rewrite (reached_loaded p dbl kr' ft Hp Hk' Hs' b a _ H). unfold mc_loaded.
      destruct (mc_out a) as [|c o] eqn:Eo.
      { split; [|reflexivity]. do 7 eexists. split; [exact H|]. rewrite Eo. eauto 10. }
      destruct (reached_step p dbl kr' ft Hp Hk' Hs' Get b a _ (mk_machine (mc_in a) o (mc_table a))
                  (mk_wires inp out s) (OByte c) H) as (b1 & S1 & H1).
      { split; [exact I|right; exact I]. } { cbn [mc_step]. unfold mc_get. rewrite Eo. reflexivity. }
      cbn [step] in S1. ok_inv S1 q. destruct q as [b2 c']. assert (b2 = b1 /\ c' = c) as [-> ->] by (split; congruence).
      cbn [bind give_wire w_in w_out w_user].
      destruct (reached_step p dbl kr' ft Hp Hk' Hs' (Outside (fun _ => mk_wires inp (out ++ [c]) s)) b1
                  (mk_machine (mc_in a) o (mc_table a)) _ (mk_machine (mc_in a) o (mc_table a))
                  (mk_wires inp (out ++ [c]) s) ONone H1) as (b3 & S3 & H3).
      { split; [exact I|right; exact I]. } { reflexivity. }
      cbn [step] in S3. assert (b3 = b1) by congruence. subst b3.
      split; [|reflexivity]. do 7 eexists. split; [exact H3|]. cbn [mc_table mc_out w_user w_out].
      split; [exact Htab|]. split; [exact Hreqs|]. split; [exact Hf|]. split; [exact Hr|]. split; [exact Hpos|].
      intros Htt. rewrite <- app_assoc. exact (Hout Htt).
    - (* Drain *)
      pose proof (reached_write p dbl kr' ft Hp Hk' Hs' b a (mk_wires inp out s) give_wire H) as Hw.
      rewrite give_wires in Hw. destruct Hw as (b1 & E1 & H1). rewrite E1.
      split; [|reflexivity]. do 7 eexists. split; [exact H1|]. cbn [mc_table mc_out w_user w_out].
      split; [exact Htab|]. split; [exact Hreqs|]. split; [exact Hf|]. split; [exact Hr|]. split; [exact Hpos|].
      rewrite app_nil_r. exact Hout.
  Qed.

  Lemma perform_all_on_track : forall ms b x, on_track b x -> (turns = true -> in_turn p dbl ms b x) ->
    match perform_all p ms b x with
    | Ok (b', x') => on_track b' x'
    | Fault flt => flt = NoInput
    end.
  Proof.
    induction ms as [|m ms IH]; intros b x H Hm; cbn [perform_all]; auto.
    pose proof (perform_on_track m b x H) as H1. cbn [in_turn] in Hm.
    specialize (H1 ltac:(intros Ht; apply Hm; exact Ht)).
    destruct (perform p m b x) as [[b1 x1]|flt] eqn:E; cbn [bind]; [|apply H1].
    apply IH; [apply H1|]. intros Ht. destruct (Hm Ht) as [_ Hm2]. auto.
  Qed.

  Lemma feed_all_on_track : forall n b x, turns = false -> on_track b x -> n <= length (w_in x) ->
    exists b' x', perform_all p (repeat Feed n) b x = Ok (b', x') /\ length (w_in x') = length (w_in x) - n.
  Proof.
    induction n as [|n IH]; intros b x Hf H Hn; cbn [perform_all repeat].
    { exists b, x. split; [reflexivity|lia]. }
    pose proof (perform_on_track Feed b x H ltac:(congruence)) as H1.
    destruct (perform p Feed b x) as [[b1 x1]|flt] eqn:E; cbn [bind].
    - destruct H1 as [H1 (byte & E1)]. rewrite E1 in *. cbn [length] in *.
      destruct (IH b1 x1 Hf H1 ltac:(lia)) as (b2 & x2 & E2 & E3). exists b2, x2. split; [exact E2|]. lia.
    - destruct H1 as (_ & E1 & _). rewrite E1 in Hn. cbn in Hn. lia.
  Qed.
End Streams.

Lemma on_track_start : forall (S : Type) p dbl (kr : keyring S) ft reqs s0 bytes outs s2 out0 turns g g' b,
  keyring_ok p kr -> session p kr reqs s0 bytes outs s2 -> make_buffered dbl (lift_keyring kr) ft g g' = Some b ->
  on_track p dbl kr ft reqs s0 s2 out0 turns b (mk_wires bytes out0 s0).
Proof.
  intros S p dbl kr ft reqs s0 bytes outs s2 out0 turns g g' b Hk Hses Hb.
  exists (fresh (lift_keyring kr)), [], reqs, [], bytes, [], outs.
  split; [eapply reached_new; exact Hb|]. split; [reflexivity|]. split; [reflexivity|].
  split; [constructor|]. split; [exact Hses|]. split; [|intros _; reflexivity].
  eapply session_position; eauto; reflexivity.
Qed.

(** The bytes of any number of requests are on the wire. Whatever the way a
    dispatcher is used -- byte by byte, packet by packet, sending responses in
    between or not -- the callbacks run so far are those of the packets
    received entirely, in order, each once: [w_user x] is the state the same
    local calls lead to, and the dispatcher holds a part of the next packet. *)
Theorem C43_prefix : forall (S : Type) p dbl (kr : keyring S) ft reqs s0 bytes outs s2 out0 g g' b0 ms b x,
  wf_platform p -> keyring_ok p kr -> well_sized dbl kr ft -> session p kr reqs s0 bytes outs s2 ->
  make_buffered dbl (lift_keyring kr) ft g g' = Some b0 ->
  dbl = true \/ in_turn p dbl ms b0 (mk_wires bytes out0 s0) ->
  perform_all p ms b0 (mk_wires bytes out0 s0) = Ok (b, x) ->
  exists fin rest received partial results,
    reqs = fin ++ rest /\ session p kr fin s0 received results (w_user x)
    /\ bytes = received ++ partial ++ w_in x
    /\ match rest with
       | [] => partial = []
       | (i, args) :: _ =>
           exists name f, nth_error (kr_funcs kr) i = Some (name, f) /\ length partial < length (packet kr i f args)
       end.
Proof.
  intros S p dbl kr ft reqs s0 bytes outs s2 out0 g g' b0 ms b x Hp Hk Hs Hses Hb Ht E.
  assert (H : exists turns, on_track p dbl kr ft reqs s0 s2 out0 turns b x).
  { destruct Ht as [Ht|Ht].
    - exists false.
      pose proof (perform_all_on_track p dbl kr ft Hp Hk Hs reqs s0 s2 out0 false (or_introl Ht) ms b0 _
                    (on_track_start S p dbl kr ft reqs s0 bytes outs s2 out0 false g g' b0 Hk Hses Hb) ltac:(discriminate)) as H.
      rewrite E in H. exact H.
    - exists true.
      pose proof (perform_all_on_track p dbl kr ft Hp Hk Hs reqs s0 s2 out0 true (or_intror eq_refl) ms b0 _
                    (on_track_start S p dbl kr ft reqs s0 bytes outs s2 out0 true g g' b0 Hk Hses Hb) (fun _ => Ht)) as H.
      rewrite E in H. exact H. }
  destruct H as (turns & a & fin & rest & bf & bytes' & outf & outs' & _ & _ & Hreqs & Hf & Hr & Hpos & _).
  assert (Eb : bytes = bf ++ bytes').
  { eapply session_bytes; [exact Hses|]. rewrite Hreqs. eapply session_app; eauto. }
  destruct rest as [|[i args] rest]; cbn [position] in Hpos.
  - destruct Hpos as [_ Hw]. inversion Hr; subst. exists fin, [], bf, [], outf. rewrite Hw. auto.
  - destruct Hpos as (name & f & j & Hn & Hj & _ & Hw).
    exists fin, ((i, args) :: rest), bf, (firstn j bytes'), outf. split; [exact Hreqs|]. split; [exact Hf|].
    split; [rewrite Hw, firstn_skipn; exact Eb|]. exists name, f. split; [exact Hn|]. rewrite firstn_length. lia.
Qed.

(** Once the wire is empty, every callback has run. *)
Theorem C43_streams : forall (S : Type) p dbl (kr : keyring S) ft reqs s0 bytes outs s2 out0 g g' b0 ms b x,
  wf_platform p -> keyring_ok p kr -> well_sized dbl kr ft -> session p kr reqs s0 bytes outs s2 ->
  make_buffered dbl (lift_keyring kr) ft g g' = Some b0 ->
  dbl = true \/ in_turn p dbl ms b0 (mk_wires bytes out0 s0) ->
  perform_all p ms b0 (mk_wires bytes out0 s0) = Ok (b, x) -> w_in x = [] ->
  w_user x = s2.
Proof.
  intros S p dbl kr ft reqs s0 bytes outs s2 out0 g g' b0 ms b x Hp Hk Hs Hses Hb Ht E Hw.
  destruct (C43_prefix S p dbl kr ft reqs s0 bytes outs s2 out0 g g' b0 ms b x Hp Hk Hs Hses Hb Ht E)
    as (fin & rest & bf & partial & outf & Hreqs & Hf & Eb & Hrest).
  rewrite Hw, app_nil_r in Eb. destruct rest as [|[i args] rest].
  - rewrite app_nil_r in Hreqs. subst fin. symmetry. eapply session_state; eauto.
  - destruct Hrest as (name & f & Hn & Hl). rewrite Hreqs in Hses.
    destruct (session_split S p kr fin ((i, args) :: rest) s0 bytes outs s2 Hses) as (b1 & o1 & s1 & b2 & o2 & H1 & H2 & E1 & _).
    assert (b1 = bf) by (eapply session_bytes; eauto). subst b1. rewrite Eb in E1. apply app_inv_head in E1. subst b2.
    inversion H2; subst. assert (f0 = f) by congruence. subst f0. rewrite app_length in Hl. lia.
Qed.

(** If no response is lost, the responses sent and the one which is pending are
    those of the local calls, in order; none is missing once all is sent. *)
Theorem C43_responses : forall (S : Type) p dbl (kr : keyring S) ft reqs s0 bytes outs s2 out0 g g' b0 ms b x,
  wf_platform p -> keyring_ok p kr -> well_sized dbl kr ft -> session p kr reqs s0 bytes outs s2 ->
  make_buffered dbl (lift_keyring kr) ft g g' = Some b0 ->
  in_turn p dbl ms b0 (mk_wires bytes out0 s0) ->
  perform_all p ms b0 (mk_wires bytes out0 s0) = Ok (b, x) ->
  exists b' x', perform p Drain b x = Ok (b', x') /\ is_loaded b' = false
    /\ (w_in x = [] -> w_out x' = out0 ++ outs)
    /\ exists fin rest received results,
         reqs = fin ++ rest /\ session p kr fin s0 received results (w_user x) /\ w_out x' = out0 ++ results.
Proof.
  intros S p dbl kr ft reqs s0 bytes outs s2 out0 g g' b0 ms b x Hp Hk Hs Hses Hb Ht E.
  pose proof (perform_all_on_track p dbl kr ft Hp Hk Hs reqs s0 s2 out0 true (or_intror eq_refl) ms b0 _
                (on_track_start S p dbl kr ft reqs s0 bytes outs s2 out0 true g g' b0 Hk Hses Hb) (fun _ => Ht)) as H.
  rewrite E in H. pose proof (lift_keyring_ok S p kr Hk) as Hk'. pose proof (lift_well_sized S dbl kr ft Hs) as Hs'.
  destruct H as (a & fin & rest & bf & bytes' & outf & outs' & H & Htab & Hreqs & Hf & Hr & Hpos & Hout).
  destruct x as [inp out s]. cbn [w_in w_out w_user] in *.
  pose proof (reached_write p dbl (lift_keyring kr) ft Hp Hk' Hs' b a (mk_wires inp out s) give_wire H) as Hw.
  rewrite give_wires in Hw. destruct Hw as (b1 & E1 & H1).
  exists b1, (mk_wires inp (out ++ mc_out a) s). split; [exact E1|].
  split; [rewrite (reached_loaded p dbl (lift_keyring kr) ft Hp Hk' Hs' b1 _ _ H1); reflexivity|].
  cbn [w_out]. rewrite (Hout eq_refl). split; [|exists fin, rest, bf, outf; auto].
  intros ->. destruct rest as [|[i args] rest].
  - rewrite app_nil_r in Hreqs. subst fin. f_equal. eapply session_outs; eauto.
  - cbn [position w_in] in Hpos. destruct Hpos as (name & f & j & Hn & Hj & _ & Hw). exfalso.
    inversion Hr as [|i' name' f' args' s' s1 r reqs' b2 o2 s'' Hn' Hc Hr']; subst.
    assert (f' = f) by congruence. subst f'. symmetry in Hw. apply (f_equal (@length Z)) in Hw.
    rewrite skipn_length, app_length in Hw. cbn in Hw. lia.
Qed.

(** The only way to fail is to read more bytes than there are. *)
Theorem C43_no_fault : forall (S : Type) p dbl (kr : keyring S) ft reqs s0 bytes outs s2 out0 g g' b0 ms flt,
  wf_platform p -> keyring_ok p kr -> well_sized dbl kr ft -> session p kr reqs s0 bytes outs s2 ->
  make_buffered dbl (lift_keyring kr) ft g g' = Some b0 ->
  dbl = true \/ in_turn p dbl ms b0 (mk_wires bytes out0 s0) ->
  perform_all p ms b0 (mk_wires bytes out0 s0) = Fault flt -> flt = NoInput.
Proof.
  intros S p dbl kr ft reqs s0 bytes outs s2 out0 g g' b0 ms flt Hp Hk Hs Hses Hb Ht E. destruct Ht as [Ht|Ht].
  - pose proof (perform_all_on_track p dbl kr ft Hp Hk Hs reqs s0 s2 out0 false (or_introl Ht) ms b0 _
                  (on_track_start S p dbl kr ft reqs s0 bytes outs s2 out0 false g g' b0 Hk Hses Hb) ltac:(discriminate)) as H.
    rewrite E in H. exact H.
  - pose proof (perform_all_on_track p dbl kr ft Hp Hk Hs reqs s0 s2 out0 true (or_intror eq_refl) ms b0 _
                  (on_track_start S p dbl kr ft reqs s0 bytes outs s2 out0 true g g' b0 Hk Hses Hb) (fun _ => Ht)) as H.
    rewrite E in H. exact H.
Qed.

(** Byte by byte. *)
Theorem C43_byte_by_byte : forall (S : Type) p (kr : keyring S) ft reqs s0 bytes outs s2 out0 g g' b0,
  wf_platform p -> keyring_ok p kr -> well_sized true kr ft -> session p kr reqs s0 bytes outs s2 ->
  make_buffered true (lift_keyring kr) ft g g' = Some b0 ->
  exists b x, perform_all p (repeat Feed (length bytes)) b0 (mk_wires bytes out0 s0) = Ok (b, x)
    /\ w_in x = [] /\ w_user x = s2.
Proof.
  intros S p kr ft reqs s0 bytes outs s2 out0 g g' b0 Hp Hk Hs Hses Hb.
  destruct (feed_all_on_track p true kr ft Hp Hk Hs reqs s0 s2 out0 false (or_introl eq_refl) (length bytes) b0
              (mk_wires bytes out0 s0) eq_refl
              (on_track_start S p true kr ft reqs s0 bytes outs s2 out0 false g g' b0 Hk Hses Hb) ltac:(cbn [w_in]; lia))
    as (b & x & E & El).
  assert (Hw : w_in x = []) by (destruct (w_in x); [reflexivity|cbn [w_in length] in El; lia]).
  exists b, x. split; [exact E|]. split; [exact Hw|].
  exact (C43_streams S p true kr ft reqs s0 bytes outs s2 out0 g g' b0 _ b x Hp Hk Hs Hses Hb (or_introl eq_refl) E Hw).
Qed.

(** The loop of a server: read a packet, send the response. *)
Theorem C43_server : forall (S : Type) p dbl (kr : keyring S) ft reqs s0 bytes outs s2 out0 g g' b0,
  wf_platform p -> keyring_ok p kr -> well_sized dbl kr ft -> session p kr reqs s0 bytes outs s2 ->
  make_buffered dbl (lift_keyring kr) ft g g' = Some b0 ->
  exists b, perform_all p (concat (repeat [Read; Drain] (length reqs))) b0 (mk_wires bytes out0 s0)
            = Ok (b, mk_wires [] (out0 ++ outs) s2).
Proof.
  intros S p dbl kr ft reqs s0 bytes outs s2 out0 g g' b0 Hp Hk Hs Hses Hb.
  pose proof (lift_keyring_ok S p kr Hk) as Hk'. pose proof (lift_well_sized S dbl kr ft Hs) as Hs'.
  assert (H : reached p dbl (lift_keyring kr) ft b0 (fresh (lift_keyring kr)) (mk_wires bytes out0 s0)).
  { eapply reached_new. exact Hb. }
  clear Hb g g'. revert b0 out0 H.
  induction Hses as [s|i name f args s s1 r reqs bytes outs s2 Hn Hc Hses IH]; intros b0 out0 H;
    cbn [length repeat concat app perform_all].
  { exists b0. rewrite app_nil_r. reflexivity. }
  cbn [perform]. pose proof (lift_calls S p kr f args s s1 r bytes out0 Hc) as Hc'.
  destruct (C39_resolved (wires S) p dbl (lift_keyring kr) ft b0 (fresh (lift_keyring kr))
              (mk_wires (packet kr i f args ++ bytes) out0 s) take_wire i (lift_func f) args 0
              (mk_wires bytes out0 s) (mk_wires bytes out0 s1) r Hp Hk' Hs' H (or_intror eq_refl)) as (b1 & E1 & H1); auto.
  { apply (table_lift kr (fresh (lift_keyring kr)) i name f); auto. }
  { rewrite lift_packet, (packet_length p kr i f args s s1 r Hc).
    destruct (index_size S kr ltac:(apply Hk)) as ((Hw & _) & _). lia. }
  { rewrite lift_packet, Nat.sub_0_r. cbn [skipn]. apply take_wires. }
  rewrite E1. cbn [bind].
  pose proof (reached_write p dbl (lift_keyring kr) ft Hp Hk' Hs' b1 _ _ give_wire H1) as Hw.
  cbn [mc_out mc_in mc_table] in Hw. rewrite give_wires in Hw. destruct Hw as (b2 & E2 & H2). rewrite E2. cbn [bind].
  destruct (IH b2 (out0 ++ answer kr f r) H2) as (b3 & E3). exists b3. rewrite app_assoc. exact E3.
Qed.

(** [in_turn], computed. *)
Fixpoint in_turn_b {S : Type} (p : platform) (dbl : bool) (ms : list duty) (b : buffered (wires S)) (x : wires S) : bool :=
  match ms with
  | [] => true
  | m :: ms' =>
      match m with
      | Feed =>
          negb (is_loaded b)
          || dbl && match '(x1, byte) <- take_wire x;; put p byte b x1 with
                    | Ok (_, _, LOADING_PACKET) => true
                    | _ => false
                    end
      | Read => negb (is_loaded b)
      | Send | Drain => true
      end
      && match perform p m b x with Ok (b', x') => in_turn_b p dbl ms' b' x' | Fault _ => true end
  end.

Lemma in_turn_b_ok : forall (S : Type) p dbl ms (b : buffered (wires S)) x,
  in_turn_b p dbl ms b x = true -> in_turn p dbl ms b x.
Proof.
  intros S p dbl. induction ms as [|m ms IH]; intros b x H; cbn [in_turn in_turn_b] in *; auto.
  apply andb_true_iff in H. destruct H as [H1 H2]. split.
  - destruct m; cbn [turn]; auto; [|destruct (is_loaded b); auto; discriminate].
    destruct (is_loaded b); cbn [negb orb] in H1; auto. right. apply andb_true_iff in H1. destruct H1 as [-> H1].
    split; auto. intros x1 byte b' x2 st E1 E2. rewrite E1 in H1. cbn [bind] in H1. rewrite E2 in H1.
    destruct st; auto; discriminate.
  - intros b' x' E. rewrite E in H2. auto.
Qed.

(** Three requests. *)
Definition ex_requests : list (nat * list val) :=
  [(0, [VInt (-2); VInt 5]); (2, [VList [VInt 1; VInt 7]]); (1, [])].
Definition ex_stream : list Z := [0; 255; 254; 5; 2; 1; 0; 7; 1]%Z.

Example ex_session :
  session pc_native ex_keyring ex_requests [] ex_stream [0; 0; 0; 3; 7; 9]%Z
    [(1, []); (2, [VList [VInt 1; VInt 7]]); (0, [VInt (-2); VInt 5])].
Proof.
  change ex_stream with (packet ex_keyring 0 ex_add [VInt (-2); VInt 5]
                         ++ packet ex_keyring 2 ex_swap [VList [VInt 1; VInt 7]] ++ packet ex_keyring 1 ex_notify [] ++ [])%Z.
  change [0; 0; 0; 3; 7; 9]%Z with (answer ex_keyring ex_add (VInt 3)
                         ++ answer ex_keyring ex_swap (VList [VInt 7; VInt 9]) ++ answer ex_keyring ex_notify (VInt 0) ++ [])%Z.
  unfold ex_requests. econstructor; [reflexivity|split; [encs|split; [reflexivity|encs]]|].
  econstructor; [reflexivity|split; [encs|split; [reflexivity|encs]]|].
  econstructor; [reflexivity|split; [encs|split; [reflexivity|exact I]]|]. constructor.
Qed.

(** Requests in pieces; the first response is sent while the second request
    arrives. *)
Definition ex_duties : list duty := [Feed; Feed; Read; Send; Feed; Send; Feed; Drain; Feed; Read; Send; Drain; Read].

Example C43_example : exists b,
  make_buffered true (lift_keyring ex_keyring) ANY [] [] = Some b
  /\ well_sized true ex_keyring ANY
  /\ in_turn pc_native true ex_duties b (mk_wires ex_stream [66]%Z [])
  /\ exists b' x, perform_all pc_native ex_duties b (mk_wires ex_stream [66]%Z []) = Ok (b', x)
     /\ w_in x = [] /\ w_out x = [66; 0; 0; 0; 3; 7; 9]%Z /\ length (w_user x) = 3.
Proof.
  eexists. split; [reflexivity|]. split; [exact (proj1 ex_well_sized)|].
  split; [apply in_turn_b_ok; vm_compute; reflexivity|].
  eexists. eexists. split; [vm_compute; reflexivity|]. vm_compute. auto.
Qed.

(** A single buffered dispatcher. *)
Example C43_example_single : exists b,
  make_buffered false (lift_keyring ex_keyring) ANY [] [] = Some b
  /\ well_sized false ex_keyring ANY
  /\ in_turn pc_native false [Feed; Feed; Read; Send; Drain; Feed; Read] b (mk_wires ex_stream [] [])
  /\ exists b' x, perform_all pc_native [Feed; Feed; Read; Send; Drain; Feed; Read] b (mk_wires ex_stream [] []) = Ok (b', x)
     /\ w_in x = [1]%Z /\ w_out x = [0; 0; 0; 3]%Z /\ length (w_user x) = 2 /\ is_loaded b' = true.
Proof.
  eexists. split; [reflexivity|]. split; [exact (proj2 ex_well_sized)|].
  split; [apply in_turn_b_ok; vm_compute; reflexivity|].
  eexists. eexists. split; [vm_compute; reflexivity|]. vm_compute. auto.
Qed.

(** A response which was not sent is lost when the next packet is completed:
    the callbacks ran all the same. *)
Example C43_lost_response : exists b,
  make_buffered true (lift_keyring ex_keyring) ANY [] [] = Some b
  /\ exists b' x, perform_all pc_native [Read; Read; Drain] b (mk_wires ex_stream [] []) = Ok (b', x)
     /\ w_out x = [7; 9]%Z /\ length (w_user x) = 2.
Proof.
  eexists. split; [reflexivity|]. eexists. eexists. split; [vm_compute; reflexivity|]. vm_compute. auto.
Qed.

Print Assumptions C43_prefix.
Print Assumptions C43_streams.
Print Assumptions C43_responses.
Print Assumptions C43_no_fault.
Print Assumptions C43_byte_by_byte.
Print Assumptions C43_server.
