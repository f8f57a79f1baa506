(** Property C62: the interrupt handlers of the documentation. *)

From Coq Require Import List ZArith Lia Bool Arith.
From Verif Require Import Base CInt Spec IntModel Conditions MemFacts TypeLevel Serial TupleModel
  TypeLevelProofs IntProofs SignedProofs SerialProofs CodecFacts Bounds TupleProofs SpecRpc Rpc RpcProofs
  Hosts Closed PropertiesTypes PropertiesRpc Buffered SpecBuffered BufferedProofs PropertiesBuffered
  PropertiesBuffers PropertiesPackets PropertiesStreams Exceptions PropertiesExceptions ReEntrant Interrupts
  PropertiesInterrupts Firmware.
Import ListNotations.
Open Scope nat_scope.

(** ** Specification of C62 *)

(** The bytes received, the number of bytes sent. *)
Fixpoint bytes_received (es : list event) : list Z :=
  match es with
  | [] => []
  | Received byte :: es' => byte :: bytes_received es'
  | Sent :: es' => bytes_received es'
  end.
Fixpoint bytes_sent (es : list event) : nat :=
  match es with
  | [] => 0
  | Received _ :: es' => bytes_sent es'
  | Sent :: es' => S (bytes_sent es')
  end.

(** [n] bytes of a response, or zeros once it has been sent. *)
Definition sends (n : nat) (out : list Z) : list Z := firstn n (out ++ repeat 0%Z n).

(** What the events make of the world and of the wire, [out] being what remains
    of a response: each request which is completed replaces what remains of the
    previous response, and the first byte of its response (or a zero) is sent
    at once. *)
Inductive dialogue {X : Type} (p : platform) (kr : keyring X) (table : list (func X))
  : list event -> X -> list Z -> list Z -> X -> list Z -> Prop :=
| dialogue_rest : forall es x out i ss,
    receives (format_of kr) table [] (bytes_received es) = Some (i, ss) -> Forall is_byte (bytes_received es) ->
    dialogue p kr table es x out (sends (bytes_sent es) out) x (skipn (bytes_sent es) out)
| dialogue_request : forall es byte es' x out i ss k f args x1 r wire x2 out2,
    receives (format_of kr) table [] (bytes_received es) = Some (i, ss) -> Forall is_byte (bytes_received es) ->
    nth_error table k = Some f -> calls p kr f args x x1 r -> i ++ [byte] = packet kr k f args ->
    dialogue p kr table es' x1 (tl (answer kr f r)) wire x2 out2 ->
    dialogue p kr table (es ++ Received byte :: es') x out
      (sends (bytes_sent es) out ++ hd 0%Z (answer kr f r) :: wire) x2 out2.

(** Events which leave the time for each response to be sent before the next
    request is completed; no callback returns [void], no request is dropped. *)
Inductive schedule {X : Type} (p : platform) (kr : keyring X) (table : list (func X))
  : list event -> X -> list Z -> list (list Z) -> X -> Prop :=
| schedule_idle : forall n x out, length out <= n -> schedule p kr table (repeat Sent n) x out [] x
| schedule_request : forall es byte es' x out k f args x1 r resps x2,
    length out <= bytes_sent es -> nth_error table k = Some f -> calls p kr f args x x1 r ->
    bytes_received es ++ [byte] = packet kr k f args -> answer kr f r <> [] ->
    schedule p kr table es' x1 (tl (answer kr f r)) resps x2 ->
    schedule p kr table (es ++ Received byte :: es') x out (answer kr f r :: resps) x2.

(** Responses, with zeros before and after each. *)
Inductive padded : list (list Z) -> list Z -> Prop :=
| padded_nil : forall n, padded [] (repeat 0%Z n)
| padded_cons : forall n resp resps wire, padded resps wire -> padded (resp :: resps) (repeat 0%Z n ++ resp ++ wire).

Lemma sends_more : forall n out, length out <= n -> sends n out = out ++ repeat 0%Z (n - length out).
Proof.
  intros n out H. unfold sends. rewrite firstn_app, firstn_all2 by lia. f_equal.
  replace n with ((n - length out) + length out) at 2 by lia. rewrite repeat_app.
  rewrite <- (repeat_length 0%Z (n - length out)) at 1. apply firstn_app_exact.
Qed.

Lemma sends_S : forall n out, sends (S n) out = hd 0%Z out :: sends n (tl out).
Proof.
  intros n [|c out]; unfold sends; cbn [hd tl app repeat firstn]; auto.
  f_equal. change (0%Z :: repeat 0%Z n) with (repeat 0%Z (S n)).
  replace (S n) with (n + 1) by lia. rewrite repeat_app, app_assoc.
  rewrite firstn_app. replace (n - length (out ++ repeat 0%Z n)) with 0.
  - apply app_nil_r.
  - rewrite app_length, repeat_length. lia.
Qed.

Lemma skipn_tl : forall (A : Type) n (l : list A), skipn (S n) l = skipn n (tl l).
Proof. intros A n [|c l]; cbn [skipn tl]; auto. destruct n; reflexivity. Qed.

Lemma bytes_received_app : forall es es', bytes_received (es ++ es') = bytes_received es ++ bytes_received es'.
Proof. induction es as [|[byte|] es IH]; intros es'; cbn; rewrite ?IH; reflexivity. Qed.

Lemma bytes_received_sent : forall n, bytes_received (repeat Sent n) = [].
Proof. induction n; cbn; auto. Qed.
Lemma bytes_sent_repeat : forall n, bytes_sent (repeat Sent n) = n.
Proof. induction n; cbn; auto. Qed.

Section Slave.
  Context {X : Type}.
  Variables (p : platform) (kr : keyring X) (ft : action_features).
  Hypothesis Hp : wf_platform p.
  Hypothesis Hk : keyring_ok p kr.
  Hypothesis Hs : well_sized true kr ft.
  Let fm : format := format_of kr.

  Lemma send_next_ok : forall b i out table x wire, reached p true kr ft b (mk_machine i out table) x ->
    exists b', send_next (mk_station b x wire) = Ok (mk_station b' x (wire ++ [hd 0%Z out]))
      /\ reached p true kr ft b' (mk_machine i (tl out) table) x.
  Proof.
    intros b i out table x wire H.
    destruct (reached_step p true kr ft Hp Hk Hs Get b (mk_machine i out table) x
                (mk_machine i (tl out) table) x (OByte (hd 0%Z out)) H) as (b' & E & H').
    - split; [exact I|]. right. exact I.
    - destruct out; reflexivity.
    - exists b'. split; auto. unfold send_next. cbn [st_b st_x st_wire]. cbn [step] in E. ok_inv E q. destruct q as [b1 c].
      rewrite ?E0. cbn [bind]. congruence.
  Qed.

  Lemma on_byte_loading : forall b i out table x wire byte i' ss, reached p true kr ft b (mk_machine i out table) x ->
    is_byte byte -> receives fm table i [byte] = Some (i', ss) ->
    exists b', on_byte_received p byte (mk_station b x wire) = Ok (mk_station b' x wire)
      /\ reached p true kr ft b' (mk_machine i' out table) x.
  Proof.
    intros b i out table x wire byte i' ss H Hb Hr.
    destruct (handle_ok p kr ft Hp Hk Hs [byte] b (mk_machine i out table) x [] i' ss H) as (b' & E & H' & _); auto.
    exists b'. split; auto. unfold on_byte_received. cbn [st_b st_x st_wire].
    cbn [handle] in E. ok_inv E q. destruct q as [[b1 x1] s]. rewrite ?E0. cbn [bind]. cbn [app] in E.
    assert (b1 = b' /\ x1 = x /\ ss = [s]) as (-> & -> & ->) by (split; [|split]; congruence).
    cbn [receives] in Hr. destruct (examine fm table (i ++ [byte])); cbn [option_map fst snd] in Hr;
      try discriminate; injection Hr as _ <-; reflexivity.
  Qed.

  (** Events none of which completes a request. *)
  Lemma on_events_loading : forall es b i out table x wire i' ss, reached p true kr ft b (mk_machine i out table) x ->
    Forall is_byte (bytes_received es) -> receives fm table i (bytes_received es) = Some (i', ss) ->
    exists b', on_events p es (mk_station b x wire) = Ok (mk_station b' x (wire ++ sends (bytes_sent es) out))
      /\ reached p true kr ft b' (mk_machine i' (skipn (bytes_sent es) out) table) x.
  Proof.
    induction es as [|[byte|] es IH]; intros b i out table x wire i' ss H Hb Hr.
    - cbn [bytes_received receives] in Hr. injection Hr as <- _. exists b. cbn [on_events bytes_sent skipn].
      unfold sends. cbn [firstn]. rewrite app_nil_r. auto.
    - cbn [bytes_received] in Hb, Hr. inversion Hb as [|c l Hb1 Hb2 Ec]; subst c l. change (byte :: bytes_received es) with ([byte] ++ bytes_received es) in Hr.
      rewrite receives_app in Hr. destruct (receives fm table i [byte]) as [[i1 ss1]|] eqn:E1; [|discriminate].
      destruct (receives fm table i1 (bytes_received es)) as [[i2 ss2]|] eqn:E2; [|discriminate].
      cbn [option_map fst] in Hr. injection Hr as <- _.
      destruct (on_byte_loading b i out table x wire byte i1 ss1 H) as (b1 & E & H1); auto.
      destruct (IH b1 i1 out table x wire i2 ss2 H1) as (b2 & E' & H2); auto.
      exists b2. cbn [on_events on_event]. rewrite E. cbn [bind bytes_sent]. auto.
    - cbn [bytes_received] in Hb, Hr. destruct (send_next_ok b i out table x wire H) as (b1 & E & H1).
      destruct (IH b1 i (tl out) table x (wire ++ [hd 0%Z out]) i' ss H1) as (b2 & E' & H2); auto.
      exists b2. cbn [on_events on_event bytes_sent]. unfold on_byte_sent. rewrite E. cbn [bind].
      rewrite E', <- app_assoc, sends_S, skipn_tl. auto.
  Qed.

  (** The byte which completes a request. *)
  Lemma on_byte_resolved : forall b i out table x wire byte k f args x1 r, reached p true kr ft b (mk_machine i out table) x ->
    nth_error table k = Some f -> calls p kr f args x x1 r -> i ++ [byte] = packet kr k f args ->
    exists b', on_byte_received p byte (mk_station b x wire) = Ok (mk_station b' x1 (wire ++ [hd 0%Z (answer kr f r)]))
      /\ reached p true kr ft b' (mk_machine [] (tl (answer kr f r)) table) x1.
  Proof.
    intros b i out table x wire byte k f args x1 r H Hi Hc Hin.
    pose proof (reached_table p true kr ft Hp Hk Hs b _ x H) as Ht. cbn [mc_table] in Ht.
    destruct (received_packet p kr Hk table Ht k f args x x1 r (mk_machine i out table) Hi Hc eq_refl) as [Hr Hserv].
    assert (Hb : is_byte byte).
    { pose proof (packet_bytes kr k f args) as Hb. rewrite <- Hin in Hb. apply Forall_app in Hb. destruct Hb as [_ Hb].
      inversion Hb. auto. }
    destruct (reached_step p true kr ft Hp Hk Hs (Put byte) b (mk_machine i out table) x
                (mk_machine [] (answer kr f r) table) x1 (OStatus RESOLVED_PACKET) H) as (b1 & E1 & H1).
    { split; [|left; reflexivity]. cbn [step_ok mc_in mc_table]. rewrite Hin. auto. }
    { cbn [mc_step]. unfold mc_put. cbn [mc_in]. rewrite Hin, Hr. reflexivity. }
    destruct (send_next_ok b1 [] (answer kr f r) table x1 wire H1) as (b2 & E2 & H2).
    exists b2. split; auto. unfold on_byte_received. cbn [st_b st_x st_wire].
    cbn [step] in E1. ok_inv E1 q. destruct q as [[b' y] s]. rewrite ?E. cbn [bind].
    assert (b' = b1 /\ y = x1 /\ s = RESOLVED_PACKET) as (-> & -> & ->) by (split; [|split]; congruence).
    exact E2.
  Qed.

  Lemma on_events_app : forall es es' (s : station X),
    on_events p (es ++ es') s = (s' <- on_events p es s;; on_events p es' s').
  Proof.
    induction es as [|e es IH]; intros es' s; cbn [app on_events bind]; auto.
    destruct (on_event p e s) as [s1|]; cbn [bind]; auto.
  Qed.

  Lemma dialogue_ok : forall table es x out wire x' out', dialogue p kr table es x out wire x' out' ->
    forall b wire0, reached p true kr ft b (mk_machine [] out table) x ->
    exists b' i, on_events p es (mk_station b x wire0) = Ok (mk_station b' x' (wire0 ++ wire))
      /\ reached p true kr ft b' (mk_machine i out' table) x'.
  Proof.
    intros table es x out wire x' out' D. induction D as [es x out i ss Hr Hb|es byte es' x out i ss k f args x1 r wire x2 out2 Hr Hb Hi Hc Hin D IH];
      intros b wire0 H.
    - destruct (on_events_loading es b [] out table x wire0 i ss H Hb Hr) as (b' & E & H'). eauto.
    - destruct (on_events_loading es b [] out table x wire0 i ss H Hb Hr) as (b1 & E1 & H1).
      destruct (on_byte_resolved b1 i _ table x (wire0 ++ sends (bytes_sent es) out) byte k f args x1 r H1 Hi Hc Hin) as (b2 & E2 & H2).
      destruct (IH b2 ((wire0 ++ sends (bytes_sent es) out) ++ [hd 0%Z (answer kr f r)]) H2) as (b3 & i3 & E3 & H3).
      exists b3, i3. split; auto. rewrite on_events_app, E1. cbn [bind on_events on_event]. rewrite E2. cbn [bind].
      rewrite E3. rewrite <- !app_assoc. reflexivity.
  Qed.

  (** A request which is not complete. *)
  Lemma receives_prefix : forall table k f args x x1 r n, map f_sig table = kr_signatures kr ->
    nth_error table k = Some f -> calls p kr f args x x1 r -> n < length (packet kr k f args) ->
    receives fm table [] (firstn n (packet kr k f args)) = Some (firstn n (packet kr k f args), repeat LOADING_PACKET n).
  Proof.
    intros table k f args x x1 r n Ht Hi Hc. induction n as [|n IH]; intros Hn; [reflexivity|].
    destruct (firstn_skipn_next _ (packet kr k f args) n ltac:(lia)) as (byte & _ & E2).
    rewrite <- E2 at 1. rewrite receives_app, IH by lia. cbn [receives]. rewrite E2.
    unfold fm. rewrite (PropertiesPackets.examine_prefix p kr Hk table Ht k f args x x1 r (S n) Hi Hc Hn).
    cbn [option_map fst snd]. replace (S n) with (n + 1) at 3 by lia. rewrite repeat_app. reflexivity.
  Qed.

  Lemma schedule_dialogue : forall table es x out resps x', map f_sig table = kr_signatures kr ->
    schedule p kr table es x out resps x' ->
    exists wire, dialogue p kr table es x out (out ++ wire) x' [] /\ padded resps wire.
  Proof.
    intros table es x out resps x' Ht S.
    induction S as [n x out Hn|es byte es' x out k f args x1 r resps x2 Hn Hi Hc Hin Hne S IH].
    - exists (repeat 0%Z (n - length out)). split; [|constructor].
      rewrite <- sends_more by auto. rewrite <- (bytes_sent_repeat n) at 2.
      replace ([] : list Z) with (skipn (bytes_sent (repeat Sent n)) out) by (rewrite bytes_sent_repeat; apply skipn_all2; auto).
      apply dialogue_rest with (i := []) (ss := []); rewrite bytes_received_sent; auto.
    - destruct IH as (wire & D & P).
      exists (repeat 0%Z (bytes_sent es - length out) ++ answer kr f r ++ wire). split; [|constructor; auto].
      assert (Hl : length (bytes_received es) < length (packet kr k f args)).
      { rewrite <- Hin, app_length. cbn [length]. lia. }
      assert (Hf : bytes_received es = firstn (length (bytes_received es)) (packet kr k f args)).
      { rewrite <- Hin. symmetry. apply firstn_app_exact. }
      assert (Hb : Forall is_byte (bytes_received es)).
      { pose proof (packet_bytes kr k f args) as Hb. rewrite <- Hin in Hb. apply Forall_app in Hb. apply Hb. }
      replace (out ++ repeat 0%Z (bytes_sent es - length out) ++ answer kr f r ++ wire)
        with (sends (bytes_sent es) out ++ hd 0%Z (answer kr f r) :: tl (answer kr f r) ++ wire).
      + apply dialogue_request with (i := bytes_received es) (ss := repeat LOADING_PACKET (length (bytes_received es)))
          (k := k) (args := args) (x1 := x1); auto.
        rewrite Hf at 1. rewrite (receives_prefix table k f args x x1 r) by auto. rewrite <- Hf. reflexivity.
      + rewrite sends_more, <- app_assoc by auto. do 2 f_equal. destruct (answer kr f r); [congruence|reflexivity].
  Qed.
End Slave.

(** ** C62 *)

(** The program of the documentation never fails; what it sends is determined
    by the requests and by the number of bytes sent between their ends. *)
Theorem C62_wire : forall (X : Type) p (kr : keyring X) ft b a x es wire x' out' wire0,
  wf_platform p -> keyring_ok p kr -> well_sized true kr ft -> reached p true kr ft b a x -> mc_in a = [] ->
  dialogue p kr (mc_table a) es x (mc_out a) wire x' out' ->
  exists b', on_events p es (mk_station b x wire0) = Ok (mk_station b' x' (wire0 ++ wire))
    /\ is_loaded b' = negb (length out' =? 0).
Proof.
  intros X p kr ft b [i out table] x es wire x' out' wire0 Hp Hk Hs H Hin D. cbn [mc_in mc_out mc_table] in *. subst i.
  destruct (dialogue_ok p kr ft Hp Hk Hs table es x out wire x' out' D b wire0 H) as (b' & i & E & H').
  exists b'. split; auto. rewrite (reached_loaded p true kr ft Hp Hk Hs b' _ x' H'). destruct out'; reflexivity.
Qed.

(** Full statement: the master receives the responses, one after the other, and
    nothing else.  It is false (C62_refuted).  Proved: when each response has
    been sent before the next request is completed and no response is empty,
    the master receives each response whole, in order, and zeros between
    them. *)
Theorem C62_responses_partial : forall (X : Type) p (kr : keyring X) ft g g' b x es resps x',
  wf_platform p -> keyring_ok p kr -> well_sized true kr ft -> make_double kr ft g g' = Some b ->
  schedule p kr (map snd (kr_funcs kr)) es x [] resps x' ->
  exists b' wire, on_events p es (mk_station b x []) = Ok (mk_station b' x' wire)
    /\ padded resps wire /\ is_loaded b' = false.
Proof.
  intros X p kr ft g g' b x es resps x' Hp Hk Hs Hb S.
  assert (H : reached p true kr ft b (fresh kr) x) by (apply (reached_new p true kr ft g g' b x); auto).
  pose proof (reached_table p true kr ft Hp Hk Hs b _ x H) as Ht. cbn [mc_table fresh] in Ht.
  destruct (schedule_dialogue p kr Hk _ es x [] resps x' Ht S) as (wire & D & P). cbn [app] in D.
  destruct (C62_wire X p kr ft b (fresh kr) x es wire x' [] [] Hp Hk Hs H eq_refl D) as (b' & E & L).
  exists b', wire. auto.
Qed.

(** The callbacks of the example are called in this order: the response of each
    is received whole, between zeros. *)
Definition ex_busy : list event :=
  [Received 0; Received 255; Received 254; Received 5; Sent; Sent; Received 2; Sent; Received 1; Sent; Received 0;
   Received 2; Sent; Sent]%Z.

Lemma ex_busy_schedule : schedule pc_native ex_keyring (map snd (kr_funcs ex_keyring)) ex_busy [] []
  [[0; 0; 0; 3]; [7; 9]]%Z [(2, [VList [VInt 1; VInt 2]]); (0, [VInt (-2); VInt 5])].
Proof.
  apply schedule_request with (es := [Received 0; Received 255; Received 254]%Z) (byte := 5%Z)
    (es' := [Sent; Sent; Received 2; Sent; Received 1; Sent; Received 0; Received 2; Sent; Sent]%Z)
    (k := 0) (f := ex_add) (args := [VInt (-2); VInt 5]) (x1 := [(0, [VInt (-2); VInt 5])]) (r := VInt 3).
  - vm_compute. lia.
  - reflexivity.
  - split; [|split; [reflexivity|]]; cbn [f_sig ex_add sig_params sig_ret ret_encodable]; encs.
  - vm_compute. reflexivity.
  - vm_compute. discriminate.
  - apply schedule_request with (es := [Sent; Sent; Received 2; Sent; Received 1; Sent; Received 0]%Z) (byte := 2%Z)
      (es' := repeat Sent 2) (k := 2) (f := ex_swap) (args := [VList [VInt 1; VInt 2]])
      (x1 := [(2, [VList [VInt 1; VInt 2]]); (0, [VInt (-2); VInt 5])]) (r := VList [VInt 7; VInt 9]).
    + vm_compute. lia.
    + reflexivity.
    + split; [|split; [reflexivity|]]; cbn [f_sig ex_swap sig_params sig_ret ret_encodable]; encs.
    + vm_compute. reflexivity.
    + vm_compute. discriminate.
    + apply schedule_idle. vm_compute. lia.
Qed.

Example C62_example : exists b b',
  keyring_ok pc_native ex_keyring /\ well_sized true ex_keyring ANY /\ make_double ex_keyring ANY [] [] = Some b
  /\ schedule pc_native ex_keyring (map snd (kr_funcs ex_keyring)) ex_busy [] []
       [[0; 0; 0; 3]; [7; 9]]%Z [(2, [VList [VInt 1; VInt 2]]); (0, [VInt (-2); VInt 5])]
  /\ on_events pc_native ex_busy (mk_station b [] [])
     = Ok (mk_station b' [(2, [VList [VInt 1; VInt 2]]); (0, [VInt (-2); VInt 5])] [0; 0; 0; 3; 0; 7; 9; 0]%Z).
Proof.
  do 2 eexists. split; [exact ex_keyring_ok|]. split; [exact (proj1 ex_well_sized)|]. split; [reflexivity|].
  split; [exact ex_busy_schedule|]. vm_compute. reflexivity.
Qed.

(** test/snippet/motion_keyring1.hpp *)
Definition motion (name : nat) : func log := mk_func (mk_sig [TUns 4] None) (fun args s => ((name, args) :: s, VInt 0)).
Definition motion_keyring : keyring log :=
  mk_keyring LITTLE TWOS_COMPLEMENT [(0, motion 0); (1, motion 1); (2, motion 2)].

Lemma motion_keyring_ok : keyring_ok pc_native motion_keyring.
Proof.
  split; [vm_compute; reflexivity|]. unfold motion_keyring. cbn [kr_funcs kr_e kr_m].
  list_cases; split; cbn [snd f_sig sig_params sig_ret motion ret_ty_ok]; tyoks.
Qed.

Lemma motion_well_sized : well_sized true motion_keyring ANY.
Proof.
  unfold well_sized, motion_keyring, kr_signatures; cbn [kr_funcs map snd]; list_cases;
    (split; [discriminate|]); vm_compute; lia.
Qed.

(** Both ways in which the full statement fails are met with the callbacks and
    the first request of the documentation: there is no response, since the callbacks
    return [void], and yet a byte is sent; once it has been sent, the handler
    of sent bytes sends another one, and so on for ever. *)
Theorem C62_refuted : exists b es,
  make_double motion_keyring ANY [] [] = Some b /\ bytes_received es = [0; 32; 78; 0; 0]%Z /\ bytes_sent es = 0
  /\ Forall (fun nf => sig_ret (f_sig (snd nf)) = None) (kr_funcs motion_keyring)
  /\ forall n, exists b',
       on_events pc_native (es ++ repeat Sent n) (mk_station b [] [])
       = Ok (mk_station b' [(0, [VInt 20000])] (repeat 0%Z (S n))).
Proof.
  eexists. exists [Received 0; Received 32; Received 78; Received 0; Received 0]%Z.
  split; [reflexivity|]. split; [reflexivity|]. split; [reflexivity|]. split; [repeat constructor|]. intros n.
  assert (D : dialogue pc_native motion_keyring (map snd (kr_funcs motion_keyring))
    ([Received 0; Received 32; Received 78; Received 0]%Z ++ Received 0%Z :: repeat Sent n) [] []
    (sends 0 [] ++ hd 0%Z (answer motion_keyring (motion 0) (VInt 0)) :: repeat 0%Z n) [(0, [VInt 20000])] []).
  { apply dialogue_request with (i := [0; 32; 78; 0]%Z) (ss := repeat LOADING_PACKET 4) (k := 0) (args := [VInt 20000])
      (x1 := [(0, [VInt 20000])]).
    - vm_compute. reflexivity.
    - repeat constructor; range.
    - reflexivity.
    - split; [|split; [reflexivity|exact I]]. cbn [f_sig motion sig_params]. encs.
    - vm_compute. reflexivity.
    - pose proof (dialogue_rest pc_native motion_keyring (map snd (kr_funcs motion_keyring)) (repeat Sent n)
        [(0, [VInt 20000])] [] [] []) as D. rewrite bytes_received_sent, bytes_sent_repeat, skipn_nil in D.
      rewrite sends_more in D by (cbn [length]; lia). cbn [length app] in D. rewrite Nat.sub_0_r in D. apply D; auto. }
  destruct (C62_wire log pc_native motion_keyring ANY _ (fresh motion_keyring) [] _ _ _ _ [] pc_native_wf motion_keyring_ok
    motion_well_sized (reached_new pc_native true motion_keyring ANY [] [] _ [] eq_refl) eq_refl D) as (b' & E & _).
  exists b'. exact E.
Qed.

(** A response which has not been sent when the next request is completed is
    cut: here 0 0 0 3 is. *)
Theorem C62_cut_refuted : exists b b',
  make_double ex_keyring ANY [] [] = Some b
  /\ on_events pc_native [Received 0; Received 255; Received 254; Received 5; Sent; Received 1; Sent; Sent]%Z (mk_station b [] [])
     = Ok (mk_station b' [(1, []); (0, [VInt (-2); VInt 5])] [0; 0; 0; 0; 0]%Z)
  /\ is_loaded b' = false.
Proof. do 2 eexists. split; [reflexivity|]. split; vm_compute; reflexivity. Qed.

Print Assumptions C62_wire.
Print Assumptions C62_responses_partial.
Print Assumptions C62_refuted.
Print Assumptions C62_cut_refuted.
