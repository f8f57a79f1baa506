(** Property C114: any program which uses a buffered dispatcher, statement by
    statement. *)

From Coq Require Import List ZArith Lia Bool Arith ZifyBool ZifyNat String.
From Verif Require Import Base CInt Spec Conditions MemFacts TypeLevel TypeLevelProofs IntProofs Serial TupleModel SerialProofs Bounds SpecRpc Rpc RpcProofs
  TupleProofs Hosts Closed PropertiesTypes PropertiesRpc Buffered SpecBuffered BufferedProofs PropertiesBuffered
  PropertiesBuffers Counters PropertiesCounters PropertiesPackets PropertiesReply.
From Verif Require Cpp Templates Library LibraryProofs PropertiesLibrary PropertiesSource PropertiesMethods.
From Verif Require Import Classes Methods Program Replies ProgramProofs PropertiesProgram PropertiesReplies.
From Verif Require Firmware PropertiesFirmware PropertiesStreams PropertiesCallee PropertiesRecovery PropertiesTransmissions.
From Verif Require Import Clients.
Import ListNotations.
Open Scope string_scope.
Open Scope list_scope.
Open Scope nat_scope.

(** ** Specification *)

(** [P] holds of each call the program makes, [call] being what they do. *)
Fixpoint along_client {E V S X A : Type} (call : E -> S -> X -> res (S * X * V)) (P : E -> S -> X -> Prop)
    (c : client E V X A) (s : S) (x : X) : Prop :=
  match c with
  | Finish _ | Fails _ => True
  | Look next => along_client call P (next x) s x
  | Use e next => P e s x /\ forall s' x' v, call e s x = Ok (s', x', v) -> along_client call P (next v) s' x'
  end.

(** The abstract machine, with whether its response is untouched. *)
Definition mc_call {X : Type} (fm : format) (e : event X) (a : machine X * bool) (x : X)
    : res (machine X * bool * X * obs) :=
  mc_event fm e (fst a) (snd a) x.

(** What the program has made of the world and its result. *)
Definition outcome {S X A : Type} (r : res (S * X * A)) : res (X * A) :=
  match r with
  | Ok (_, x, a) => Ok (x, a)
  | Fault f => Fault f
  end.

(** ** Simulation *)

Section Simulation.
  Context {E V S T X A : Type}.
  Variables (call : E -> S -> X -> res (S * X * V)) (call' : nat -> E -> T -> X -> res (T * X * V)).
  Variables (R : S -> T -> Prop) (P : E -> S -> X -> Prop).
  Hypothesis one : forall e s t x, R s t -> P e s x -> call e s x <> Fault OutOfFuel ->
    match call e s x with
    | Ok (s', x', v) => exists t', R s' t' /\ exists m, forall fuel, m <= fuel -> call' fuel e t x = Ok (t', x', v)
    | Fault f => exists m, forall fuel, m <= fuel -> call' fuel e t x = Fault f
    end.

  Lemma client_ok : forall (c : client E V X A) s t x, R s t -> along_client call P c s x ->
    run_client call c s x <> Fault OutOfFuel ->
    match run_client call c s x with
    | Ok (s', x', r) => exists t', R s' t' /\ exists m, forall fuel, m <= fuel -> run_client (call' fuel) c t x = Ok (t', x', r)
    | Fault f => exists m, forall fuel, m <= fuel -> run_client (call' fuel) c t x = Fault f
    end.
  Proof.
    induction c as [r|f|next IH|e next IH]; intros s t x HR HP HN; cbn [run_client along_client] in *.
    - exists t. split; [exact HR|]. exists 0. reflexivity.
    - exists 0. reflexivity.
    - exact (IH x s t x HR HP HN).
    - destruct HP as [HP HPn].
      assert (N : call e s x <> Fault OutOfFuel) by (intros Z; rewrite Z in HN; apply HN; reflexivity).
      pose proof (one e s t x HR HP N) as O. destruct (call e s x) as [[[s' x'] v]|f]; cbn [bind] in *.
      + destruct O as (t' & HR' & m & O). specialize (IH v s' t' x' HR' (HPn s' x' v eq_refl) HN).
        destruct (run_client call (next v) s' x') as [[[s2 x2] r]|f].
        * destruct IH as (t2 & HR2 & m' & I). exists t2. split; [exact HR2|]. exists (Nat.max m m'). intros fuel Hf.
          rewrite O by lia. cbn [bind]. apply I. lia.
        * destruct IH as (m' & I). exists (Nat.max m m'). intros fuel Hf. rewrite O by lia. cbn [bind]. apply I. lia.
      + destruct O as (m & O). exists m. intros fuel Hf. rewrite O by exact Hf. reflexivity.
  Qed.
End Simulation.

(** ** The states *)

Section States.
  Context {X : Type}.
  Variables (p : platform) (sz : nat) (dbl : bool) (kr : keyring X) (ft : action_features) (g g' : list Z) (b : buffered X).
  Hypothesis Hp : wf_platform p.
  Hypothesis Hs : p_int_size p <= sz <= 8.
  Hypothesis Hk : keyring_ok p kr.
  Hypothesis Hb : make_buffered dbl kr ft g g' = Some b.
  Hypothesis Hi : (Z.of_nat (List.length (ibuf (b_bufs b))) < 2 ^ (8 * Z.of_nat sz))%Z.
  Hypothesis Hd : Forall (fun nf => described sz (snd nf)) (kr_funcs kr).

  Lemma input_length : List.length (ibuf (b_bufs b)) = max_native kr + kr_index_size kr.
  Proof.
    destruct (make_buffered_spec dbl kr ft g g' b Hb) as (bufs & Eb & _ & Hli & _).
    rewrite Eb. cbn [init_buffered b_bufs]. rewrite Hli. lia.
  Qed.

  Lemma room_small : small sz (max_native kr + kr_index_size kr).
  Proof. pose proof Hi as Hi'. rewrite input_length in Hi'. exact Hi'. Qed.

  Lemma indices : 1 <= kr_index_size kr.
  Proof. apply (index_size X kr (proj1 Hk)). Qed.

  Lemma indices_small : small sz (kr_index_size kr).
  Proof. pose proof room_small. unfold small in *. lia. Qed.

  Lemma inputs_small : forall s a n, In s (kr_signatures kr) -> conform_action kr ft s a -> input_size a = Ok n -> small sz n.
  Proof.
    assert (Hwire : Forall (fun s => (Z.of_nat (wire_sizes (sig_params s)) < sizes sz)%Z) (kr_signatures kr)).
    { unfold kr_signatures. rewrite Forall_map. pose proof Hd as Hd'. rewrite Forall_forall in Hd' |- *. intros nf Hin.
      destruct (Hd' nf Hin) as [[_ Hz] _]. destruct Hk as [_ Hk']. rewrite Forall_forall in Hk'. destruct (Hk' nf Hin) as [Hok _].
      rewrite (tuple_size_wire (sig_params (f_sig (snd nf)))) in Hz by (eapply tys_layout; eauto).
      assert (S1 : 1 <= sz) by (destruct Hp; lia).
      pose proof (space_half sz S1) as E. pose proof (half_pos sz S1) as P. unfold sizes. rewrite <- space_pow2.
      clear - Hz E P. lia. }
    intros s a n Hin (f & Ef & Ea) Hn. subst a. pose proof room_small as Hr. unfold small in *.
    destruct ft; cbn [make_action input_size m_func] in Hn; injection Hn as <-.
    + rewrite tuple_size_wire.
      * rewrite Ef. rewrite Forall_forall in Hwire. auto.
      * rewrite Ef. eapply tys_layout. apply (keyring_sig p kr Hk s Hin).
    + rewrite parameters_native, Ef. pose proof (native_le kr s Hin). lia.
  Qed.

  Lemma new_countable : PropertiesCounters.countable sz kr ft b.
  Proof.
    pose proof room_small as Hr. destruct (index_size X kr (proj1 Hk)) as ((H1 & _) & _).
    destruct (make_buffered_spec dbl kr ft g g' b Hb) as (bufs & Eb & Hdb & Hli & Hlo).
    rewrite Eb. unfold PropertiesCounters.countable.
    cbn [init_buffered b_dispatcher b_bufs b_load_count make_dispatcher d_keyring d_features].
    split; [reflexivity|]. split; [reflexivity|]. split; [apply make_dispatcher_conform|].
    unfold small, index_length in *. cbn [make_dispatcher d_keyring].
    assert (List.length (obuf bufs) <= List.length (ibuf bufs)) by (rewrite Hli, Hlo; unfold out_capacity; destruct dbl; lia).
    repeat split; lia.
  Qed.

  Definition fits_all (b1 : buffered X) : Prop :=
    exists n, forall fuel, n <= fuel -> Forall (action_fits sz fuel) (d_actions (b_dispatcher b1)).

  Definition sound (b1 : buffered X) (s : members X) : Prop :=
    s = in_size_t b1 /\ PropertiesCounters.countable sz kr ft b1 /\ fits_all b1.

  Lemma new_sound : sound b (init_members (make_dispatcher kr ft) (b_bufs b)).
  Proof.
    destruct (make_buffered_spec dbl kr ft g g' b Hb) as (bufs & Eb & _).
    split; [rewrite Eb; reflexivity|]. split; [exact new_countable|].
    destruct (all_described_fit X sz (map snd (kr_funcs kr))) as (n & Hn); [rewrite Forall_map; exact Hd|].
    exists n. intros fuel Hf. rewrite Eb. cbn [init_buffered b_dispatcher]. apply new_actions_fit. apply Hn. exact Hf.
  Qed.

  Lemma call_sound : forall (o : op X) b1 s x, sound b1 s -> Forall (described sz) (op_func o) ->
    step p o b1 x <> Fault OutOfFuel ->
    match step p o b1 x with
    | Ok (b2, x', v) => exists s', sound b2 s' /\ exists m, forall fuel, m <= fuel -> step_event p sz fuel (Do o) s x = Ok (s', x', v)
    | Fault f => exists m, forall fuel, m <= fuel -> step_event p sz fuel (Do o) s x = Fault f
    end.
  Proof.
    intros o b1 s x (-> & C & n1 & H1) Ho N.
    destruct (all_described_fit X sz (op_func o) Ho) as (n2 & H2).
    destruct (step_eq p sz kr ft indices indices_small inputs_small o b1 x C) as [Q K].
    destruct (PropertiesMethods.step_source_ok p sz X o (in_size_t b1) x _ Hp Hs Q) as (n & Hn).
    { destruct (step p o b1 x) as [[[b2 x2] v2]|f2]; cbn [mapped]; congruence. }
    set (m := Nat.max (Nat.max 8 n) (Nat.max n1 n2)).
    assert (W : forall fuel, m <= fuel -> step_event p sz fuel (Do o) (in_size_t b1) x
      = mapped (fun r => (in_size_t (fst (fst r)), snd (fst r), snd r)) (step p o b1 x)
      /\ forall b' x' v, step p o b1 x = Ok (b', x', v) -> Forall (action_fits sz fuel) (d_actions (b_dispatcher b'))).
    { intros fuel Hf. cbn [step_event].
      destruct (step_statements p sz fuel (host_of p sz Hp Hs) ltac:(lia) o (in_size_t b1) x (H1 fuel ltac:(lia)) (H2 fuel ltac:(lia))) as [W1 W2].
      rewrite W1, Hn by lia. split; [reflexivity|]. intros b' x' v E. rewrite Hn in W2 by lia. rewrite E in W2.
      exact (W2 _ _ _ eq_refl). }
    destruct (step p o b1 x) as [[[b2 x2] v]|f]; cbn [mapped fst snd] in *.
    - exists (in_size_t b2). split.
      + split; [reflexivity|]. split; [exact (K b2 x2 v eq_refl)|]. exists m. intros fuel Hf. exact (proj2 (W fuel Hf) b2 x2 v eq_refl).
      + exists m. intros fuel Hf. exact (proj1 (W fuel Hf)).
    - exists m. intros fuel Hf. exact (proj1 (W fuel Hf)).
  Qed.
End States.

(** ** C114 *)

(** Any program which performs operations on a buffered dispatcher does, statement by
    statement, exactly what it does with the model of C01-C96, its undefined
    behaviours included, whether or not its uses are legitimate. *)
Theorem C114_operations : forall p sz (X A : Type) dbl (kr : keyring X) ft g g' b (c : client (op X) obs X A) x,
  wf_platform p -> p_int_size p <= sz <= 8 -> keyring_ok p kr -> make_buffered dbl kr ft g g' = Some b ->
  (Z.of_nat (List.length (ibuf (b_bufs b))) < 2 ^ (8 * Z.of_nat sz))%Z ->
  Forall (fun nf => described sz (snd nf)) (kr_funcs kr) ->
  along_client (step p) (fun o _ _ => Forall (described sz) (op_func o)) c b x ->
  run_client (step p) c b x <> Fault OutOfFuel ->
  exists n, forall fuel, n <= fuel ->
    run_client (fun o => step_event p sz fuel (Do o)) c (init_members (make_dispatcher kr ft) (b_bufs b)) x
    = match run_client (step p) c b x with
      | Ok (b', x', r) =>
          Ok (mk_members (b_dispatcher b') (b_is_index_loaded b') (Z.of_nat (b_load_count b')) (Z.of_nat (b_ibuf_next b'))
                (Z.of_nat (b_obuf_next b')) (Z.of_nat (b_obuf_bottom b')) (b_bufs b'), x', r)
      | Fault f => Fault f
      end.
Proof.
  intros p sz X A dbl kr ft g g' b c x Hp Hs Hk Hb Hi Hd L N.
  pose proof (client_ok (step p) (fun fuel o => step_event p sz fuel (Do o)) (sound sz kr ft)
                (fun o _ _ => Forall (described sz) (op_func o))
                (call_sound p sz dbl kr ft g g' b Hp Hs Hk Hb Hi Hd) c b _ x
                (new_sound p sz dbl kr ft g g' b Hs Hk Hb Hi Hd) L N) as H.
  destruct (run_client (step p) c b x) as [[[b' x'] r]|f].
  - destruct H as (s' & (-> & _) & m & H). exists m. exact H.
  - exact H.
Qed.

(** Any program which uses a buffered dispatcher, [reply] included, makes of the world
    what the abstract machine says, and ends with the same result. *)
Theorem C114_specification : forall p sz (X A : Type) dbl (kr : keyring X) ft g g' b (c : client (event X) obs X A) x,
  wf_platform p -> p_int_size p <= sz <= 8 -> keyring_ok p kr -> well_sized dbl kr ft ->
  make_buffered dbl kr ft g g' = Some b ->
  (Z.of_nat (List.length (ibuf (b_bufs b))) < 2 ^ (8 * Z.of_nat sz))%Z ->
  Forall (fun nf => described sz (snd nf)) (kr_funcs kr) ->
  along_client (mc_call (format_of kr))
    (fun e a y => legitimate_event p sz dbl kr ft e (fst a) y /\ Forall (described sz) (event_func e)) c (fresh kr, true) x ->
  run_client (mc_call (format_of kr)) c (fresh kr, true) x <> Fault OutOfFuel ->
  exists n, forall fuel, n <= fuel ->
    outcome (run_client (step_event p sz fuel) c (init_members (make_dispatcher kr ft) (b_bufs b)) x)
    = outcome (run_client (mc_call (format_of kr)) c (fresh kr, true) x).
Proof.
  intros p sz X A dbl kr ft g g' b c x Hp Hs Hk Hw Hb Hi Hd L N.
  destruct (make_buffered_represents X p dbl kr ft g g' b Hk Hw Hb) as (ni & no & Hroom & Hframing & R).
  pose proof (new_countable p sz dbl kr ft g g' b Hs Hk Hb Hi) as C.
  destruct (make_buffered_spec dbl kr ft g g' b Hb) as (bufs & Eb & _).
  pose proof (client_ok (A := A) (mc_call (format_of kr)) (fun fuel => step_event p sz fuel)
    (fun (a : machine X * bool) s => exists b1, s = in_size_t b1 /\ follows sz dbl kr ft ni no b1 (fst a) (snd a))
    (fun e a y => legitimate_event p sz dbl kr ft e (fst a) y /\ Forall (described sz) (event_func e))) as H.
  assert (O : forall (e : event X) (s : machine X * bool) (t : members X) (y : X),
    (exists b1, t = in_size_t b1 /\ follows sz dbl kr ft ni no b1 (fst s) (snd s)) ->
    legitimate_event p sz dbl kr ft e (fst s) y /\ Forall (described sz) (event_func e) ->
    mc_call (format_of kr) e s y <> Fault OutOfFuel ->
    match mc_call (format_of kr) e s y with
    | Ok (s', x', v) => exists t', (exists b1, t' = in_size_t b1 /\ follows sz dbl kr ft ni no b1 (fst s') (snd s'))
        /\ exists m, forall fuel, m <= fuel -> step_event p sz fuel e t y = Ok (t', x', v)
    | Fault f => exists m, forall fuel, m <= fuel -> step_event p sz fuel e t y = Fault f
    end).
  { intros e [a whole] t y (b1 & -> & F) [Le De] Ne. unfold mc_call in *. cbn [fst snd] in *.
    pose proof (event_ok p sz Hp Hs dbl kr ft ni no Hk Hroom Hframing (indices_small p sz dbl kr ft g g' b Hs Hb Hi)
                  (inputs_small p sz dbl kr ft g g' b Hp Hs Hk Hb Hi Hd) e b1 a whole y F Le De Ne) as H1.
    destruct (mc_event (format_of kr) e a whole y) as [[[[a' whole'] x'] v]|f]; [|exact H1].
    destruct H1 as (b' & F' & m & H1). exists (in_size_t b'). split; [exists b'; auto|]. exists m. exact H1. }
  specialize (H O c (fresh kr, true) (init_members (make_dispatcher kr ft) (b_bufs b)) x). clear O.
  specialize (fun Q => H Q L N).
  destruct (run_client (mc_call (format_of kr)) c (fresh kr, true) x) as [[[a' x'] r]|f].
  - destruct H as (t' & _ & m & H).
    + exists b. split; [rewrite Eb; reflexivity|]. split; [exact R|]. split; [exact C|].
      split; [constructor|]. split; [|rewrite Eb; reflexivity]. unfold fresh. cbn [fst mc_table]. rewrite Forall_map. exact Hd.
    + exists m. intros fuel Hf. rewrite H by exact Hf. reflexivity.
  - destruct H as (m & H).
    + exists b. split; [rewrite Eb; reflexivity|]. split; [exact R|]. split; [exact C|].
      split; [constructor|]. split; [|rewrite Eb; reflexivity]. unfold fresh. cbn [fst mc_table]. rewrite Forall_map. exact Hd.
    + exists m. intros fuel Hf. rewrite H by exact Hf. reflexivity.
Qed.

(** A program behaves alike on any two hosts on which its uses are legitimate, whatever
    the buffers, the action features and the content of the memory there. *)
Theorem C114_hosts : forall p sz p' sz' (X A : Type) dbl dbl' (kr : keyring X) ft ft' g1 g2 g1' g2' b b' (c : client (event X) obs X A) x,
  wf_platform p -> p_int_size p <= sz <= 8 -> keyring_ok p kr -> well_sized dbl kr ft ->
  wf_platform p' -> p_int_size p' <= sz' <= 8 -> keyring_ok p' kr -> well_sized dbl' kr ft' ->
  make_buffered dbl kr ft g1 g2 = Some b -> make_buffered dbl' kr ft' g1' g2' = Some b' ->
  (Z.of_nat (List.length (ibuf (b_bufs b))) < 2 ^ (8 * Z.of_nat sz))%Z ->
  (Z.of_nat (List.length (ibuf (b_bufs b'))) < 2 ^ (8 * Z.of_nat sz'))%Z ->
  Forall (fun nf => described sz (snd nf)) (kr_funcs kr) -> Forall (fun nf => described sz' (snd nf)) (kr_funcs kr) ->
  along_client (mc_call (format_of kr))
    (fun e a y => (legitimate_event p sz dbl kr ft e (fst a) y /\ Forall (described sz) (event_func e))
               /\ (legitimate_event p' sz' dbl' kr ft' e (fst a) y /\ Forall (described sz') (event_func e))) c (fresh kr, true) x ->
  run_client (mc_call (format_of kr)) c (fresh kr, true) x <> Fault OutOfFuel ->
  exists n, forall fuel fuel', n <= fuel -> n <= fuel' ->
    outcome (run_client (step_event p sz fuel) c (init_members (make_dispatcher kr ft) (b_bufs b)) x)
    = outcome (run_client (step_event p' sz' fuel') c (init_members (make_dispatcher kr ft') (b_bufs b')) x).
Proof.
  intros p sz p' sz' X A dbl dbl' kr ft ft' g1 g2 g1' g2' b b' c x Hp Hs Hk Hw Hp' Hs' Hk' Hw' Hb Hb' Hi Hi' Hd Hd' L N.
  assert (W : forall (P Q : event X -> machine X * bool -> X -> Prop), (forall e a y, P e a y -> Q e a y) ->
    forall (c0 : client (event X) obs X A) a y, along_client (mc_call (format_of kr)) P c0 a y ->
    along_client (mc_call (format_of kr)) Q c0 a y).
  { intros P Q PQ c0. induction c0 as [r|f|next IH|e next IH]; intros a y; cbn [along_client]; auto.
    intros [H1 H2]. split; auto. }
  destruct (C114_specification p sz X A dbl kr ft g1 g2 b c x Hp Hs Hk Hw Hb Hi Hd) as (n & Hn); auto.
  { eapply W; [|exact L]. intros e a y [H _]. exact H. }
  destruct (C114_specification p' sz' X A dbl' kr ft' g1' g2' b' c x Hp' Hs' Hk' Hw' Hb' Hi' Hd') as (n' & Hn'); auto.
  { eapply W; [|exact L]. intros e a y [_ H]. exact H. }
  exists (Nat.max n n'). intros fuel fuel' Hf Hf'. rewrite Hn, Hn' by lia. reflexivity.
Qed.

(** ** The programs of the documentation *)

Section Documentation.
  Context {X : Type}.
  Variable p : platform.

  Lemma slave_model : forall es wire (b : buffered X) x,
    run_client (step p) (slave_client es wire (@Finish (op X) obs X (list Z))) b x
    = mapped (fun s => (Firmware.st_b s, Firmware.st_x s, Firmware.st_wire s))
        (Firmware.on_events p es (Firmware.mk_station b x wire)).
  Proof.
    assert (G : forall wire (next : list Z -> client (op X) obs X (list Z)) (rest : Firmware.station X -> res (Firmware.station X)) (b : buffered X) x,
      (forall b' wire', run_client (step p) (next wire') b' x
        = mapped (fun s => (Firmware.st_b s, Firmware.st_x s, Firmware.st_wire s)) (rest (Firmware.mk_station b' x wire'))) ->
      run_client (step p) (send_client wire next) b x
      = mapped (fun s => (Firmware.st_b s, Firmware.st_x s, Firmware.st_wire s))
          (s' <- Firmware.send_next (Firmware.mk_station b x wire);; rest s')).
    { intros wire next rest b x H. unfold send_client, Firmware.send_next. cbn [run_client step Firmware.st_b Firmware.st_x Firmware.st_wire].
      destruct (get_byte b) as [[b' byte]|]; cbn [bind mapped]; auto. }
    induction es as [|[byte|] es IH]; intros wire b x; cbn [slave_client Firmware.on_events Firmware.on_event].
    - reflexivity.
    - unfold received_client, Firmware.on_byte_received. cbn [run_client step Firmware.st_b Firmware.st_x Firmware.st_wire].
      destruct (put p byte b x) as [[[b' x'] s]|]; cbn [bind mapped]; auto.
      destruct s; cbn [Firmware.is_resolved bind]; auto.
    - unfold Firmware.on_byte_sent. apply G. auto.
  Qed.

  Lemma receive_model : forall turns n fifo (next : list Z -> client (op X) obs X unit) (b : buffered X) x,
    run_client (step p) (receive_client p turns n fifo next) b x
    = ('(b', x', fifo') <- Firmware.on_receive p turns n fifo b x;; run_client (step p) (next fifo') b' x').
  Proof.
    induction turns as [|turns IH]; intros n fifo next b x; cbn [receive_client Firmware.on_receive run_client step]; [reflexivity|].
    destruct (Firmware.wire_read fifo) as [byte fifo']. cbn [fst snd].
    destruct (put p byte b x) as [[[b' x'] s]|]; cbn [bind]; [|reflexivity].
    destruct (arith (CInt (p_int_size p) true) (n - 1)) as [n'|]; cbn [bind run_client]; [|reflexivity].
    destruct (negb (n' =? 0)%Z && negb (Firmware.is_dropped s))%bool; cbn [bind]; auto.
  Qed.

  Lemma callee_model : forall turns ts (b : buffered X) x,
    run_client (step p) (callee_client p turns ts (Finish tt)) b x
    = mapped (fun r => (fst r, snd r, tt)) (Firmware.transmissions p turns ts b x).
  Proof.
    induction ts as [|t ts IH]; intros b x; cbn [callee_client Firmware.transmissions]; [reflexivity|].
    rewrite receive_model. destruct (Firmware.on_receive p turns (Z.of_nat (List.length t)) t b x) as [[[b' x'] fifo']|];
      cbn [bind mapped]; auto.
  Qed.

  Variable sz : nat.
  Notation harmless := (fun (o : op X) (_ : buffered X) (_ : X) => Forall (described sz) (op_func o)).

  Lemma slave_along : forall es wire (b : buffered X) x,
    along_client (step p) harmless (slave_client es wire (@Finish (op X) obs X (list Z))) b x.
  Proof.
    induction es as [|[byte|] es IH]; intros wire b x; cbn [slave_client].
    - exact I.
    - unfold received_client, send_client. cbn [along_client op_func]. split; [constructor|]. intros b' x' v _.
      destruct v as [[]| | |]; cbn [along_client op_func]; auto. split; [constructor|]. intros b2 x2 v2 _.
      destruct v2; cbn [along_client]; auto.
    - unfold send_client. cbn [along_client op_func]. split; [constructor|]. intros b2 x2 v2 _.
      destruct v2; cbn [along_client]; auto.
  Qed.

  Lemma receive_along : forall turns n fifo (next : list Z -> client (op X) obs X unit) (b : buffered X) x,
    (forall fifo' b' x', along_client (step p) harmless (next fifo') b' x') ->
    along_client (step p) harmless (receive_client p turns n fifo next) b x.
  Proof.
    induction turns as [|turns IH]; intros n fifo next b x H; cbn [receive_client along_client op_func]; [exact I|].
    split; [constructor|]. intros b' x' v _. destruct v as [s| | |]; cbn [along_client]; auto.
    destruct (arith (CInt (p_int_size p) true) (n - 1)) as [n'|]; cbn [along_client]; auto.
    destruct (negb (n' =? 0)%Z && negb (Firmware.is_dropped s))%bool; auto.
  Qed.

  Lemma callee_along : forall turns ts (b : buffered X) x,
    along_client (step p) harmless (callee_client p turns ts (Finish tt)) b x.
  Proof.
    induction ts as [|t ts IH]; intros b x; cbn [callee_client]; [exact I|]. apply receive_along. auto.
  Qed.
End Documentation.

(** The interrupt handlers of test/snippet/slave1.cpp, whatever the events: what is
    written to the master is, statement by statement, what the requests and the
    number of bytes sent between their ends say. *)
Theorem C114_handlers : forall (X : Type) p sz (kr : keyring X) ft g g' b x es wire x' out',
  wf_platform p -> p_int_size p <= sz <= 8 -> keyring_ok p kr -> well_sized true kr ft ->
  make_buffered true kr ft g g' = Some b ->
  (Z.of_nat (List.length (ibuf (b_bufs b))) < 2 ^ (8 * Z.of_nat sz))%Z ->
  Forall (fun nf => described sz (snd nf)) (kr_funcs kr) ->
  PropertiesFirmware.dialogue p kr (map snd (kr_funcs kr)) es x [] wire x' out' ->
  exists n, forall fuel, n <= fuel ->
    outcome (run_client (fun o => step_event p sz fuel (Do o)) (slave_client es [] Finish)
               (init_members (make_dispatcher kr ft) (b_bufs b)) x)
    = Ok (x', wire).
Proof.
  intros X p sz kr ft g g' b x es wire x' out' Hp Hs Hk Hw Hb Hi Hd D.
  destruct (PropertiesFirmware.C62_wire X p kr ft b (fresh kr) x es wire x' out' [] Hp Hk Hw) as (b' & E & _); auto.
  { apply (reached_new p true kr ft g g' b x Hb). }
  assert (R : run_client (step p) (slave_client es [] Finish) b x = Ok (b', x', wire)).
  { rewrite slave_model, E. reflexivity. }
  destruct (C114_operations p sz X (list Z) true kr ft g g' b (slave_client es [] Finish) x Hp Hs Hk Hb Hi Hd) as (n & H).
  - apply slave_along.
  - rewrite R. discriminate.
  - exists n. intros fuel Hf. rewrite H, R by exact Hf. reflexivity.
Qed.

(** The [Wire.onReceive] callback of README.md, whatever the transmissions: it does,
    statement by statement, what C63 says. *)
Theorem C114_transmissions : forall (X : Type) p sz dbl (kr : keyring X) ft g g' b x ts turns,
  wf_platform p -> p_int_size p <= sz <= 8 -> keyring_ok p kr -> well_sized dbl kr ft ->
  make_buffered dbl kr ft g g' = Some b ->
  (Z.of_nat (List.length (ibuf (b_bufs b))) < 2 ^ (8 * Z.of_nat sz))%Z ->
  Forall (fun nf => described sz (snd nf)) (kr_funcs kr) ->
  dbl = true \/ PropertiesCallee.all_void kr -> PropertiesRecovery.accepts_any p kr (map snd (kr_funcs kr)) ->
  Forall (Forall is_byte) ts -> Forall (fun t => (Z.of_nat (List.length t) <= PropertiesCallee.int_max p)%Z) ts ->
  (Z.of_nat (2 * kr_index_size kr - 1 + PropertiesRecovery.longest kr) <= PropertiesCallee.int_max p + 1)%Z ->
  Forall (fun t => List.length (PropertiesTransmissions.heard kr t) <= turns) ts ->
  exists n, forall fuel, n <= fuel ->
    outcome (run_client (fun o => step_event p sz fuel (Do o)) (callee_client p turns ts (Finish tt))
               (init_members (make_dispatcher kr ft) (b_bufs b)) x)
    = Ok (snd (PropertiesTransmissions.obey_all kr ts (fresh kr) x), tt).
Proof.
  intros X p sz dbl kr ft g g' b x ts turns Hp Hs Hk Hw Hb Hi Hd Hv Ha H1 H2 H3 H4.
  destruct (PropertiesTransmissions.C63_exact X p dbl kr ft g g' b x ts turns Hp Hk Hw Hb Hv Ha H1 H2 H3 H4) as (b' & E & _).
  assert (R : run_client (step p) (callee_client p turns ts (Finish tt)) b x
    = Ok (b', snd (PropertiesTransmissions.obey_all kr ts (fresh kr) x), tt)).
  { rewrite callee_model, E. reflexivity. }
  destruct (C114_operations p sz X unit dbl kr ft g g' b (callee_client p turns ts (Finish tt)) x Hp Hs Hk Hb Hi Hd) as (n & H).
  - apply callee_along.
  - rewrite R. discriminate.
  - exists n. intros fuel Hf. rewrite H, R by exact Hf. reflexivity.
Qed.

(** A program which gives bytes to the dispatcher, replies whenever a request is
    complete, and ends as soon as a packet is dropped. *)
Fixpoint ex_client (bytes : list Z) : client (event log) obs log nat :=
  match bytes with
  | [] => Look (fun x => Finish (List.length x))
  | byte :: bytes' =>
      Use (Do (Put byte)) (fun v =>
        match v with
        | OStatus RESOLVED_PACKET =>
            Use (Answer ex_sent (ex_answer 6) [7]%Z) (fun v' =>
              match v' with OBool true => ex_client bytes' | _ => Fails TypeMismatch end)
        | OStatus DROPPED_PACKET => Look (fun x => Finish (100 + List.length x))
        | _ => ex_client bytes'
        end)
  end.

Ltac next_call :=
  let E := fresh "E" in
  intros [? ?] ? ? E; vm_compute in E;
  match type of E with Ok ?q = Ok ?r =>
    let H := fresh "H" in pose proof (f_equal (fun o => match o with Ok a => a | Fault _ => q end) E) as H;
    cbv beta iota in H; injection H as <- <- <- <-; clear E end.

Example C114_example : exists b,
  keyring_ok pc_native ex_program /\ well_sized true ex_program ANY
  /\ make_buffered true ex_program ANY [9; 9; 9]%Z [] = Some b
  /\ (Z.of_nat (List.length (ibuf (b_bufs b))) < 2 ^ (8 * Z.of_nat 8))%Z
  /\ Forall (fun nf => described 8 (snd nf)) (kr_funcs ex_program)
  /\ along_client (mc_call (format_of ex_program))
       (fun e a y => legitimate_event pc_native 8 true ex_program ANY e (fst a) y /\ Forall (described 8) (event_func e))
       (ex_client [1; 9]%Z) (fresh ex_program, true) []
  /\ outcome (run_client (step_event pc_native 8 9) (ex_client [1; 9]%Z)
                (init_members (make_dispatcher ex_program ANY) (b_bufs b)) [])
     = Ok ([(9, [VInt 0]); (9, [VInt 0]); (9, [VInt 0]); (9, [VInt 0]); (9, [VInt 0]); (9, [VInt 7]); (9, [VInt 3]); (1, [])], 108).
Proof.
  eexists. split; [exact ex_program_ok|]. split; [exact (proj1 ex_program_sized)|]. split; [reflexivity|]. split; [reflexivity|].
  split; [apply ex_described; lia|]. split; [|vm_compute; reflexivity].
  unfold fresh.
  repeat match goal with
    | |- along_client _ _ (ex_client _) _ _ => cbn [ex_client along_client]
    | |- along_client _ _ (Use _ _) _ _ => cbn [along_client]
    | |- along_client _ _ (Look _) _ _ => exact I
    | |- True => exact I
    | |- forall s' x' v, mc_call _ _ _ _ = _ -> _ => next_call; cbv beta iota
    | |- Forall (described _) (event_func _) => apply Forall_nil
    | |- legitimate_event _ _ _ _ _ (Do _) _ _ => cbn [legitimate_event fst]; split; [|left; reflexivity]
    | |- legitimate_event _ _ _ _ _ (Answer _ _ _) _ _ => cbn [legitimate_event fst]
    | |- step_ok _ _ _ _ _ _ _ => cbn [step_ok]; try exact I
    | |- is_byte _ => split; [discriminate|reflexivity]
    | |- servable _ _ _ _ _ => vm_compute; try exact I
    | |- _ /\ _ => split
    end; try (solve [range | repeat constructor; range]).
Qed.

(** The same keyring behind the handlers of slave1.cpp. *)
Lemma ex_handled : PropertiesFirmware.dialogue pc_native ex_program (map snd (kr_funcs ex_program))
  [Firmware.Received 0; Firmware.Sent; Firmware.Received 255; Firmware.Received 254; Firmware.Received 5; Firmware.Sent; Firmware.Received 2]%Z
  [] [] [0; 0; 0]%Z [(0, [VInt (-2); VInt 5])] [0; 3]%Z.
Proof.
  apply PropertiesFirmware.dialogue_request with
    (es := [Firmware.Received 0; Firmware.Sent; Firmware.Received 255; Firmware.Received 254]%Z) (byte := 5%Z)
    (es' := [Firmware.Sent; Firmware.Received 2]%Z) (i := [0; 255; 254]%Z)
    (ss := [LOADING_PACKET; LOADING_PACKET; LOADING_PACKET]) (k := 0) (f := ex_total) (args := [VInt (-2); VInt 5])
    (x1 := [(0, [VInt (-2); VInt 5])]) (r := VInt 3) (wire := [0]%Z) (out := []).
  - vm_compute. reflexivity.
  - cbn [PropertiesFirmware.bytes_received]. repeat constructor; range.
  - reflexivity.
  - split; [|split; [reflexivity|]]; cbn [f_sig ex_total sig_params sig_ret ret_encodable]; encs.
  - vm_compute. reflexivity.
  - apply (PropertiesFirmware.dialogue_rest pc_native ex_program (map snd (kr_funcs ex_program)) [Firmware.Sent; Firmware.Received 2]%Z
             [(0, [VInt (-2); VInt 5])] [0; 0; 3]%Z [2]%Z [LOADING_PACKET]).
    + vm_compute. reflexivity.
    + cbn [PropertiesFirmware.bytes_received]. repeat constructor; range.
Qed.

Example C114_example_handlers : exists b,
  make_buffered true ex_program ANY [9; 9; 9]%Z [] = Some b
  /\ outcome (run_client (fun o => step_event pc_native 8 9 (Do o))
       (slave_client [Firmware.Received 0; Firmware.Sent; Firmware.Received 255; Firmware.Received 254; Firmware.Received 5;
                      Firmware.Sent; Firmware.Received 2]%Z [] Finish)
       (init_members (make_dispatcher ex_program ANY) (b_bufs b)) [])
     = Ok ([(0, [VInt (-2); VInt 5])], [0; 0; 0]%Z).
Proof. eexists. split; [reflexivity|]. vm_compute. reflexivity. Qed.

(** The lights of C63, on a host whose [std::size_t] has eight bytes. *)
Lemma lights_described : Forall (fun nf => described 8 (snd nf)) (kr_funcs PropertiesCallee.lights).
Proof.
  unfold PropertiesCallee.lights. cbn [kr_funcs].
  repeat (apply Forall_cons || apply Forall_nil); cbn [snd]; (split; [apply counted_ex; [lia|cbn; auto 9]|exact I]).
Qed.

Example C114_example_transmissions : exists b,
  make_buffered false PropertiesCallee.lights WEAK_REFERENCE [] [] = Some b
  /\ PropertiesCallee.all_void PropertiesCallee.lights
  /\ PropertiesRecovery.accepts_any pc_native PropertiesCallee.lights (map snd (kr_funcs PropertiesCallee.lights))
  /\ (Z.of_nat (List.length (ibuf (b_bufs b))) < 2 ^ (8 * Z.of_nat 8))%Z
  /\ outcome (run_client (fun o => step_event pc_native 8 9 (Do o))
       (callee_client pc_native 4 [[0]; [1; 1]; [9; 1; 2]; [0]; []]%Z (Finish tt))
       (init_members (make_dispatcher PropertiesCallee.lights WEAK_REFERENCE) (b_bufs b)) [])
     = Ok ([(2, [VInt 255]); (3, [VInt 2]); (3, [VInt 9]); (2, [VInt 1])], tt).
Proof.
  eexists. split; [reflexivity|]. split; [exact PropertiesCallee.lights_void|]. split; [exact PropertiesRecovery.lights_accept|].
  split; [reflexivity|]. vm_compute. reflexivity.
Qed.

Print Assumptions C114_operations.
Print Assumptions C114_specification.
Print Assumptions C114_hosts.
Print Assumptions C114_handlers.
Print Assumptions C114_transmissions.
