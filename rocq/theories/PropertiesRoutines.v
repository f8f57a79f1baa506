(** Property C99: getters and putters which use the dispatcher they are given to. *)

From Coq Require Import List ZArith Lia Bool Arith.
From Verif Require Import Base CInt Spec IntModel Conditions MemFacts TypeLevel Serial TupleModel
  TypeLevelProofs IntProofs SignedProofs SerialProofs CodecFacts Bounds TupleProofs SpecRpc Rpc RpcProofs
  Hosts Closed PropertiesTypes PropertiesRpc Buffered SpecBuffered BufferedProofs PropertiesBuffered Duplex.
Import ListNotations.
Open Scope nat_scope.

(** ** Specification: the packet machine of SpecBuffered.v used by routines *)

Section Spec.
  Context {X : Type}.
  Variable fm : format.

  Fixpoint mc_perform {A : Type} (c : routine X A) (a : machine X) (x : X) : res (machine X * X * A) :=
    match c with
    | Done v => Ok (a, x, v)
    | World f =>
        match f x with
        | Ok (x', c') => mc_perform c' a x'
        | Fault e => Fault e
        end
    | Use o k =>
        match mc_step fm o a x with
        | Ok (a', x', v) => mc_perform (k v) a' x'
        | Fault e => Fault e
        end
    end.

  (** Bytes are taken and received while a condition on what was received of the
      request and on the last status holds. *)
  Fixpoint mc_feed (condition : list Z -> packet_status -> bool) (fuel : nat) (src : routine X Z)
      (a : machine X) (x : X) (s : packet_status) : res (machine X * X * packet_status) :=
    if condition (mc_in a) s then
      match fuel with
      | 0 => Fault OutOfFuel
      | S fuel' =>
          '(a1, x1, byte) <- mc_perform src a x;;
          let '(a2, x2, s') := mc_put fm byte a1 x1 in
          mc_feed condition fuel' src a2 x2 s'
      end
    else Ok (a, x, s).

  (** The index is being received; it has been. *)
  Definition in_index (bs : list Z) (s : packet_status) : bool :=
    match s with LOADING_PACKET => length bs <? fm_w fm | _ => false end.
  Definition in_payload (bs : list Z) (_ : packet_status) : bool := fm_w fm <=? length bs.

  Definition mc_read_d (fuel : nat) (src : routine X Z) (a : machine X) (x : X)
      : res (machine X * X * packet_status) :=
    '(a1, x1, s) <- mc_feed in_index fuel src a x LOADING_PACKET;;
    mc_feed in_payload fuel src a1 x1 s.

  Fixpoint mc_write_d (fuel : nat) (dest : Z -> routine X unit) (a : machine X) (x : X) : res (machine X * X) :=
    match mc_out a with
    | [] => Ok (a, x)
    | byte :: out =>
        match fuel with
        | 0 => Fault OutOfFuel
        | S fuel' =>
            '(a1, x1, _) <- mc_perform (dest byte) (mk_machine (mc_in a) out (mc_table a)) x;;
            mc_write_d fuel' dest a1 x1
        end
    end.

  Definition mc_process_d (fuel : nat) (src : routine X Z) (dest : Z -> routine X unit) (a : machine X) (x : X)
      : res (machine X * X * packet_status) :=
    '(a1, x1, s) <- mc_read_d fuel src a x;;
    match s with
    | RESOLVED_PACKET => '(a2, x2) <- mc_write_d fuel dest a1 x1;; Ok (a2, x2, s)
    | _ => Ok (a1, x1, s)
    end.

  (** Every operation which is performed, by the routines and by the loops,
      satisfies [P]; none of them is a move. *)
  Variable P : op X -> machine X -> X -> Prop.

  Fixpoint performs {A : Type} (c : routine X A) (a : machine X) (x : X) : Prop :=
    match c with
    | Done _ => True
    | World f =>
        match f x with
        | Ok (x', c') => performs c' a x'
        | Fault _ => True
        end
    | Use o k =>
        o <> Move /\ P o a x
        /\ forall a' x' v, mc_step fm o a x = Ok (a', x', v) -> performs (k v) a' x'
    end.

  Fixpoint feeds (condition : list Z -> packet_status -> bool) (fuel : nat) (src : routine X Z)
      (a : machine X) (x : X) (s : packet_status) : Prop :=
    condition (mc_in a) s = true ->
    match fuel with
    | 0 => True
    | S fuel' =>
        performs src a x
        /\ forall a1 x1 byte, mc_perform src a x = Ok (a1, x1, byte) ->
           P (Put byte) a1 x1
           /\ forall a2 x2 s', mc_put fm byte a1 x1 = (a2, x2, s') -> feeds condition fuel' src a2 x2 s'
    end.

  Definition reads (fuel : nat) (src : routine X Z) (a : machine X) (x : X) : Prop :=
    feeds in_index fuel src a x LOADING_PACKET
    /\ forall a1 x1 s, mc_feed in_index fuel src a x LOADING_PACKET = Ok (a1, x1, s) ->
       feeds in_payload fuel src a1 x1 s.

  Fixpoint writes (fuel : nat) (dest : Z -> routine X unit) (a : machine X) (x : X) : Prop :=
    match mc_out a, fuel with
    | byte :: out, S fuel' =>
        performs (dest byte) (mk_machine (mc_in a) out (mc_table a)) x
        /\ forall a1 x1 v, mc_perform (dest byte) (mk_machine (mc_in a) out (mc_table a)) x = Ok (a1, x1, v) ->
           writes fuel' dest a1 x1
    | _, _ => True
    end.
End Spec.

(** The dispatcher does what the machine does, and stays in a state which a fair
    history reaches. *)
Definition follows {X V : Type} (p : platform) (dbl : bool) (kr : keyring X) (ft : action_features)
    (c : res (buffered X * X * V)) (s : res (machine X * X * V)) : Prop :=
  match s with
  | Ok (a', x', v) => exists b', c = Ok (b', x', v) /\ reached p dbl kr ft b' a' x'
  | Fault e => c = Fault e
  end.

Section Refinement.
  Variable p : platform.
  Context {X : Type}.
  Variable kr : keyring X.
  Variable ft : action_features.
  Variable dbl : bool.
  Hypothesis Hp : wf_platform p.
  Hypothesis Hk : keyring_ok p kr.
  Hypothesis Hs : well_sized dbl kr ft.

  Let fm := format_of kr.
  Let fair := legitimate p dbl kr ft.
  Let ok := reached p dbl kr ft.
  Let flw {V : Type} := @follows X V p dbl kr ft.

  Lemma step_follows : forall o b a x, ok b a x -> fair o a x -> flw (step p o b x) (mc_step fm o a x).
  Proof.
    intros o b a x Hr Hf. unfold flw, follows. destruct (mc_step fm o a x) as [[[a' x'] v]|e] eqn:E.
    - exact (reached_step p dbl kr ft Hp Hk Hs o b a x a' x' v Hr Hf E).
    - destruct (reached_represents p dbl kr ft Hp Hk Hs b a x Hr) as (ni & no & Hw & Hfr & Hrep).
      destruct Hf as [Hok Hal].
      pose proof (step_refines p kr ft ni no dbl Hp Hk Hw Hfr o b a x Hrep Hok Hal) as Ha.
      unfold agrees in Ha. fold fm in Ha. rewrite E in Ha. exact Ha.
  Qed.

  Lemma world_reached : forall b a x x', ok b a x -> ok b a x'.
  Proof.
    intros b a x x' Hr.
    pose proof (step_follows (Outside (fun _ => x')) b a x Hr (conj I (or_intror I))) as H.
    destruct H as (b' & E & H). cbn [step] in E. injection E as <-. exact H.
  Qed.

  Lemma perform_follows : forall (A : Type) (c : routine X A) b a x, ok b a x -> performs fm fair c a x ->
    flw (perform p c b x) (mc_perform fm c a x).
  Proof.
    intros A. fix IH 1. intros c b a x Hr Hf. destruct c as [v|f|o k].
    - exists b. split; auto.
    - cbn [perform mc_perform performs] in *. destruct (f x) as [[x' c']|e].
      + apply IH; auto. apply world_reached with (1 := Hr).
      + reflexivity.
    - cbn [performs] in Hf. destruct Hf as (Hm & Ho & Hk').
      pose proof (step_follows o b a x Hr Ho) as Hst. unfold flw, follows in Hst.
      assert (Ep : perform p (Use o k) b x
        = match step p o b x with Ok (b', x', v) => perform p (k v) b' x' | Fault e => Fault e end)
        by (destruct o; [reflexivity..|congruence]).
      rewrite Ep. cbn [mc_perform]. clear Ep.
      destruct (mc_step fm o a x) as [[[a' x'] v]|e].
      + destruct Hst as (b' & E & Hr'). rewrite E. apply IH; auto.
      + rewrite Hst. reflexivity.
  Qed.

  Lemma put_follows : forall byte b a x, ok b a x -> fair (Put byte) a x ->
    flw (put p byte b x) (Ok (mc_put fm byte a x)).
  Proof.
    intros byte b a x Hr Hf. pose proof (step_follows (Put byte) b a x Hr Hf) as H.
    unfold flw, follows in *. cbn [step mc_step] in H. destruct (mc_put fm byte a x) as [[a' x'] s].
    destruct H as (b' & E & Hr'). exists b'. split; auto.
    destruct (put p byte b x) as [[[b1 x1] s1]|]; cbn [bind] in E; [|discriminate]. congruence.
  Qed.

  Lemma loaded_reached : forall b a x, ok b a x ->
    b_is_index_loaded b = negb (length (mc_in a) <? fm_w fm)
    /\ is_loaded b = mc_loaded a
    /\ b_load_count b = missing fm (mc_table a) (mc_in a) /\ 1 <= b_load_count b.
  Proof.
    intros b a x Hr. destruct (reached_represents p dbl kr ft Hp Hk Hs b a x Hr) as (ni & no & Hw & Hfr & Hrep).
    destruct (represents_progress kr ft ni no dbl Hw b a Hrep) as (H1 & H2 & H3).
    split; [exact H1|]. split; [|split; auto]. exact (is_loaded_ok kr ft ni no dbl Hw b a Hrep).
  Qed.

  Lemma feed_follows : forall (cond : buffered X -> packet_status -> bool) cond' src,
    (forall b a x s, ok b a x -> cond b s = cond' (mc_in a) s) ->
    forall fuel b a x s, ok b a x -> feeds fm fair cond' fuel src a x s ->
    flw (feed p cond fuel src b x s) (mc_feed fm cond' fuel src a x s).
  Proof.
    intros cond cond' src Hc. induction fuel as [|fuel IH]; intros b a x s Hr Hf; cbn [feed mc_feed feeds] in *;
      rewrite (Hc b a x s Hr); destruct (cond' (mc_in a) s); try (exists b; split; auto; fail).
    - reflexivity.
    - destruct (Hf eq_refl) as [Hf1 Hf2]. pose proof (perform_follows Z src b a x Hr Hf1) as H.
      unfold flw, follows in H. destruct (mc_perform fm src a x) as [[[a1 x1] byte]|e]; cbn [bind].
      + destruct H as (b1 & E & Hr1). rewrite E. cbn [bind].
        destruct (Hf2 a1 x1 byte eq_refl) as [Hb Hn].
        pose proof (put_follows byte b1 a1 x1 Hr1 Hb) as H. unfold flw, follows in H.
        destruct (mc_put fm byte a1 x1) as [[a2 x2] s'] eqn:Em. destruct H as (b2 & E2 & Hr2). rewrite E2. cbn [bind].
        apply IH; auto.
      + rewrite H. reflexivity.
  Qed.

  Lemma cond_index : forall b a x s, ok b a x ->
    negb (b_is_index_loaded b) && is_loading s = in_index fm (mc_in a) s.
  Proof.
    intros b a x s Hr. destruct (loaded_reached b a x Hr) as (H & _). rewrite H, negb_involutive.
    unfold in_index. destruct s; cbn [is_loading]; rewrite ?andb_true_r, ?andb_false_r; reflexivity.
  Qed.

  Lemma cond_payload : forall b a x (s : packet_status), ok b a x ->
    b_is_index_loaded b = in_payload fm (mc_in a) s.
  Proof.
    intros b a x s Hr. destruct (loaded_reached b a x Hr) as (H & _). rewrite H. unfold in_payload.
    rewrite <- Nat.leb_antisym. reflexivity.
  Qed.

  Lemma read_follows : forall fuel src b a x, ok b a x -> reads fm fair fuel src a x ->
    flw (read_from_d p fuel src b x) (mc_read_d fm fuel src a x).
  Proof.
    intros fuel src b a x Hr [H1 H2]. unfold read_from_d, mc_read_d.
    pose proof (feed_follows _ _ src cond_index fuel b a x LOADING_PACKET Hr H1) as H. unfold flw, follows in H.
    destruct (mc_feed fm (in_index fm) fuel src a x LOADING_PACKET) as [[[a1 x1] s]|e]; cbn [bind].
    - destruct H as (b1 & E & Hr1). cbv beta in E. rewrite E. cbn [bind].
      apply (feed_follows (fun b _ => b_is_index_loaded b) (in_payload fm) src cond_payload); auto.
    - rewrite H. reflexivity.
  Qed.

  Definition unit_of {M : Type} (r : res (M * X)) : res (M * X * unit) := '(m, x) <- r;; Ok (m, x, tt).

  Lemma write_follows : forall dest fuel b a x, ok b a x -> writes fm fair fuel dest a x ->
    flw (unit_of (write_to_d p fuel dest b x)) (unit_of (mc_write_d fm fuel dest a x)).
  Proof.
    intros dest. induction fuel as [|fuel IH]; intros b a x Hr Hw; cbn [write_to_d mc_write_d writes] in *;
      destruct (loaded_reached b a x Hr) as (_ & Hl & _); rewrite Hl; unfold mc_loaded in *;
      destruct (mc_out a) as [|byte out] eqn:Eo; try (exists b; split; auto; fail).
    - reflexivity.
    - destruct Hw as [Hw1 Hw2].
      pose proof (step_follows Get b a x Hr (conj I (or_intror I))) as H. unfold flw, follows in H.
      cbn [step mc_step] in H. unfold mc_get in H. rewrite Eo in H. destruct H as (b1 & E & Hr1).
      destruct (get_byte b) as [[b1' byte']|]; cbn [bind] in E; [|discriminate].
      injection E as -> ->. cbn [bind].
      pose proof (perform_follows unit (dest byte) b1 _ x Hr1 Hw1) as H. unfold flw, follows in H.
      destruct (mc_perform fm (dest byte) _ x) as [[[a2 x2] v]|e]; cbn [bind].
      + destruct H as (b2 & E & Hr2). rewrite E. cbn [bind]. apply IH; auto. apply (Hw2 a2 x2 v). reflexivity.
      + rewrite H. reflexivity.
  Qed.

  Lemma process_follows : forall fuel src dest b a x, ok b a x -> reads fm fair fuel src a x ->
    (forall a1 x1, mc_read_d fm fuel src a x = Ok (a1, x1, RESOLVED_PACKET) -> writes fm fair fuel dest a1 x1) ->
    flw (process_d p fuel src dest b x) (mc_process_d fm fuel src dest a x).
  Proof.
    intros fuel src dest b a x Hr Hrd Hwr. unfold process_d, mc_process_d.
    pose proof (read_follows fuel src b a x Hr Hrd) as H. unfold flw, follows in H.
    destruct (mc_read_d fm fuel src a x) as [[[a1 x1] s]|e]; cbn [bind].
    - destruct H as (b1 & E & Hr1). rewrite E. cbn [bind].
      destruct s; try (exists b1; split; auto; fail).
      pose proof (write_follows dest fuel b1 a1 x1 Hr1 (Hwr a1 x1 eq_refl)) as H. unfold flw, follows, unit_of in H.
      destruct (mc_write_d fm fuel dest a1 x1) as [[a2 x2]|e]; cbn [bind] in *.
      + destruct H as (b2 & E2 & Hr2). exists b2. split; auto.
        destruct (write_to_d p fuel dest b1 x1) as [[b' x']|]; cbn [bind] in *; congruence.
      + destruct (write_to_d p fuel dest b1 x1) as [[b' x']|]; cbn [bind] in *; congruence.
    - rewrite H. reflexivity.
  Qed.
End Refinement.

(** ** Getters and putters which only act on the world *)

Lemma feed_index : forall p (X : Type) (src : source X) fuel b x s,
  feed p (fun b s => negb (b_is_index_loaded b) && is_loading s) fuel (plain_getter src) b x s
  = read_index p fuel src b x s.
Proof.
  intros p X src. induction fuel as [|fuel IH]; intros b x s; cbn [feed read_index];
    destruct (negb (b_is_index_loaded b) && is_loading s); auto.
  unfold plain_getter at 1. cbn [perform]. destruct (src x) as [[x1 byte]|]; cbn [bind perform]; auto.
  destruct (put p byte b x1) as [[[b2 x2] s']|]; cbn [bind]; auto.
Qed.

Lemma feed_payload : forall p (X : Type) (src : source X) fuel b x s,
  feed p (fun b _ => b_is_index_loaded b) fuel (plain_getter src) b x s = read_payload p fuel src b x s.
Proof.
  intros p X src. induction fuel as [|fuel IH]; intros b x s; cbn [feed read_payload];
    destruct (b_is_index_loaded b); auto.
  unfold plain_getter at 1. cbn [perform]. destruct (src x) as [[x1 byte]|]; cbn [bind perform]; auto.
  destruct (put p byte b x1) as [[[b2 x2] s']|]; cbn [bind]; auto.
Qed.

Lemma write_plain : forall p (X : Type) (dest : destination X) fuel b x,
  write_to_d p fuel (plain_putter dest) b x = write_loop fuel dest b x.
Proof.
  intros p X dest. induction fuel as [|fuel IH]; intros b x; cbn [write_to_d write_loop]; destruct (is_loaded b); auto.
  destruct (get_byte b) as [[b1 byte]|]; cbn [bind]; auto.
  unfold plain_putter at 1. cbn [perform]. destruct (dest byte x) as [x1|]; cbn [bind perform]; auto.
Qed.

(** From any state, with such getters and putters the member functions do what
    they do in Buffered.v. *)
Theorem C99_aloof : forall p (X : Type) (src : source X) (dest : destination X) b x, exists n, forall fuel, n <= fuel ->
  read_from_d p fuel (plain_getter src) b x = read_from p src b x
  /\ write_to_d p fuel (plain_putter dest) b x = write_to dest b x
  /\ process_d p fuel (plain_getter src) (plain_putter dest) b x = process p src dest b x.
Proof.
  intros p X src dest b x.
  set (n1 := match read_index p (S (b_load_count b)) src b x LOADING_PACKET with
             | Ok (b1, _, _) => S (b_load_count b1) | Fault _ => 0 end).
  set (n2 := match read_from p src b x with Ok (b2, _, _) => S (length (obuf (b_bufs b2))) | Fault _ => 0 end).
  exists (S (b_load_count b) + n1 + n2 + S (length (obuf (b_bufs b)))). intros fuel Hf.
  assert (Hr : read_from_d p fuel (plain_getter src) b x = read_from p src b x).
  { unfold read_from_d, read_from. rewrite feed_index.
    rewrite (read_index_fuel p X src (S (b_load_count b)) fuel b x) by lia.
    unfold n1 in Hf. destruct (read_index p (S (b_load_count b)) src b x LOADING_PACKET) as [[[b1 x1] s1]|]; cbn [bind]; auto.
    rewrite feed_payload. apply read_payload_fuel; lia. }
  split; [exact Hr|]. split.
  - rewrite write_plain. apply write_loop_fuel; lia.
  - unfold process_d, process. rewrite Hr. unfold n2 in Hf.
    destruct (read_from p src b x) as [[[b1 x1] s1]|]; cbn [bind]; auto. destruct s1; auto.
    rewrite write_plain. unfold write_to. rewrite (write_loop_fuel X X dest (S (length (obuf (b_bufs b1)))) fuel b1 x1) by lia.
    reflexivity.
Qed.

(** ** Getters which receive nothing themselves *)

(** Whatever the answers, the routine only sends, asks and replaces. *)
Fixpoint passive {X A : Type} (c : routine X A) : Prop :=
  match c with
  | Done _ => True
  | World f => forall x, match f x with Ok (_, c') => passive c' | Fault _ => True end
  | Use o k =>
      match o with
      | Get | IsLoaded | WriteTo _ | Replace _ _ | Outside _ => True
      | Put _ | ReadFrom _ | Process _ _ | Move => False
      end /\ forall v, passive (k v)
  end.

Lemma write_loop_keeps : forall (X Y : Type) (dest : destination Y) fuel (b : buffered X) y b' y',
  write_loop fuel dest b y = Ok (b', y') ->
  b_load_count b' = b_load_count b /\ b_is_index_loaded b' = b_is_index_loaded b.
Proof.
  intros X Y dest. induction fuel as [|fuel IH]; intros b y b' y' H; cbn [write_loop] in H;
    destruct (is_loaded b) eqn:El; try discriminate; try (injection H as <- <-; auto; fail).
  unfold get_byte in H. rewrite El in H. ok_inv H r. destruct r as [b1 byte]. ok_inv H y1.
  ok_inv E c. injection E as <- <-. apply IH in H. exact H.
Qed.

Lemma perform_passive : forall p (X A : Type) (c : routine X A) b x b' x' v, passive c ->
  perform p c b x = Ok (b', x', v) ->
  b_load_count b' = b_load_count b /\ b_is_index_loaded b' = b_is_index_loaded b.
Proof.
  intros p X A. fix IH 1. intros c b x b' x' v Hc H. destruct c as [v0|f|o k].
  - cbn [perform] in H. injection H as <- _ _. auto.
  - cbn [perform passive] in *. specialize (Hc x). destruct (f x) as [[x1 c1]|]; [|discriminate].
    exact (IH c1 b x1 b' x' v Hc H).
  - cbn [passive] in Hc. destruct Hc as [Ho Hk].
    destruct o as [byte| | |src|dest|src dest|i r|g|]; try contradiction; cbn [perform step] in H.
    + unfold get_byte in H. destruct (is_loaded b).
      * destruct (load (obuf (b_bufs b)) (b_obuf_next b)) as [c|]; cbn [bind] in H; [|discriminate].
        apply IH in H; auto.
      * cbn [bind] in H. apply IH in H; auto.
    + apply IH in H; auto.
    + unfold write_to in H. destruct (write_loop _ dest b x) as [[b1 x1]|] eqn:E; cbn [bind] in H; [|discriminate].
      apply write_loop_keeps in E. destruct E as [E1 E2]. apply IH in H; auto. rewrite E1, E2 in H. exact H.
    + unfold replace_buffered in H. destruct (replace (b_dispatcher b) i r) as [[d|]|]; cbn [bind] in H; try discriminate.
      apply IH in H; auto.
    + apply IH in H; auto.
Qed.

Lemma feed_index_fuel : forall p (X : Type) (src : routine X Z), passive src -> forall n fuel b x s,
  b_load_count b < n -> n <= fuel ->
  feed p (fun b s => negb (b_is_index_loaded b) && is_loading s) fuel src b x s
  = feed p (fun b s => negb (b_is_index_loaded b) && is_loading s) n src b x s.
Proof.
  intros p X src Hc. induction n as [|n IH]; intros fuel b x s H1 H2; [lia|].
  destruct fuel as [|fuel]; [lia|]. cbn [feed].
  destruct (negb (b_is_index_loaded b) && is_loading s) eqn:E; auto.
  destruct (perform p src b x) as [[[b1 x1] byte]|] eqn:Ec; cbn [bind]; auto.
  destruct (perform_passive p X Z src b x b1 x1 byte Hc Ec) as [K1 K2].
  destruct (put p byte b1 x1) as [[[b' x2] s']|] eqn:Ep; cbn [bind]; auto.
  destruct (put_progress p X byte b1 x1 b' x2 s' Ep) as [(Hlt & _)|[(_ & Hl & _)|(_ & Hs)]].
  - apply IH; lia.
  - destruct fuel, n; cbn [feed]; rewrite Hl; cbn; auto; lia.
  - assert (Hn : is_loading s' = false) by (destruct s'; auto; congruence).
    destruct fuel, n; cbn [feed]; rewrite Hn, andb_false_r; auto; lia.
Qed.

Lemma feed_payload_fuel : forall p (X : Type) (src : routine X Z), passive src -> forall n fuel b x s,
  b_load_count b < n -> n <= fuel ->
  feed p (fun b _ => b_is_index_loaded b) fuel src b x s = feed p (fun b _ => b_is_index_loaded b) n src b x s.
Proof.
  intros p X src Hc. induction n as [|n IH]; intros fuel b x s H1 H2; [lia|].
  destruct fuel as [|fuel]; [lia|]. cbn [feed].
  destruct (b_is_index_loaded b) eqn:E; auto.
  destruct (perform p src b x) as [[[b1 x1] byte]|] eqn:Ec; cbn [bind]; auto.
  destruct (perform_passive p X Z src b x b1 x1 byte Hc Ec) as [K1 K2].
  destruct (put p byte b1 x1) as [[[b' x2] s']|] eqn:Ep; cbn [bind]; auto.
  destruct (put_progress p X byte b1 x1 b' x2 s' Ep) as [(Hlt & _)|[(Hl & _)|(Hl & _)]].
  - apply IH; lia.
  - congruence.
  - destruct fuel, n; cbn [feed]; rewrite Hl; auto.
Qed.

Lemma feed_index_exit : forall p (X : Type) (src : routine X Z) fuel b x s b' x' s',
  feed p (fun b s => negb (b_is_index_loaded b) && is_loading s) fuel src b x s = Ok (b', x', s') ->
  b_is_index_loaded b' = true \/ s' <> LOADING_PACKET.
Proof.
  intros p X src. induction fuel as [|fuel IH]; intros b x s b' x' s' H; cbn [feed] in H;
    destruct (negb (b_is_index_loaded b) && is_loading s) eqn:E; try discriminate.
  - injection H as <- _ <-. apply andb_false_iff in E. destruct E as [E|E]; destruct (b_is_index_loaded b), s; try discriminate; auto; right; discriminate.
  - ok_inv H r. destruct r as [[b1 x1] byte]. ok_inv H r. destruct r as [[b2 x2] s2]. eauto.
  - injection H as <- _ <-. apply andb_false_iff in E. destruct E as [E|E]; destruct (b_is_index_loaded b), s; try discriminate; auto; right; discriminate.
Qed.

Lemma feed_payload_exit : forall p (X : Type) (src : routine X Z), passive src -> forall fuel b x s b' x' s',
  feed p (fun b _ => b_is_index_loaded b) fuel src b x s = Ok (b', x', s') ->
  b_is_index_loaded b = true \/ s <> LOADING_PACKET ->
  b_is_index_loaded b' = false /\ s' <> LOADING_PACKET.
Proof.
  intros p X src Hc. induction fuel as [|fuel IH]; intros b x s b' x' s' H Hi; cbn [feed] in H;
    destruct (b_is_index_loaded b) eqn:E; try discriminate.
  - injection H as <- _ <-. destruct Hi; [discriminate|auto].
  - ok_inv H r. destruct r as [[b1 x1] byte]. ok_inv H r. destruct r as [[b2 x2] s2].
    destruct (perform_passive p X Z src b x b1 x1 byte Hc E0) as [K1 K2].
    apply (IH b2 x2 s2 b' x' s' H).
    destruct (put_progress p X byte b1 x1 b2 x2 s2 E1) as [(_ & Hl & _)|[(Hl & _)|(_ & Hs)]]; auto.
    + left. congruence.
    + congruence.
  - injection H as <- _ <-. destruct Hi; [discriminate|auto].
Qed.

(** With such a getter, from any state, [read_from] returns unless the getter does
    not: the number of turns is bounded.  It returns when no request is being
    received, with one of the two documented statuses. *)
Theorem C99_ends : forall p (X : Type) (src : routine X Z) b x, passive src -> exists n, forall fuel, n <= fuel ->
  read_from_d p fuel src b x = read_from_d p n src b x
  /\ forall b' x' s, read_from_d p fuel src b x = Ok (b', x', s) ->
     b_is_index_loaded b' = false /\ (s = DROPPED_PACKET \/ s = RESOLVED_PACKET).
Proof.
  intros p X src b x Hc.
  set (n1 := match feed p (fun b s => negb (b_is_index_loaded b) && is_loading s) (S (b_load_count b)) src b x
                     LOADING_PACKET with
             | Ok (b1, _, _) => S (b_load_count b1) | Fault _ => 0 end).
  exists (S (b_load_count b) + n1). intros fuel Hf. split.
  - unfold read_from_d.
    rewrite (feed_index_fuel p X src Hc (S (b_load_count b)) fuel b x) by lia.
    rewrite (feed_index_fuel p X src Hc (S (b_load_count b)) (S (b_load_count b) + n1) b x) by lia.
    unfold n1 in *. destruct (feed p _ (S (b_load_count b)) src b x LOADING_PACKET) as [[[b1 x1] s1]|]; cbn [bind]; auto.
    rewrite (feed_payload_fuel p X src Hc (S (b_load_count b1)) fuel b1 x1) by lia.
    rewrite (feed_payload_fuel p X src Hc (S (b_load_count b1)) (S (b_load_count b) + S (b_load_count b1)) b1 x1) by lia.
    reflexivity.
  - intros b' x' s H. unfold read_from_d in H. ok_inv H r. destruct r as [[b1 x1] s1].
    apply feed_index_exit in E. destruct (feed_payload_exit p X src Hc fuel b1 x1 s1 b' x' s H E) as [H1 H2].
    split; auto. destruct s; auto. congruence.
Qed.

(** ** Refinement *)

(** A dispatcher whose getters and putters use it is the packet machine, used in
    the same way. *)
Theorem C99_refines : forall (X : Type) p dbl (kr : keyring X) ft fuel src dest b a x,
  wf_platform p -> keyring_ok p kr -> well_sized dbl kr ft -> reached p dbl kr ft b a x ->
  let fm := format_of kr in
  let fair := legitimate p dbl kr ft in
  (reads fm fair fuel src a x ->
     follows p dbl kr ft (read_from_d p fuel src b x) (mc_read_d fm fuel src a x))
  /\ (writes fm fair fuel dest a x ->
     match mc_write_d fm fuel dest a x with
     | Ok (a', x') => exists b', write_to_d p fuel dest b x = Ok (b', x') /\ reached p dbl kr ft b' a' x'
     | Fault e => write_to_d p fuel dest b x = Fault e
     end)
  /\ (reads fm fair fuel src a x ->
      (forall a1 x1, mc_read_d fm fuel src a x = Ok (a1, x1, RESOLVED_PACKET) -> writes fm fair fuel dest a1 x1) ->
     follows p dbl kr ft (process_d p fuel src dest b x) (mc_process_d fm fuel src dest a x)).
Proof.
  intros X p dbl kr ft fuel src dest b a x Hp Hk Hs Hr fm fair. split; [|split].
  - intros H. exact (read_follows p kr ft dbl Hp Hk Hs fuel src b a x Hr H).
  - intros H. pose proof (write_follows p kr ft dbl Hp Hk Hs dest fuel b a x Hr H) as Hw.
    unfold follows, unit_of in Hw. fold fm in Hw.
    destruct (mc_write_d fm fuel dest a x) as [[a' x']|e]; cbn [bind] in Hw.
    + destruct Hw as (b' & E & Hr'). exists b'. split; auto.
      destruct (write_to_d p fuel dest b x) as [[b1 x1]|]; cbn [bind] in E; congruence.
    + destruct (write_to_d p fuel dest b x) as [[b1 x1]|]; cbn [bind] in Hw; congruence.
  - intros H1 H2. exact (process_follows p kr ft dbl Hp Hk Hs fuel src dest b a x Hr H1 H2).
Qed.

(** ** A link which sends a byte whenever it receives one *)

(** [n] bytes are exchanged: those of [out], then zeros, against the bytes of the
    result. *)
Fixpoint swap {X : Type} (exchange : Z -> X -> res (X * Z)) (n : nat) (out : list Z) (x : X) : res (X * list Z) :=
  match n with
  | 0 => Ok (x, [])
  | S n' =>
      '(x1, r) <- exchange (hd 0%Z out) x;;
      '(x2, rs) <- swap exchange n' (tl out) x1;;
      Ok (x2, r :: rs)
  end.

(** One packet is exchanged against what is pending: first the index, then the
    arguments. *)
Definition exchanged {X : Type} (fm : format) (exchange : Z -> X -> res (X * Z)) (a : machine X) (x : X)
    : res (X * list Z) :=
  '(x1, bs1) <- swap exchange (missing fm (mc_table a) (mc_in a)) (mc_out a) x;;
  '(x2, bs2) <- swap exchange (missing fm (mc_table a) (mc_in a ++ bs1)) (skipn (length bs1) (mc_out a)) x1;;
  Ok (x2, bs1 ++ bs2).

(** What is received are bytes. *)
Definition gives_bytes_back {X : Type} (exchange : Z -> X -> res (X * Z)) : Prop :=
  forall c x x' r, exchange c x = Ok (x', r) -> is_byte r.

Lemma swap_length : forall (X : Type) (ex : Z -> X -> res (X * Z)) n out x x' bs,
  swap ex n out x = Ok (x', bs) -> length bs = n.
Proof.
  intros X ex. induction n as [|n IH]; intros out x x' bs H; cbn [swap] in H.
  - injection H as _ <-. reflexivity.
  - ok_inv H r. destruct r as [x1 r]. ok_inv H q. destruct q as [x2 rs]. injection H as _ <-. cbn [length].
    f_equal. eauto.
Qed.

Lemma skipn_tl : forall (A : Type) n (l : list A), skipn (S n) l = skipn n (tl l).
Proof. intros A n [|a l]; [rewrite !skipn_nil|]; reflexivity. Qed.

Section Exchange.
  Variable p : platform.
  Context {X : Type}.
  Variable kr : keyring X.
  Variable ft : action_features.
  Hypothesis Hp : wf_platform p.
  Hypothesis Hk : keyring_ok p kr.
  Hypothesis Hs : well_sized true kr ft.
  Variable ex : Z -> X -> res (X * Z).
  Hypothesis Hex : gives_bytes_back ex.

  Let fm := format_of kr.
  Let ok := reached p true kr ft.
  Let flw {V : Type} := @follows X V p true kr ft.

  Lemma examine_incomplete : forall (table : list (func X)) bs n, missing fm table bs = S n ->
    examine fm table bs = Incomplete.
  Proof.
    intros table bs n H. destruct (examine fm table bs) eqn:E; auto; exfalso;
      assert (H0 : missing fm table bs = 0)
        by (apply (examine_missing kr (kr_index_size kr) (le_n _)); fold fm; congruence); lia.
  Qed.

  Lemma received_incomplete : forall bs n i out (table : list (func X)) (x : X), missing fm table bs = S n ->
    received fm bs (mk_machine i out table) x = (mk_machine bs out table, x, LOADING_PACKET).
  Proof. intros bs n i out table x H. unfold received. cbn [mc_table]. rewrite (examine_incomplete _ _ _ H). reflexivity. Qed.

  Lemma servable_incomplete : forall (table : list (func X)) bs n x, missing fm table bs = S n ->
    servable fm p table bs x.
  Proof. intros table bs n x H. unfold servable. rewrite (examine_incomplete _ _ _ H). exact I. Qed.

  (** One turn of a loop of [read_from]. *)
  Lemma feed_step : forall (cond : buffered X -> packet_status -> bool) b a x s, ok b a x -> cond b s = true ->
    (forall x1 r, ex (hd 0%Z (mc_out a)) x = Ok (x1, r) -> servable fm p (mc_table a) (mc_in a ++ [r]) x1) ->
    match ex (hd 0%Z (mc_out a)) x with
    | Ok (x1, r) =>
        let '(a2, x2, s') := received fm (mc_in a ++ [r]) (mk_machine (mc_in a) (tl (mc_out a)) (mc_table a)) x1 in
        exists b2, ok b2 a2 x2
          /\ forall fuel, feed p cond (S fuel) (duplex_getter ex) b x s = feed p cond fuel (duplex_getter ex) b2 x2 s'
    | Fault e => forall fuel, feed p cond (S fuel) (duplex_getter ex) b x s = Fault e
    end.
  Proof.
    intros cond b a x s Hr Hc Hsv.
    pose proof (step_follows p kr ft true Hp Hk Hs Get b a x Hr (conj I (or_intror I))) as H.
    unfold follows in H. cbn [step mc_step] in H.
    assert (Eg : mc_get a = (mk_machine (mc_in a) (tl (mc_out a)) (mc_table a), hd 0%Z (mc_out a)))
      by (destruct a as [i [|c o] t]; reflexivity).
    rewrite Eg in H. destruct H as (b1 & E & Hr1).
    destruct (get_byte b) as [[b1' c']|] eqn:Eb; cbn [bind] in E; [|discriminate]. injection E as -> ->.
    assert (Eperf : perform p (duplex_getter ex) b x
              = ('(x1, r) <- ex (hd 0%Z (mc_out a)) x;; Ok (b1, x1, r))).
    { unfold duplex_getter. cbn [perform step]. rewrite Eb. cbn [bind perform].
      destruct (ex (hd 0%Z (mc_out a)) x) as [[x1 r]|]; cbn [bind]; reflexivity. }
    destruct (ex (hd 0%Z (mc_out a)) x) as [[x1 r]|e] eqn:Ee; cbn [bind] in Eperf.
    - apply (world_reached p kr ft true Hp Hk Hs _ _ _ x1) in Hr1.
      assert (Hf : legitimate p true kr ft (Put r) (mk_machine (mc_in a) (tl (mc_out a)) (mc_table a)) x1).
      { split; [|left; reflexivity]. cbn [step_ok mc_in mc_table]. split; [exact (Hex _ _ _ _ Ee)|]. apply Hsv. reflexivity. }
      pose proof (put_follows p kr ft true Hp Hk Hs r b1 _ x1 Hr1 Hf) as H. unfold follows, mc_put in H.
      cbn [mc_in] in H. fold fm in H.
      destruct (received fm (mc_in a ++ [r]) _ x1) as [[a2 x2] s']. destruct H as (b2 & E2 & Hr2).
      exists b2. split; auto. intros fuel. cbn [feed]. rewrite Hc, Eperf. cbn [bind]. rewrite E2. reflexivity.
    - intros fuel. cbn [feed]. rewrite Hc, Eperf. reflexivity.
  Qed.

  (** A loop which goes on until the bytes which are missing have been received. *)
  Lemma phase : forall (cond : buffered X -> packet_status -> bool) cond',
    (forall b a x s, ok b a x -> cond b s = cond' (mc_in a) s) ->
    forall n fuel b a x s, ok b a x -> cond' (mc_in a) s = true ->
    missing fm (mc_table a) (mc_in a) = S n -> S n <= fuel ->
    (forall bs, length bs < S n -> cond' (mc_in a ++ bs) LOADING_PACKET = true) ->
    (forall bs out y a' x' s', length bs = S n ->
       received fm (mc_in a ++ bs) (mk_machine (mc_in a) out (mc_table a)) y = (a', x', s') ->
       cond' (mc_in a') s' = false) ->
    (forall x1 bs, swap ex (S n) (mc_out a) x = Ok (x1, bs) -> servable fm p (mc_table a) (mc_in a ++ bs) x1) ->
    flw (feed p cond fuel (duplex_getter ex) b x s)
        ('(x1, bs) <- swap ex (S n) (mc_out a) x;;
         Ok (received fm (mc_in a ++ bs) (mk_machine (mc_in a) (skipn (S n) (mc_out a)) (mc_table a)) x1)).
  Proof.
    intros cond cond' Hcc. induction n as [|n IH]; intros fuel b a x s Hr Hc Hm Hf Hin Hend Hsv;
      (destruct fuel as [|fuel]; [lia|]).
    - pose proof (feed_step cond b a x s Hr) as H. rewrite (Hcc b a x s Hr) in H. specialize (H Hc).
      cbn [swap]. cbn [swap] in Hsv.
      destruct (ex (hd 0%Z (mc_out a)) x) as [[x1 r]|e]; cbn [bind].
      + rewrite skipn_tl. cbn [skipn].
        specialize (H ltac:(intros y q E; injection E as <- <-; apply Hsv; reflexivity)).
        destruct (received fm (mc_in a ++ [r]) _ x1) as [[a2 x2] s'] eqn:Er. destruct H as (b2 & Hr2 & E).
        rewrite E. exists b2. split; auto.
        assert (Ec : cond b2 s' = false).
        { rewrite (Hcc b2 a2 x2 s' Hr2). apply (Hend [r] (tl (mc_out a)) x1 a2 x2 s'); auto. }
        destruct fuel; cbn [feed]; rewrite Ec; reflexivity.
      + rewrite H by discriminate. reflexivity.
    - pose proof (feed_step cond b a x s Hr) as H. rewrite (Hcc b a x s Hr) in H. specialize (H Hc).
      assert (Hn : forall r, missing fm (mc_table a) (mc_in a ++ [r]) = S n).
      { intros r. unfold fm in *. rewrite (missing_cons kr (kr_index_size kr) (le_n _)) by lia. lia. }
      specialize (H ltac:(intros; eapply servable_incomplete; eauto)).
      change (swap ex (S (S n)) (mc_out a) x)
        with ('(x1, r) <- ex (hd 0%Z (mc_out a)) x;;
              '(x2, rs) <- swap ex (S n) (tl (mc_out a)) x1;; Ok (x2, r :: rs)) in *.
      destruct (ex (hd 0%Z (mc_out a)) x) as [[x1 r]|e]; cbn [bind] in *.
        rewrite (received_incomplete _ n _ _ _ _ (Hn r)) in H. cbn [mc_out mc_table] in H.
        destruct H as (b2 & Hr2 & E). rewrite E. rewrite skipn_tl.
        specialize (IH fuel b2 _ x1 LOADING_PACKET Hr2). cbn [mc_in mc_out mc_table] in IH.
        assert (G : forall bs, (mc_in a ++ [r]) ++ bs = mc_in a ++ r :: bs) by (intros bs; rewrite <- app_assoc; reflexivity).
        assert (IH' := IH ltac:(apply (Hin [r]); cbn [length]; lia) (Hn r) ltac:(lia)). clear IH.
        assert (F1 : forall bs, length bs < S n -> cond' ((mc_in a ++ [r]) ++ bs) LOADING_PACKET = true).
        { intros bs Hb. rewrite G. apply Hin. cbn [length]. lia. }
        assert (F2 : forall bs out y a' x' s', length bs = S n ->
          received fm ((mc_in a ++ [r]) ++ bs) (mk_machine (mc_in a ++ [r]) out (mc_table a)) y = (a', x', s') ->
          cond' (mc_in a') s' = false).
        { intros bs out y a' x' s' Hb Hrc. apply (Hend (r :: bs) out y a' x' s'); [cbn [length]; lia|].
          rewrite <- G. exact Hrc. }
        assert (F3 : forall x2 bs, swap ex (S n) (tl (mc_out a)) x1 = Ok (x2, bs) ->
          servable fm p (mc_table a) ((mc_in a ++ [r]) ++ bs) x2).
        { intros x2 bs Hb. rewrite G. apply Hsv. rewrite Hb. reflexivity. }
        specialize (IH' F1 F2 F3). unfold flw, follows in IH' |- *.
        destruct (swap ex (S n) (tl (mc_out a)) x1) as [[x2 rs]|]; cbn [bind] in *; auto.
        rewrite G in IH'. exact IH'.
      + rewrite H. reflexivity.
  Qed.
  Lemma missing_all : forall (table : list (func X)) bs l, fm_w fm <= length bs -> length l = missing fm table bs ->
    missing fm table (bs ++ l) = 0.
  Proof.
    intros table bs l Hw Hl. unfold missing in *. rewrite app_length.
    destruct (Nat.ltb_spec (length bs) (fm_w fm)); [lia|]. destruct (Nat.ltb_spec (length bs + length l) (fm_w fm)); [lia|].
    assert (Ed : designated fm table (bs ++ l) = designated fm table bs).
    { unfold designated. rewrite firstn_app. replace (fm_w fm - length bs) with 0 by lia. cbn [firstn].
      rewrite app_nil_r. reflexivity. }
    rewrite Ed. destruct (designated fm table bs); lia.
  Qed.

  Lemma missing_bound : forall b a x bs, ok b a x -> missing fm (mc_table a) bs <= length (ibuf (b_bufs b)).
  Proof.
    intros b a x bs Hr. destruct (reached_represents p true kr ft Hp Hk Hs b a x Hr) as (ni & no & Hw & Hfr & Hrep).
    destruct Hrep as ((_ & _ & _ & Ht) & Hni & _). rewrite Hni.
    unfold missing. cbn [fm format_of fm_w]. fold fm. destruct (Nat.ltb_spec (length bs) (kr_index_size kr)); [lia|].
    destruct (designated fm (mc_table a) bs) as [f|] eqn:Ed; [|lia].
    unfold designated in Ed. apply nth_error_In in Ed. apply (in_map f_sig) in Ed. rewrite Ht in Ed.
    rewrite Forall_forall in Hfr. destruct (Hfr _ Ed) as (_ & H2 & _). unfold params. lia.
  Qed.

  Lemma index_pos : 1 <= fm_w fm.
  Proof. destruct Hk as [H _]. destruct (index_size X kr H) as (H1 & _). cbn. lia. Qed.

  Lemma feed_stop : forall (cond : buffered X -> packet_status -> bool) fuel src b x s, cond b s = false ->
    feed p cond fuel src b x s = Ok (b, x, s).
  Proof. intros cond fuel src b x s H. destruct fuel; cbn [feed]; rewrite H; reflexivity. Qed.

  Lemma received_complete : forall bs i out (table : list (func X)) (x x' : X) a' s, missing fm table bs = 0 ->
    received fm bs (mk_machine i out table) x = (a', x', s) -> mc_in a' = [] /\ s <> LOADING_PACKET.
  Proof.
    intros bs i out table x x' a' s H. apply (received_end kr).
    apply (examine_missing kr (kr_index_size kr) (le_n _)). exact H.
  Qed.

  Lemma payload_end : forall bs i out (table : list (func X)) (x x' : X) a' s (s0 : packet_status),
    missing fm table bs = 0 -> received fm bs (mk_machine i out table) x = (a', x', s) ->
    in_payload fm (mc_in a') s0 = false.
  Proof.
    intros bs i out table x x' a' s s0 H E. destruct (received_complete bs i out table x x' a' s H E) as [-> _].
    unfold in_payload. cbn [length]. apply Nat.leb_gt. pose proof index_pos. lia.
  Qed.

  Lemma read_exchange : forall fuel b a x, ok b a x -> length (ibuf (b_bufs b)) <= fuel ->
    (forall x' bs, exchanged fm ex a x = Ok (x', bs) -> servable fm p (mc_table a) (mc_in a ++ bs) x') ->
    flw (read_from_d p fuel (duplex_getter ex) b x)
        ('(x', bs) <- exchanged fm ex a x;;
         Ok (received fm (mc_in a ++ bs)
               (mk_machine (mc_in a) (skipn (length bs) (mc_out a)) (mc_table a)) x')).
  Proof.
    intros fuel b a x Hr Hf Hsv. unfold read_from_d.
    destruct (loaded_reached p kr ft true Hp Hk Hs b a x Hr) as (Hl & _ & Hm & Hm1). fold fm in Hl, Hm.
    destruct (missing fm (mc_table a) (mc_in a)) as [|n] eqn:En; [lia|].
    assert (Hn : S n <= fuel) by (pose proof (missing_bound b a x (mc_in a) Hr); lia).
    unfold exchanged in *. rewrite En in *.
    destruct (Nat.ltb_spec (length (mc_in a)) (fm_w fm)) as [Hw|Hw].
    - (* the index is being received *)
      assert (Enw : S n = fm_w fm - length (mc_in a)).
      { rewrite <- En. unfold missing. destruct (Nat.ltb_spec (length (mc_in a)) (fm_w fm)); lia. }
      pose proof (phase _ (in_index fm) (cond_index p kr ft true Hp Hk Hs) n fuel b a x LOADING_PACKET Hr) as H.
      assert (P1 : in_index fm (mc_in a) LOADING_PACKET = true) by (cbn [in_index]; apply Nat.ltb_lt; exact Hw).
      assert (P2 : forall bs, length bs < S n -> in_index fm (mc_in a ++ bs) LOADING_PACKET = true).
      { intros bs Hb. cbn [in_index]. apply Nat.ltb_lt. rewrite app_length. lia. }
      assert (P3 : forall bs out y a' x' s', length bs = S n ->
        received fm (mc_in a ++ bs) (mk_machine (mc_in a) out (mc_table a)) y = (a', x', s') ->
        in_index fm (mc_in a') s' = false).
      { intros bs out y a' x' s' Hb E. destruct (missing fm (mc_table a) (mc_in a ++ bs)) as [|k] eqn:Ek.
        - destruct (received_complete _ _ _ _ _ _ _ _ Ek E) as [_ Hns]. destruct s'; auto. congruence.
        - rewrite (received_incomplete _ k _ _ _ _ Ek) in E. injection E as <- _ <-. cbn [mc_in in_index].
          apply Nat.ltb_ge. rewrite app_length. lia. }
      assert (P4 : forall x1 bs, swap ex (S n) (mc_out a) x = Ok (x1, bs) -> servable fm p (mc_table a) (mc_in a ++ bs) x1).
      { intros x1 bs E. destruct (missing fm (mc_table a) (mc_in a ++ bs)) as [|k] eqn:Ek.
        - specialize (Hsv x1 bs). rewrite E in Hsv. cbn [bind] in Hsv. rewrite Ek in Hsv. cbn [swap bind] in Hsv.
          rewrite app_nil_r in Hsv. auto.
        - eapply servable_incomplete; eauto. }
      specialize (H P1 En Hn P2 P3 P4). clear P1 P2 P3 P4. unfold flw, follows in H |- *.
      destruct (swap ex (S n) (mc_out a) x) as [[x1 bs1]|e] eqn:Es; cbn [bind] in H |- *; [|rewrite H; reflexivity].
      pose proof (swap_length _ _ _ _ _ _ _ Es) as L1.
      destruct (missing fm (mc_table a) (mc_in a ++ bs1)) as [|k] eqn:Ek.
      + cbn [swap bind]. rewrite app_nil_r, L1.
        destruct (received fm (mc_in a ++ bs1) _ x1) as [[a2 x2] s2] eqn:Er. destruct H as (b2 & E & Hr2).
        rewrite E. cbn [bind]. exists b2. split; auto. apply feed_stop.
        rewrite (cond_payload p kr ft true Hp Hk Hs b2 a2 x2 s2 Hr2).
        apply (payload_end _ _ _ _ _ _ _ _ s2 Ek Er).
      + rewrite (received_incomplete _ k _ _ _ _ Ek) in H. cbn [mc_out mc_table] in H. destruct H as (b2 & E & Hr2).
        rewrite E. cbn [bind]. clear E.
        assert (Hw2 : fm_w fm <= length (mc_in a ++ bs1)) by (rewrite app_length; lia).
        assert (Hk2 : S k <= fuel) by (pose proof (missing_bound b a x (mc_in a ++ bs1) Hr); lia).
        rewrite L1. set (out1 := skipn (S n) (mc_out a)) in *.
        pose proof (phase (fun b _ => b_is_index_loaded b) (in_payload fm) (cond_payload p kr ft true Hp Hk Hs)
                      k fuel b2 _ x1 LOADING_PACKET Hr2) as H. cbn [mc_in mc_out mc_table] in H.
        assert (P1 : in_payload fm (mc_in a ++ bs1) LOADING_PACKET = true) by (apply Nat.leb_le; exact Hw2).
        assert (P2 : forall bs, length bs < S k -> in_payload fm ((mc_in a ++ bs1) ++ bs) LOADING_PACKET = true).
        { intros bs _. apply Nat.leb_le. rewrite app_length. lia. }
        assert (P3 : forall bs out y a' x' s', length bs = S k ->
          received fm ((mc_in a ++ bs1) ++ bs) (mk_machine (mc_in a ++ bs1) out (mc_table a)) y = (a', x', s') ->
          in_payload fm (mc_in a') s' = false).
        { intros bs out y a' x' s' Hb E. refine (payload_end _ _ _ _ _ _ _ _ s' _ E).
          apply missing_all; auto. congruence. }
        assert (P4 : forall x2 bs, swap ex (S k) out1 x1 = Ok (x2, bs) ->
          servable fm p (mc_table a) ((mc_in a ++ bs1) ++ bs) x2).
        { intros x2 bs E. rewrite <- app_assoc. apply Hsv. cbn [bind]. rewrite Ek, L1. fold out1. rewrite E. reflexivity. }
        specialize (H P1 Ek Hk2 P2 P3 P4). unfold flw, follows in H.
        destruct (swap ex (S k) out1 x1) as [[x2 bs2]|e] eqn:Es2; cbn [bind] in H |- *; [|exact H].
        pose proof (swap_length _ _ _ _ _ _ _ Es2) as L2.
        rewrite app_length, L1, L2. rewrite app_assoc.
        replace (skipn (S n + S k) (mc_out a)) with (skipn (S k) out1)
          by (unfold out1; rewrite skipn_skipn; f_equal; lia).
        rewrite (received_same kr _ (mk_machine (mc_in a) (skipn (S k) out1) (mc_table a))
                   (mk_machine (mc_in a ++ bs1) (skipn (S k) out1) (mc_table a))) by reflexivity.
        exact H.
    - (* the index is already there *)
      assert (Ei : negb (b_is_index_loaded b) && is_loading LOADING_PACKET = false) by (rewrite Hl; reflexivity).
      rewrite feed_stop by exact Ei. cbn [bind].
      pose proof (phase (fun b _ => b_is_index_loaded b) (in_payload fm) (cond_payload p kr ft true Hp Hk Hs)
                    n fuel b a x LOADING_PACKET Hr) as H.
      assert (Hall : forall bs, length bs = S n -> missing fm (mc_table a) (mc_in a ++ bs) = 0)
        by (intros bs Hb; apply missing_all; [auto|congruence]).
      assert (P1 : in_payload fm (mc_in a) LOADING_PACKET = true) by (apply Nat.leb_le; exact Hw).
      assert (P2 : forall bs, length bs < S n -> in_payload fm (mc_in a ++ bs) LOADING_PACKET = true).
      { intros bs _. apply Nat.leb_le. rewrite app_length. lia. }
      assert (P3 : forall bs out y a' x' s', length bs = S n ->
        received fm (mc_in a ++ bs) (mk_machine (mc_in a) out (mc_table a)) y = (a', x', s') ->
        in_payload fm (mc_in a') s' = false).
      { intros bs out y a' x' s' Hb E. exact (payload_end _ _ _ _ _ _ _ _ s' (Hall bs Hb) E). }
      assert (P4 : forall x1 bs, swap ex (S n) (mc_out a) x = Ok (x1, bs) ->
        servable fm p (mc_table a) (mc_in a ++ bs) x1).
      { intros x1 bs E. specialize (Hsv x1 bs). rewrite E in Hsv. cbn [bind] in Hsv.
        rewrite (Hall bs (swap_length _ _ _ _ _ _ _ E)) in Hsv. cbn [swap bind] in Hsv. rewrite app_nil_r in Hsv. auto. }
      specialize (H P1 En Hn P2 P3 P4). unfold flw, follows in H |- *.
      destruct (swap ex (S n) (mc_out a) x) as [[x1 bs1]|e] eqn:Es; cbn [bind] in H |- *; [|exact H].
      pose proof (swap_length _ _ _ _ _ _ _ Es) as L1. rewrite (Hall bs1 L1). cbn [swap bind].
      rewrite app_nil_r, L1. exact H.
  Qed.
  (** One turn of the loop of [write_to]. *)
  Lemma write_step : forall b a x c out, ok b a x -> mc_out a = c :: out ->
    (forall x1 r, ex c x = Ok (x1, r) -> servable fm p (mc_table a) (mc_in a ++ [r]) x1) ->
    match ex c x with
    | Ok (x1, r) =>
        let '(a2, x2, _) := received fm (mc_in a ++ [r]) (mk_machine (mc_in a) out (mc_table a)) x1 in
        exists b2, ok b2 a2 x2
          /\ forall fuel, write_to_d p (S fuel) (duplex_putter ex) b x = write_to_d p fuel (duplex_putter ex) b2 x2
    | Fault e => forall fuel, write_to_d p (S fuel) (duplex_putter ex) b x = Fault e
    end.
  Proof.
    intros b a x c out Hr Eo Hsv.
    destruct (loaded_reached p kr ft true Hp Hk Hs b a x Hr) as (_ & Hl & _). unfold mc_loaded in Hl. rewrite Eo in Hl.
    pose proof (step_follows p kr ft true Hp Hk Hs Get b a x Hr (conj I (or_intror I))) as H.
    unfold follows in H. cbn [step mc_step] in H. unfold mc_get in H. rewrite Eo in H. destruct H as (b1 & E & Hr1).
    destruct (get_byte b) as [[b1' c']|] eqn:Eb; cbn [bind] in E; [|discriminate]. injection E as -> ->.
    destruct (ex c x) as [[x1 r]|e] eqn:Ee.
    - apply (world_reached p kr ft true Hp Hk Hs _ _ _ x1) in Hr1.
      assert (Hf : legitimate p true kr ft (Put r) (mk_machine (mc_in a) out (mc_table a)) x1).
      { split; [|left; reflexivity]. cbn [step_ok mc_in mc_table]. split; [exact (Hex _ _ _ _ Ee)|]. apply Hsv. reflexivity. }
      pose proof (put_follows p kr ft true Hp Hk Hs r b1 _ x1 Hr1 Hf) as H. unfold follows, mc_put in H.
      cbn [mc_in] in H. fold fm in H.
      destruct (received fm (mc_in a ++ [r]) _ x1) as [[a2 x2] s']. destruct H as (b2 & E2 & Hr2).
      exists b2. split; auto. intros fuel. cbn [write_to_d]. rewrite Hl, Eb. cbn [bind].
      unfold duplex_putter at 1. cbn [perform]. rewrite Ee. cbn [bind perform step]. rewrite E2. reflexivity.
    - intros fuel. cbn [write_to_d]. rewrite Hl, Eb. cbn [bind]. unfold duplex_putter at 1. cbn [perform].
      rewrite Ee. reflexivity.
  Qed.

  (** What is received does not reach the end of what is missing. *)
  Lemma write_kept : forall n fuel b a x, ok b a x -> n = length (mc_out a) ->
    n < missing fm (mc_table a) (mc_in a) -> n <= fuel ->
    match swap ex n (mc_out a) x with
    | Ok (x', rs) => exists b', write_to_d p fuel (duplex_putter ex) b x = Ok (b', x')
        /\ ok b' (mk_machine (mc_in a ++ rs) [] (mc_table a)) x'
    | Fault e => write_to_d p fuel (duplex_putter ex) b x = Fault e
    end.
  Proof.
    induction n as [|n IH]; intros fuel b a x Hr En Hm Hf.
    - destruct (mc_out a) as [|] eqn:Eo; [|discriminate]. cbn [swap].
      destruct (loaded_reached p kr ft true Hp Hk Hs b a x Hr) as (_ & Hl & _). unfold mc_loaded in Hl. rewrite Eo in Hl.
      exists b. split; [destruct fuel; cbn [write_to_d]; rewrite Hl; reflexivity|].
      rewrite app_nil_r. destruct a as [i o t]. cbn [mc_out mc_in mc_table] in *. subst o. exact Hr.
    - destruct (mc_out a) as [|c out] eqn:Eo; [discriminate|]. cbn [length] in En. injection En as En.
      destruct fuel as [|fuel]; [lia|].
      assert (Hn : forall r, missing fm (mc_table a) (mc_in a ++ [r]) = S (missing fm (mc_table a) (mc_in a) - 2)).
      { intros r. unfold fm in *. rewrite (missing_cons kr (kr_index_size kr) (le_n _)) by lia. lia. }
      pose proof (write_step b a x c out Hr Eo ltac:(intros; eapply servable_incomplete; eauto)) as H.
      cbn [swap hd tl]. destruct (ex c x) as [[x1 r]|e]; cbn [bind]; [|apply H].
      rewrite (received_incomplete _ _ _ _ _ _ (Hn r)) in H. destruct H as (b2 & Hr2 & E). rewrite E.
      specialize (IH fuel b2 _ x1 Hr2). cbn [mc_in mc_out mc_table] in IH. rewrite (Hn r) in IH.
      specialize (IH En ltac:(lia) ltac:(lia)).
      destruct (swap ex n out x1) as [[x2 rs]|]; cbn [bind]; auto.
      rewrite <- app_assoc in IH. exact IH.
  Qed.

  (** It does. *)
  Lemma write_next : forall n b a x, ok b a x -> missing fm (mc_table a) (mc_in a) = S n -> S n <= length (mc_out a) ->
    (forall x1 rs, swap ex (S n) (mc_out a) x = Ok (x1, rs) -> servable fm p (mc_table a) (mc_in a ++ rs) x1) ->
    match swap ex (S n) (mc_out a) x with
    | Ok (x1, rs) =>
        let '(a', x', _) :=
          received fm (mc_in a ++ rs) (mk_machine (mc_in a) (skipn (S n) (mc_out a)) (mc_table a)) x1 in
        exists b', ok b' a' x'
          /\ forall fuel, write_to_d p (S n + fuel) (duplex_putter ex) b x = write_to_d p fuel (duplex_putter ex) b' x'
    | Fault e => forall fuel, write_to_d p (S n + fuel) (duplex_putter ex) b x = Fault e
    end.
  Proof.
    induction n as [|n IH]; intros b a x Hr Hm Hlen Hsv;
      (destruct (mc_out a) as [|c out] eqn:Eo; [cbn [length] in Hlen; lia|]).
    - cbn [swap hd tl skipn] in *. pose proof (write_step b a x c out Hr Eo) as H.
      destruct (ex c x) as [[x1 r]|e]; cbn [bind] in *.
      + apply H. intros y q E. injection E as <- <-. apply Hsv. reflexivity.
      + apply H. discriminate.
    - assert (Hn : forall r, missing fm (mc_table a) (mc_in a ++ [r]) = S n).
      { intros r. unfold fm in *. rewrite (missing_cons kr (kr_index_size kr) (le_n _)) by lia. lia. }
      pose proof (write_step b a x c out Hr Eo ltac:(intros; eapply servable_incomplete; eauto)) as H.
      change (swap ex (S (S n)) (c :: out) x)
        with ('(x1, r) <- ex c x;; '(x2, rs) <- swap ex (S n) out x1;; Ok (x2, r :: rs)) in *.
      destruct (ex c x) as [[x1 r]|e]; cbn [bind] in *; [|intros fuel; apply H].
      rewrite (received_incomplete _ _ _ _ _ _ (Hn r)) in H. destruct H as (b2 & Hr2 & E).
      specialize (IH b2 _ x1 Hr2). cbn [mc_in mc_out mc_table] in IH.
      cbn [length] in Hlen. specialize (IH (Hn r) ltac:(lia)).
      assert (G : forall bs, (mc_in a ++ [r]) ++ bs = mc_in a ++ r :: bs) by (intros bs; rewrite <- app_assoc; reflexivity).
      assert (F : forall x2 rs, swap ex (S n) out x1 = Ok (x2, rs) -> servable fm p (mc_table a) ((mc_in a ++ [r]) ++ rs) x2).
      { intros x2 rs Es. rewrite G. apply Hsv. rewrite Es. reflexivity. }
      specialize (IH F). change (skipn (S (S n)) (c :: out)) with (skipn (S n) out).
      destruct (swap ex (S n) out x1) as [[x2 rs]|]; cbn [bind].
      + rewrite G in IH.
        rewrite (received_same kr _ (mk_machine (mc_in a) (skipn (S n) out) (mc_table a))
                   (mk_machine (mc_in a ++ [r]) (skipn (S n) out) (mc_table a))) by reflexivity.
        fold fm. destruct (received fm (mc_in a ++ r :: rs) _ x2) as [[a' x'] s'].
        destruct IH as (b' & Hr' & E'). exists b'. split; auto. intros fuel.
        change (S (S n) + fuel) with (S (S n + fuel)). rewrite E. apply E'.
      + intros fuel. change (S (S n) + fuel) with (S (S n + fuel)). rewrite E. apply IH.
  Qed.
End Exchange.

(** [read_from([&]() { return exchange(dispatcher.get()); })] on a double buffered
    dispatcher: a request is received against the pending response, then zeros.  What
    was pending beyond the length of the request is dropped if the request is
    resolved. *)
Theorem C99_full_duplex : forall (X : Type) p (kr : keyring X) ft exchange fuel b a x,
  wf_platform p -> keyring_ok p kr -> well_sized true kr ft -> gives_bytes_back exchange ->
  reached p true kr ft b a x -> length (ibuf (b_bufs b)) <= fuel ->
  let fm := format_of kr in
  (forall x' bs, exchanged fm exchange a x = Ok (x', bs) -> servable fm p (mc_table a) (mc_in a ++ bs) x') ->
  follows p true kr ft (read_from_d p fuel (duplex_getter exchange) b x)
    ('(x', bs) <- exchanged fm exchange a x;;
     Ok (received fm (mc_in a ++ bs) (mk_machine (mc_in a) (skipn (length bs) (mc_out a)) (mc_table a)) x')).
Proof.
  intros X p kr ft exchange fuel b a x Hp Hk Hs Hex Hr Hf fm Hsv.
  exact (read_exchange p kr ft Hp Hk Hs exchange Hex fuel b a x Hr Hf Hsv).
Qed.

(** [write_to([&](byte_t byte) { dispatcher.put(exchange(byte)); })] on a double
    buffered dispatcher.  A response shorter than what is missing of the request is
    sent whole, and what is received meanwhile is kept. *)
Theorem C99_feed : forall (X : Type) p (kr : keyring X) ft exchange fuel b a x,
  wf_platform p -> keyring_ok p kr -> well_sized true kr ft -> gives_bytes_back exchange ->
  reached p true kr ft b a x ->
  length (mc_out a) < missing (format_of kr) (mc_table a) (mc_in a) -> length (mc_out a) <= fuel ->
  match swap exchange (length (mc_out a)) (mc_out a) x with
  | Ok (x', rs) => exists b', write_to_d p fuel (duplex_putter exchange) b x = Ok (b', x')
      /\ reached p true kr ft b' (mk_machine (mc_in a ++ rs) [] (mc_table a)) x'
  | Fault e => write_to_d p fuel (duplex_putter exchange) b x = Fault e
  end.
Proof.
  intros X p kr ft exchange fuel b a x Hp Hk Hs Hex Hr Hm Hf.
  exact (write_kept p kr ft Hp Hk Hs exchange Hex _ fuel b a x Hr eq_refl Hm Hf).
Qed.

(** A longer one is sent up to the byte against which the index, or the request, is
    complete.  If it is a request, [write_to] goes on with the response of the new
    request: the rest of the first one is never sent. *)
Theorem C99_feed_cut : forall (X : Type) p (kr : keyring X) ft exchange b a x,
  wf_platform p -> keyring_ok p kr -> well_sized true kr ft -> gives_bytes_back exchange ->
  reached p true kr ft b a x ->
  let fm := format_of kr in
  let n := missing fm (mc_table a) (mc_in a) in
  n <= length (mc_out a) ->
  (forall x1 rs, swap exchange n (mc_out a) x = Ok (x1, rs) -> servable fm p (mc_table a) (mc_in a ++ rs) x1) ->
  match swap exchange n (mc_out a) x with
  | Ok (x1, rs) =>
      let '(a', x', _) :=
        received fm (mc_in a ++ rs) (mk_machine (mc_in a) (skipn n (mc_out a)) (mc_table a)) x1 in
      exists b', reached p true kr ft b' a' x'
        /\ forall fuel, write_to_d p (n + fuel) (duplex_putter exchange) b x
                      = write_to_d p fuel (duplex_putter exchange) b' x'
  | Fault e => forall fuel, write_to_d p (n + fuel) (duplex_putter exchange) b x = Fault e
  end.
Proof.
  intros X p kr ft exchange b a x Hp Hk Hs Hex Hr fm n Hn Hsv.
  destruct (loaded_reached p kr ft true Hp Hk Hs b a x Hr) as (_ & _ & Hm & Hm1). fold fm in Hm.
  unfold n in *. destruct (missing fm (mc_table a) (mc_in a)) as [|m] eqn:Em; [lia|].
  exact (write_next p kr ft Hp Hk Hs exchange Hex m b a x Hr Em Hn Hsv).
Qed.

(** ** Examples and failures *)

(** Callbacks whose requests are of two, one and five bytes, and their responses
    of one, one and four. *)
Definition echo_func {X : Type} : func X :=
  mk_func (mk_sig [TUns 1] (Some (TUns 1)))
    (fun args x => (x, match args with [VInt v] => VInt ((v + 1) mod 256) | _ => VInt 0 end)).
Definition ping_func {X : Type} : func X :=
  mk_func (mk_sig [] (Some (TUns 1))) (fun args x => (x, VInt 42)).
Definition wide_func {X : Type} : func X :=
  mk_func (mk_sig [TUns 4] (Some (TUns 4))) (fun args x => (x, VInt 16909060)).

(** The link: what will be received, what was sent. *)
Definition link : Type := list Z * list Z.
Definition link_keyring : keyring link :=
  mk_keyring BIG TWOS_COMPLEMENT [(1, echo_func); (2, ping_func); (3, wide_func)].
Definition link_exchange (c : Z) (x : link) : res (link * Z) :=
  match fst x with
  | [] => Fault NoInput
  | r :: rs => Ok ((rs, snd x ++ [c]), (r mod 256)%Z)
  end.

Lemma link_ok : keyring_ok pc_native link_keyring /\ well_sized true link_keyring ANY
  /\ gives_bytes_back link_exchange.
Proof.
  split; [|split].
  - split; [vm_compute; reflexivity|]. unfold link_keyring. cbn [kr_funcs kr_e kr_m].
    list_cases; split; cbn [snd f_sig sig_params sig_ret echo_func ping_func wide_func ret_ty_ok]; tyoks.
  - unfold well_sized, link_keyring, kr_signatures; cbn [kr_funcs map snd]; list_cases;
      (split; [discriminate|]); vm_compute; lia.
  - intros c x x' r H. unfold link_exchange in H. destruct (fst x) as [|b bs]; [discriminate|].
    injection H as _ <-. apply Z.mod_pos_bound. reflexivity.
Qed.

(** A request for the third callback has been received: its response is pending. *)
Definition link_table : list (func link) := map snd (kr_funcs link_keyring).
Definition link_pending : buffered link :=
  mk_buffered (make_dispatcher link_keyring ANY) false 1 0 0 4 (Double [2; 0; 0; 0; 0]%Z [1; 2; 3; 4]%Z).

Lemma link_pending_reached : forall x,
  reached pc_native true link_keyring ANY link_pending (mk_machine [] [1; 2; 3; 4]%Z link_table) x.
Proof.
  intros x. apply (world_reached pc_native link_keyring ANY true pc_native_wf (proj1 link_ok) (proj1 (proj2 link_ok)) _ _ ([], [])).
  exists [], []. eexists. exists ([Put 2; Put 0; Put 0; Put 0; Put 0]%Z), ([], []). eexists.
  split; [reflexivity|]. split; [legit|]. split; vm_compute; reflexivity.
Qed.

(** What is observed: the world, the result and what is pending. *)
Definition seen {V : Type} (r : res (buffered link * link * V)) : res (link * V * (nat * bool)) :=
  '(b, x, v) <- r;; Ok (x, v, (b_obuf_bottom b - b_obuf_next b, b_is_index_loaded b)).

(** The first two bytes of the response are sent against a request for the first
    callback; the last two are lost.  The second request is received against the
    response of the first. *)
Example C99_example_full_duplex :
  let fm := format_of link_keyring in
  let a := mk_machine [] [1; 2; 3; 4]%Z link_table in
  let x := ([0; 7; 2; 0; 0; 0; 9], [])%Z : link in
  (forall x' bs, exchanged fm link_exchange a x = Ok (x', bs) -> servable fm pc_native (mc_table a) (mc_in a ++ bs) x')
  /\ length (ibuf (b_bufs link_pending)) <= 5
  /\ exchanged fm link_exchange a x = Ok (([2; 0; 0; 0; 9], [1; 2])%Z, [0; 7]%Z)
  /\ seen (read_from_d pc_native 5 (duplex_getter link_exchange) link_pending x)
     = Ok (([2; 0; 0; 0; 9], [1; 2])%Z, RESOLVED_PACKET, (1, false))
  /\ seen ('(b, x, _) <- read_from_d pc_native 5 (duplex_getter link_exchange) link_pending x;;
           read_from_d pc_native 5 (duplex_getter link_exchange) b x)
     = Ok (([], [1; 2; 8; 0; 0; 0; 0])%Z, RESOLVED_PACKET, (4, false)).
Proof.
  cbv zeta. split.
  - intros x' bs H. assert (E : x' = ([2; 0; 0; 0; 9], [1; 2])%Z /\ bs = [0; 7]%Z)
      by (vm_compute in H; injection H as <- <-; auto).
    destruct E as [-> ->]. vm_compute. repeat constructor; range.
  - split; [vm_compute; repeat constructor|]. repeat (split; [vm_compute; reflexivity|]). vm_compute. reflexivity.
Qed.

(** A response of one byte is sent while a request of five bytes is received. *)
Example C99_example_feed : exists b,
  let a := mk_machine [2]%Z [8]%Z link_table in
  let x := ([5; 6], [])%Z : link in
  reached pc_native true link_keyring ANY b a x
  /\ length (mc_out a) < missing (format_of link_keyring) (mc_table a) (mc_in a)
  /\ swap link_exchange 1 [8]%Z x = Ok (([6], [8])%Z, [5]%Z)
  /\ seen (unit_of (write_to_d pc_native 1 (duplex_putter link_exchange) b x)) = Ok (([6], [8])%Z, tt, (0, true)).
Proof.
  exists (mk_buffered (make_dispatcher link_keyring ANY) true 4 1 0 1 (Double [2; 7; 0; 0; 0]%Z [8; 0; 0; 0]%Z)).
  cbv zeta. split.
  - apply (world_reached pc_native link_keyring ANY true pc_native_wf (proj1 link_ok) (proj1 (proj2 link_ok)) _ _ ([], [])).
    exists [], []. eexists. exists ([Put 0; Put 7; Put 2]%Z), ([], []). eexists.
    split; [reflexivity|]. split; [legit|]. split; vm_compute; reflexivity.
  - split; [vm_compute; lia|]. split; vm_compute; reflexivity.
Qed.

(** A response of four bytes is sent while a request of one byte is received, whose
    response of one byte is sent while another one is dropped. *)
Example C99_example_feed_cut :
  let fm := format_of link_keyring in
  let a := mk_machine [] [1; 2; 3; 4]%Z link_table in
  let x := ([1; 9; 0], [])%Z : link in
  missing fm (mc_table a) (mc_in a) <= length (mc_out a)
  /\ swap link_exchange 1 [1; 2; 3; 4]%Z x = Ok (([9; 0], [1])%Z, [1]%Z)
  /\ servable fm pc_native (mc_table a) (mc_in a ++ [1]%Z) ([9; 0], [1])%Z
  /\ seen (unit_of (write_to_d pc_native 5 (duplex_putter link_exchange) link_pending x))
     = Ok (([0], [1; 42])%Z, tt, (0, false)).
Proof.
  cbv zeta. split; [vm_compute; lia|]. split; [vm_compute; reflexivity|].
  split; [vm_compute; repeat constructor; range|]. vm_compute. reflexivity.
Qed.

(** [write_to] may never return: each byte of a response is sent against a request,
    whose response is to be sent. *)
Definition always_ping (c : Z) (x : link) : res (link * Z) := Ok ((fst x, snd x ++ [c]), 1%Z).

Theorem C99_ends_refuted : exists (kr : keyring link) ft exchange b a x,
  keyring_ok pc_native kr /\ well_sized true kr ft /\ gives_bytes_back exchange
  /\ reached pc_native true kr ft b a x
  /\ forall fuel, write_to_d pc_native fuel (duplex_putter exchange) b x = Fault OutOfFuel.
Proof.
  assert (Hex : gives_bytes_back always_ping).
  { intros c x x' r H. injection H as _ <-. range. }
  exists link_keyring, ANY, always_ping, link_pending, (mk_machine [] [1; 2; 3; 4]%Z link_table), ([], []).
  split; [exact (proj1 link_ok)|]. split; [exact (proj1 (proj2 link_ok))|]. split; [exact Hex|].
  split; [apply link_pending_reached|].
  assert (G : forall fuel b c out x, reached pc_native true link_keyring ANY b (mk_machine [] (c :: out) link_table) x ->
    write_to_d pc_native fuel (duplex_putter always_ping) b x = Fault OutOfFuel).
  { induction fuel as [|fuel IH]; intros b c out x Hr.
    - cbn [write_to_d].
      destruct (loaded_reached pc_native link_keyring ANY true pc_native_wf (proj1 link_ok) (proj1 (proj2 link_ok)) _ _ _ Hr)
        as (_ & Hl & _). rewrite Hl. reflexivity.
    - pose proof (C99_feed_cut link pc_native link_keyring ANY always_ping b _ x pc_native_wf (proj1 link_ok)
                    (proj1 (proj2 link_ok)) Hex Hr) as H. cbv zeta in H. cbn [mc_in mc_out mc_table] in H.
      assert (En : missing (format_of link_keyring) link_table [] = 1) by reflexivity. rewrite En in H.
      cbn [swap always_ping bind hd tl skipn app length] in H.
      specialize (H ltac:(lia) ltac:(intros x1 rs E; injection E as <- <-; vm_compute; repeat constructor; range)).
      destruct x as [xi xo]. cbn [fst snd] in H.
      assert (Er : received (format_of link_keyring) [1%Z] (mk_machine [] out link_table) (xi, xo ++ [c])
                   = (mk_machine [] [42%Z] link_table, (xi, xo ++ [c]), RESOLVED_PACKET)) by reflexivity.
      rewrite Er in H. destruct H as (b' & Hr' & E). etransitivity; [exact (E fuel)|]. exact (IH b' 42%Z [] _ Hr'). }
  intros fuel. exact (G fuel link_pending 1%Z [2; 3; 4]%Z _ (link_pending_reached _)).
Qed.

(** A getter which empties a receiver: what is there is put, the last byte is
    returned.  [while (available() > 1) dispatcher.put(read()); return read();] *)
Fixpoint drain {X : Type} (burst : list Z) : routine X Z :=
  match burst with
  | [] => World (fun _ => Fault NoInput)
  | [c] => Done c
  | c :: burst' => Use (Put c) (fun _ => drain burst')
  end.
Definition draining : routine (list (list Z)) Z :=
  World (fun x => match x with [] => Fault NoInput | burst :: rest => Ok (rest, drain burst) end).

(** The conditions of C99_refines: the request which the getter completes and the one
    it puts whole are resolved, their responses are lost; the last one is sent. *)
Definition burst_keyring : keyring (list (list Z)) :=
  mk_keyring BIG TWOS_COMPLEMENT [(1, echo_func); (2, ping_func)].

Ltac next :=
  let H := fresh in intros ? ? ? H; vm_compute in H; injection H as <- <- <-.
Ltac fair_put :=
  split; [split; [range|vm_compute; repeat constructor; range]|left; reflexivity].

Example C99_example : exists b,
  let fm := format_of burst_keyring in
  let fair := legitimate pc_native true burst_keyring ANY in
  let bursts := [[0]; [7; 1; 0]; [5]]%Z in
  keyring_ok pc_native burst_keyring /\ well_sized true burst_keyring ANY
  /\ reached pc_native true burst_keyring ANY b (fresh burst_keyring) bursts
  /\ reads fm fair 3 draining (fresh burst_keyring) bursts
  /\ mc_read_d fm 3 draining (fresh burst_keyring) bursts
     = Ok (mk_machine [] [6]%Z (map snd (kr_funcs burst_keyring)), [], RESOLVED_PACKET).
Proof.
  eexists. cbv zeta. split; [|split; [|split; [|split]]].
  - split; [vm_compute; reflexivity|]. unfold burst_keyring. cbn [kr_funcs kr_e kr_m].
    list_cases; split; cbn [snd f_sig sig_params sig_ret echo_func ping_func ret_ty_ok]; tyoks.
  - unfold well_sized, burst_keyring, kr_signatures; cbn [kr_funcs map snd]; list_cases;
      (split; [discriminate|]); vm_compute; lia.
  - exists [], []. eexists. exists [], ([[0]; [7; 1; 0]; [5]]%Z). eexists. split; [reflexivity|]. split; [exact I|].
    split; reflexivity.
  - split.
    + cbn [feeds]. intros _. split; [exact I|]. next. split; [fair_put|]. next. intros H. discriminate H.
    + next. cbn [feeds]. intros _. split.
      * cbn [performs draining drain]. split; [discriminate|]. split; [fair_put|]. next.
        cbn [performs draining drain]. split; [discriminate|]. split; [fair_put|]. next. exact I.
      * next. split; [fair_put|]. next. intros _. split; [exact I|]. next. split; [fair_put|]. next.
        intros H. discriminate H.
  - vm_compute. reflexivity.
Qed.

(** With such a getter and an index of two bytes, [read_from] may return
    [LOADING_PACKET], which it does not document, although a request was resolved;
    [operator()] then leaves the response unsent. *)
Theorem C99_status_refuted : exists (kr : keyring (list (list Z))) ft b b',
  keyring_ok pc_native kr /\ well_sized true kr ft /\ make_double kr ft [] [] = Some b
  /\ let bursts := [[0]; [0]; [7; 0]]%Z in
     read_from_d pc_native 3 draining b bursts = Ok (b', [], LOADING_PACKET)
     /\ is_loaded b' = true /\ get_byte b' = Ok (advance b' 1, 8%Z)
     /\ forall dest, process_d pc_native 3 draining dest b bursts = Ok (b', [], LOADING_PACKET).
Proof.
  set (kr := mk_keyring BIG TWOS_COMPLEMENT (repeat (0, echo_func) 256) : keyring (list (list Z))).
  assert (Q : match make_double kr ANY [] [] with
              | Some b => match read_from_d pc_native 3 draining b [[0]; [0]; [7; 0]]%Z with
                          | Ok (b', x, s) => x = [] /\ s = LOADING_PACKET /\ is_loaded b' = true
                                             /\ load (obuf (b_bufs b')) (b_obuf_next b') = Ok 8%Z
                          | Fault _ => False
                          end
              | None => False
              end) by (vm_compute; repeat split).
  destruct (make_double kr ANY [] []) as [b|] eqn:Eb; [|contradiction].
  destruct (read_from_d pc_native 3 draining b [[0]; [0]; [7; 0]]%Z) as [[[b' x] s]|] eqn:Er; [|contradiction].
  destruct Q as (-> & -> & Q1 & Q2).
  exists kr, ANY, b, b'. split; [|split; [|split; [exact Eb|]]].
  - split; [vm_compute; reflexivity|]. unfold kr. cbn [kr_funcs kr_e kr_m]. apply Forall_forall. intros nf H.
    apply repeat_spec in H. subst nf. split; cbn [snd f_sig sig_params sig_ret echo_func ret_ty_ok]; tyoks.
  - assert (Ew : max_native kr = 1) by (vm_compute; reflexivity).
    unfold well_sized, out_capacity. rewrite Ew. unfold kr, kr_signatures. apply Forall_forall. intros nf H.
    apply in_map_iff in H. destruct H as (g & <- & H). cbn [kr_funcs] in H. apply repeat_spec in H. subst g.
    split; [discriminate|]. cbn. lia.
  - cbv zeta. split; [exact Er|]. split; [exact Q1|]. split.
    + unfold get_byte. rewrite Q1, Q2. cbn [bind]. unfold advance. rewrite Nat.add_1_r. reflexivity.
    + intros dest. unfold process_d. rewrite Er. reflexivity.
Qed.

Print Assumptions C99_aloof.
Print Assumptions C99_ends.
Print Assumptions C99_refines.
Print Assumptions C99_full_duplex.
Print Assumptions C99_feed.
Print Assumptions C99_feed_cut.
Print Assumptions C99_ends_refuted.
Print Assumptions C99_status_refuted.
