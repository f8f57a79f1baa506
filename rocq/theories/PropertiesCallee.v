(** Property C63: the callee of README.md. *)

From Coq Require Import List ZArith Lia Bool Arith.
From Verif Require Import Base CInt Spec IntModel Conditions MemFacts TypeLevel Serial TupleModel
  TypeLevelProofs IntProofs SignedProofs SerialProofs CodecFacts Bounds TupleProofs SpecRpc Rpc RpcProofs
  Hosts Closed PropertiesTypes PropertiesRpc Buffered SpecBuffered BufferedProofs PropertiesBuffered
  PropertiesBuffers PropertiesPackets PropertiesStreams Firmware.
Import ListNotations.
Open Scope nat_scope.

(** ** Specification *)

(** A transmission which brings the world from the one to the other: requests,
    or requests and an index which designates nothing and whatever follows it.
    It may be empty. *)
Inductive transmission {X : Type} (p : platform) (kr : keyring X) : X -> list Z -> X -> Prop :=
| transmission_whole : forall reqs x bytes outs x', session p kr reqs x bytes outs x' -> transmission p kr x bytes x'
| transmission_spoiled : forall reqs x bytes outs x' idx rest, session p kr reqs x bytes outs x' -> bad_index kr idx ->
    transmission p kr x (bytes ++ idx ++ rest) x'.

Inductive sequel {X : Type} (p : platform) (kr : keyring X) : X -> list (list Z) -> X -> Prop :=
| sequel_nil : forall x, sequel p kr x [] x
| sequel_cons : forall x t x1 ts x2, transmission p kr x t x1 -> sequel p kr x1 ts x2 -> sequel p kr x (t :: ts) x2.

Definition int_max (p : platform) : Z := (2 ^ (8 * Z.of_nat (p_int_size p) - 1) - 1)%Z.

(** No callback returns anything. *)
Definition all_void {X : Type} (kr : keyring X) : Prop :=
  Forall (fun nf => sig_ret (f_sig (snd nf)) = None) (kr_funcs kr).

(** ** Proofs *)

(** [Wire.read()] gives [bytes]. *)
Fixpoint draws (bytes fifo fifo' : list Z) : Prop :=
  match bytes with
  | [] => fifo = fifo'
  | byte :: bytes' => fst (wire_read fifo) = byte /\ draws bytes' (snd (wire_read fifo)) fifo'
  end.

Lemma draws_app : forall bytes fifo', draws bytes (bytes ++ fifo') fifo'.
Proof. induction bytes; cbn; auto. Qed.

Lemma draws_empty : forall n, draws (repeat 255%Z n) [] [].
Proof. induction n; cbn; auto. Qed.

Lemma map_repeated : forall (A B : Type) (f : A -> B) a n, map f (repeat a n) = repeat (f a) n.
Proof. intros. induction n; cbn; congruence. Qed.

Section Callee.
  Context {X : Type}.
  Variables (p : platform) (dbl : bool) (kr : keyring X) (ft : action_features).
  Hypothesis Hp : wf_platform p.
  Hypothesis Hk : keyring_ok p kr.
  Hypothesis Hs : well_sized dbl kr ft.
  Hypothesis Hvoid : dbl = true \/ all_void kr.
  Let fm : format := format_of kr.
  Let w := kr_index_size kr.

  Lemma int_range : forall z, (-9 <= z <= int_max p)%Z -> arith (CInt (p_int_size p) true) z = Ok z.
  Proof.
    intros z Hz. unfold arith, int_max, bits in *. pose proof (wf_int_size p Hp) as H.
    assert (2 ^ 4 <= 2 ^ (8 * Z.of_nat (p_int_size p) - 1))%Z by (apply Z.pow_le_mono_r; lia).
    change (2 ^ 4)%Z with 16%Z in *.
    destruct (Z.leb_spec (- 2 ^ (8 * Z.of_nat (p_int_size p) - 1)) z); [|lia].
    destruct (Z.ltb_spec z (2 ^ (8 * Z.of_nat (p_int_size p) - 1))); [reflexivity|lia].
  Qed.

  (** The loop, as long as nothing is dropped. *)
  Lemma on_receive_run : forall bytes ss s fuel n fifo fifo' (b : buffered X) x b' x',
    run_ops p (map Put bytes) b x = Ok (b', x', map OStatus (ss ++ [s])) -> Forall (fun s => s <> DROPPED_PACKET) ss ->
    draws bytes fifo fifo' -> (forall k : nat, 0 < k < length bytes -> n <> Z.of_nat k) ->
    (n <= int_max p + 1)%Z -> (-9 <= n - Z.of_nat (length bytes))%Z ->
    on_receive p (length bytes + fuel) n fifo b x
    = if ((n =? Z.of_nat (length bytes))%Z || is_dropped s)%bool then Ok (b', x', fifo')
      else on_receive p fuel (n - Z.of_nat (length bytes)) fifo' b' x'.
  Proof.
    induction bytes as [|byte bytes IH]; intros ss s fuel n fifo fifo' b x b' x' E Hss Hd Hn Hmax Hmin.
    { cbn [map run_ops] in E. destruct ss; discriminate. }
    cbn [map run_ops step] in E. destruct (put p byte b x) as [[[b1 x1] s1]|] eqn:Ep; [|discriminate]. cbn [bind] in E.
    destruct (run_ops p (map Put bytes) b1 x1) as [[[b2 x2] vs]|] eqn:Er; [|discriminate]. cbn [bind] in E.
    assert (b2 = b' /\ x2 = x') as [-> ->] by (split; congruence).
    assert (Ev : OStatus s1 :: vs = map OStatus (ss ++ [s])) by congruence. clear E.
    cbn [draws] in Hd. destruct Hd as [Hb Hd]. cbn [length Nat.add on_receive] in *.
    destruct (wire_read fifo) as [c fifo1]. cbn [fst snd] in Hb, Hd. subst c. rewrite Ep. cbn [bind].
    rewrite int_range by lia. cbn [bind]. destruct bytes as [|byte' bytes].
    - cbn [map run_ops] in Er. injection Er as -> -> <-.
      destruct ss as [|s0 ss]; [|destruct ss; discriminate]. cbn [app map] in Ev. assert (s1 = s) by congruence. subst s1.
      cbn [draws] in Hd. subst fifo1. cbn [length Nat.add].
      destruct (Z.eqb_spec (n - 1) 0), (Z.eqb_spec n (Z.of_nat 1)); try lia; destruct (is_dropped s); reflexivity.
    - destruct ss as [|s0 ss].
      { cbn [app map] in Ev. assert (vs = []) as -> by congruence. cbn [map run_ops] in Er. exfalso.
        destruct (step p (Put byte') b1 x1) as [[[b2 x2] v]|]; [|discriminate]. cbn [bind] in Er.
        destruct (run_ops p (map Put bytes) b2 x2) as [[[b3 x3] vs]|]; discriminate. }
      cbn [app map] in Ev. assert (s1 = s0 /\ vs = map OStatus (ss ++ [s])) as [-> ->] by (split; congruence).
      inversion Hss as [|q l Hs0 Hss']; subst q l.
      assert (Hn1 : n <> 1%Z) by (apply (Hn 1); cbn [length]; lia).
      destruct (Z.eqb_spec (n - 1) 0); [lia|]. replace (is_dropped s0) with false by (destruct s0; [reflexivity|congruence|reflexivity]).
      cbn [negb andb]. rewrite (IH ss s fuel (n - 1)%Z fifo1 fifo' b1 x1 b' x' Er Hss' Hd).
      + destruct (Z.eqb_spec (n - 1) (Z.of_nat (length (byte' :: bytes)))),
                 (Z.eqb_spec n (Z.of_nat (S (length (byte' :: bytes))))); try lia; cbn [orb]; auto.
        destruct (is_dropped s); auto. f_equal. lia.
      + intros k Hlt En. apply (Hn (S k)); cbn [length] in *; lia.
      + lia.
      + lia.
  Qed.

  (** Between two requests. *)
  Definition waiting (b : buffered X) (x : X) : Prop :=
    exists a, reached p dbl kr ft b a x /\ mc_in a = [] /\ quiet dbl a /\ mc_table a = map snd (kr_funcs kr).

  Lemma packet_received : forall i name f args x x1 r b, waiting b x ->
    nth_error (kr_funcs kr) i = Some (name, f) -> calls p kr f args x x1 r ->
    exists b', waiting b' x1
      /\ forall fuel n fifo, (Z.of_nat (length (packet kr i f args)) <= n <= int_max p)%Z -> on_receive p (length (packet kr i f args) + fuel) n (packet kr i f args ++ fifo) b x
         = if (n =? Z.of_nat (length (packet kr i f args)))%Z then Ok (b', x1, fifo)
           else on_receive p fuel (n - Z.of_nat (length (packet kr i f args))) fifo b' x1.
  Proof.
    intros i name f args x x1 r b (a & H & Hin & Hq & Hta) Hi Hc.
    pose proof (reached_table p dbl kr ft Hp Hk Hs b a x H) as Ht.
    pose proof (index_size X kr ltac:(apply Hk)) as ((Hw & _) & _ & _).
    pose proof (packet_length p kr i f args x x1 r Hc) as Hl.
    assert (Hi' : nth_error (mc_table a) i = Some f).
    { rewrite Hta, nth_error_map, Hi. reflexivity. }
    destruct (mc_feed p dbl kr ft Hk (length (packet kr i f args)) 0 i f args x x1 r a Ht Hi' Hc Hin ltac:(lia) ltac:(lia) Hq)
      as [Hr Hal]. cbn [skipn] in Hr, Hal.
    destruct (reached_run p dbl kr ft Hp Hk Hs _ b a x _ x1 _ H Hal Hr) as (b' & E & H').
    exists b'. split.
    - eexists. split; [exact H'|]. split; [reflexivity|]. split; [|exact Hta]. destruct Hvoid as [-> | Hv]; [left; reflexivity|].
      right. cbn [mc_out]. unfold answer, all_void in *. rewrite Forall_forall in Hv.
      specialize (Hv (name, f) (nth_error_In _ _ Hi)). cbn [snd] in Hv. rewrite Hv. reflexivity.
    - intros fuel n fifo Hn. rewrite (on_receive_run (packet kr i f args) (repeat LOADING_PACKET (length (packet kr i f args) - 1)) RESOLVED_PACKET
                 fuel n _ fifo b x b' x1).
      + cbn [is_dropped]. rewrite orb_false_r. reflexivity.
      + rewrite E, map_app, map_repeated. reflexivity.
      + apply Forall_forall. intros s Hin'. apply repeat_spec in Hin'. congruence.
      + apply draws_app.
      + intros k Hlt. lia.
      + lia.
      + lia.
  Qed.

  Lemma session_received : forall reqs x bytes outs x', session p kr reqs x bytes outs x' ->
    forall b, waiting b x ->
    exists b', waiting b' x' /\ (bytes = [] -> b' = b) /\
      forall fuel n fifo, (Z.of_nat (length bytes) <= n <= int_max p)%Z -> (0 < n)%Z ->
      on_receive p (length bytes + fuel) n (bytes ++ fifo) b x
      = if (n =? Z.of_nat (length bytes))%Z then Ok (b', x', fifo)
        else on_receive p fuel (n - Z.of_nat (length bytes)) fifo b' x'.
  Proof.
    intros reqs x bytes outs x' S. induction S as [x|i name f args x x1 r reqs bytes outs x2 Hi Hc S IH]; intros b H.
    - exists b. split; auto. split; auto. intros fuel n fifo Hn Hpos. cbn [length app Nat.add].
      destruct (Z.eqb_spec n (Z.of_nat 0)); [lia|]. do 2 f_equal. lia.
    - pose proof (index_size X kr ltac:(apply Hk)) as ((Hw & _) & _ & _).
      pose proof (packet_length p kr i f args x x1 r Hc) as Hl.
      set (pk := packet kr i f args) in *.
      assert (Hb1 : exists b1, waiting b1 x1 /\ forall fuel n fifo, (Z.of_nat (length pk) <= n <= int_max p)%Z ->
        on_receive p (length pk + fuel) n (pk ++ fifo) b x
         = if (n =? Z.of_nat (length pk))%Z then Ok (b1, x1, fifo)
           else on_receive p fuel (n - Z.of_nat (length pk)) fifo b1 x1).
      { apply (packet_received i name f args x x1 r b H Hi Hc). }
      destruct Hb1 as (b1 & H1 & E1). destruct (IH b1 H1) as (b2 & H2 & Hnil & E2).
      exists b2. split; auto. split.
      { intros En. apply app_eq_nil in En. destruct En as [En _]. rewrite En in Hl. cbn [length] in Hl. lia. }
      intros fuel n fifo Hn Hpos. rewrite app_length in *.
      rewrite <- Nat.add_assoc, <- app_assoc, E1 by lia.
      destruct (Z.eqb_spec n (Z.of_nat (length pk))) as [En|En].
      + assert (bytes = []) as -> by (destruct bytes; [reflexivity|cbn [length] in *; lia]).
        rewrite (Hnil eq_refl). cbn [length app]. rewrite Nat.add_0_r.
        destruct (Z.eqb_spec n (Z.of_nat (length pk))); [|lia].
        inversion S; subst; auto.
        match goal with H : packet _ _ _ _ ++ _ = [] |- _ => apply app_eq_nil in H; destruct H as [H _] end.
        match goal with H : packet kr ?i ?f ?a = [], H' : calls p kr ?f ?a _ _ _ |- _ =>
          pose proof (packet_length p kr i f a _ _ _ H') as Hl'; rewrite H in Hl'; cbn [length] in Hl' end. lia.
      + rewrite E2 by lia.
        destruct (Z.eqb_spec (n - Z.of_nat (length pk)) (Z.of_nat (length bytes))),
                 (Z.eqb_spec n (Z.of_nat (length pk + length bytes))); try lia; auto.
        f_equal. lia.
  Qed.

  (** An index which designates nothing ends the loop, whatever [n] is. *)
  Lemma bad_received : forall idx b x fuel n fifo fifo', waiting b x -> bad_index kr idx -> draws idx fifo fifo' ->
    (n = 0 \/ Z.of_nat w <= n)%Z -> (n <= int_max p)%Z ->
    exists b', waiting b' x /\ on_receive p (w + fuel) n fifo b x = Ok (b', x, fifo').
  Proof.
    intros idx b x fuel n fifo fifo' (a & H & Hin & Hq & Hta) Hbad Hd Hn Hmax.
    pose proof (reached_table p dbl kr ft Hp Hk Hs b a x H) as Ht.
    pose proof (index_size X kr ltac:(apply Hk)) as (Hw & _ & _). fold w in Hw.
    assert (Hl : length idx = w) by apply Hbad.
    destruct (mc_feed_bad p dbl kr ft (length idx) 0 idx x a Ht Hbad Hin ltac:(lia) ltac:(lia) Hq) as [Hr Hal].
    cbn [skipn] in Hr, Hal.
    destruct (reached_run p dbl kr ft Hp Hk Hs _ b a x _ x _ H Hal Hr) as (b' & E & H').
    exists b'. split.
    - eexists. split; [exact H'|]. auto.
    - rewrite <- Hl. rewrite (on_receive_run idx (repeat LOADING_PACKET (length idx - 1)) DROPPED_PACKET fuel n fifo fifo' b x b' x).
      + cbn [is_dropped]. rewrite orb_true_r. reflexivity.
      + rewrite E, map_app, map_repeated. reflexivity.
      + apply Forall_forall. intros s Hin'. apply repeat_spec in Hin'. congruence.
      + exact Hd.
      + intros k Hlt. lia.
      + lia.
      + lia.
  Qed.

  Lemma ones_value : forall e n, wire_value e (repeat 255%Z n) = (space n - 1)%Z.
  Proof.
    intros e n.
    assert (G : undigits (repeat 255%Z n) = (space n - 1)%Z).
    { induction n as [|n IH]; [reflexivity|]. cbn [repeat]. unfold undigits in *. cbn [fold_right]. rewrite IH.
      unfold space. rewrite Nat2Z.inj_succ, Z.pow_succ_r by apply Nat2Z.is_nonneg. ring. }
    assert (R : rev (repeat 255%Z n) = repeat 255%Z n).
    { clear G. induction n as [|n IH]; [reflexivity|]. cbn [repeat rev]. rewrite IH. symmetry. apply repeat_cons. }
    rewrite wire_value_undigits. destruct e; rewrite ?R; exact G.
  Qed.

  Lemma ones_bad : bad_index kr (repeat 255%Z w).
  Proof.
    pose proof (index_size X kr ltac:(apply Hk)) as (_ & Hc & _). fold w in Hc.
    split; [apply repeat_length|]. split.
    - apply Forall_forall. intros c Hin. apply repeat_spec in Hin. subst c. range.
    - rewrite ones_value. revert Hc. generalize (space w), (length (kr_funcs kr)). lia.
  Qed.

  Lemma on_receive_more : forall fuel fuel' n fifo (b : buffered X) x v, on_receive p fuel n fifo b x = Ok v -> fuel <= fuel' ->
    on_receive p fuel' n fifo b x = Ok v.
  Proof.
    induction fuel as [|fuel IH]; intros fuel' n fifo b x v E Hle; [discriminate|].
    destruct fuel' as [|fuel']; [lia|]. cbn [on_receive] in *. destruct (wire_read fifo) as [c fifo'].
    destruct (put p c b x) as [[[b' x'] s]|]; [|discriminate]. cbn [bind] in *.
    destruct (arith (CInt (p_int_size p) true) (n - 1)) as [n'|]; [|discriminate]. cbn [bind] in *.
    destruct (negb (n' =? 0)%Z && negb (is_dropped s))%bool; auto. apply IH; auto. lia.
  Qed.

  Lemma transmission_received : forall x t x' b fuel, transmission p kr x t x' -> waiting b x ->
    (Z.of_nat (length t) <= int_max p)%Z -> w + length t <= fuel ->
    exists b' fifo, waiting b' x' /\ on_receive p fuel (Z.of_nat (length t)) t b x = Ok (b', x', fifo).
  Proof.
    intros x t x' b fuel T H Hmax Hf.
    pose proof (index_size X kr ltac:(apply Hk)) as (Hw & _ & _). fold w in Hw.
    destruct T as [reqs x bytes outs x' S|reqs x bytes outs x' idx rest S Hbad].
    - destruct bytes as [|byte bytes].
      + assert (x' = x) as ->.
        { inversion S; subst; auto.
          match goal with H : packet _ _ _ _ ++ _ = [] |- _ => apply app_eq_nil in H; destruct H as [H _] end.
          match goal with H : packet kr ?i ?f ?a = [], H' : calls p kr ?f ?a _ _ _ |- _ =>
            pose proof (packet_length p kr i f a _ _ _ H') as Hl'; rewrite H in Hl'; cbn [length] in Hl'; fold w in Hl' end. lia. }
        destruct (bad_received (repeat 255%Z w) b x 0 0 [] [] H ones_bad (draws_empty w) ltac:(auto) ltac:(cbn [length] in Hmax; lia))
          as (b' & H' & E). exists b', []. split; auto. cbn [length]. apply (on_receive_more (w + 0)); [exact E|lia].
      + destruct (session_received reqs x (byte :: bytes) outs x' S b H) as (b' & H' & _ & E).
        exists b', []. split; auto. specialize (E 0 (Z.of_nat (length (byte :: bytes))) []). rewrite app_nil_r in E.
        apply (on_receive_more (length (byte :: bytes) + 0)); [|lia]. rewrite E by (cbn [length] in *; lia). rewrite Z.eqb_refl. reflexivity.
    - destruct (session_received reqs x bytes outs x' S b H) as (b1 & H1 & _ & E).
      assert (Hl : length idx = w) by apply Hbad. rewrite !app_length in *.
      destruct (bad_received idx b1 x' 0 (Z.of_nat (length idx + length rest)) (idx ++ rest) rest H1 Hbad
                  (draws_app idx rest) ltac:(lia) ltac:(lia)) as (b' & H' & E').
      exists b', rest. split; auto.
      apply (on_receive_more (length bytes + (w + 0))); [|lia]. rewrite E by lia.
      destruct (Z.eqb_spec (Z.of_nat (length bytes + (length idx + length rest))) (Z.of_nat (length bytes))); [lia|].
      rewrite <- E'. f_equal. lia.
  Qed.

  Lemma transmissions_received : forall ts x x' b fuel, sequel p kr x ts x' -> waiting b x ->
    Forall (fun t => (Z.of_nat (length t) <= int_max p)%Z /\ w + length t <= fuel) ts ->
    exists b', waiting b' x' /\ transmissions p fuel ts b x = Ok (b', x').
  Proof.
    induction ts as [|t ts IH]; intros x x' b fuel S H Hl.
    - inversion S; subst. exists b. auto.
    - inversion S; subst. inversion Hl as [|q l [Hmax Hf] Hl']; subst q l.
      match goal with T : transmission _ _ _ _ ?y |- _ =>
        destruct (transmission_received x t y b fuel T H Hmax Hf) as (b1 & fifo & H1 & E1) end.
      edestruct IH as (b2 & H2 & E2); eauto. exists b2. split; auto. cbn [transmissions]. rewrite E1. exact E2.
  Qed.
End Callee.

(** ** C63

    Full statement: whatever the transmissions are, the requests they contain
    are served, and the dispatcher awaits the beginning of a request at the
    beginning of each transmission.  It is false when a transmission ends in
    the middle of a request (C63_refuted).  Proved: it holds for transmissions
    which contain whole requests, or whole requests followed by an index which
    designates nothing and whatever bytes, or nothing at all.  The callbacks
    return [void], or the dispatcher is double buffered. *)
Theorem C63_transmissions_partial : forall (X : Type) p dbl (kr : keyring X) ft g g' b x ts x' fuel,
  wf_platform p -> keyring_ok p kr -> well_sized dbl kr ft -> make_buffered dbl kr ft g g' = Some b ->
  dbl = true \/ all_void kr ->
  sequel p kr x ts x' -> Forall (fun t => (Z.of_nat (length t) <= int_max p)%Z) ts ->
  Forall (fun t => kr_index_size kr + length t <= fuel) ts ->
  exists b', transmissions p fuel ts b x = Ok (b', x')
    /\ b_is_index_loaded b' = false /\ b_load_count b' = kr_index_size kr /\ b_ibuf_next b' = 0.
Proof.
  intros X p dbl kr ft g g' b x ts x' fuel Hp Hk Hs Hb Hv S Hmax Hf.
  assert (H : waiting p dbl kr ft b x).
  { exists (fresh kr). split; [apply (reached_new p dbl kr ft g g' b x); auto|]. split; [reflexivity|].
    split; [right; reflexivity|reflexivity]. }
  destruct (transmissions_received p dbl kr ft Hp Hk Hs Hv ts x x' b fuel S H) as (b' & (a & H' & Hin & _) & E).
  { rewrite Forall_forall in *. auto. }
  exists b'. split; auto.
  pose proof (index_size X kr ltac:(apply Hk)) as (Hw & _ & _).
  destruct (reached_represents p dbl kr ft Hp Hk Hs b' a x' H') as (ni & no & _ & _ & R).
  destruct R as (_ & _ & _ & _ & R1 & _ & _ & _ & _ & _ & R2). unfold progress in R2. rewrite Hin in R1, R2.
  cbn [length] in R1, R2. destruct (b_is_index_loaded b').
  - destruct R2 as (f & _ & R2 & _). lia.
  - split; auto. split; [|exact R1]. lia.
Qed.

(** README.md 42-61: three callbacks which take a byte and return nothing. *)
Definition light (name : nat) : func log := mk_func (mk_sig [TUns 1] None) (fun args s => ((name, args) :: s, VInt 0)).
Definition lights : keyring log := mk_keyring LITTLE TWOS_COMPLEMENT [(2, light 2); (3, light 3); (4, light 4)].

Lemma lights_ok : keyring_ok pc_native lights.
Proof.
  split; [vm_compute; reflexivity|]. unfold lights. cbn [kr_funcs kr_e kr_m].
  list_cases; split; cbn [snd f_sig sig_params sig_ret light ret_ty_ok]; tyoks.
Qed.

Lemma lights_well_sized : well_sized false lights WEAK_REFERENCE.
Proof.
  unfold well_sized, lights, kr_signatures; cbn [kr_funcs map snd]; list_cases;
    (split; [reflexivity|]); vm_compute; lia.
Qed.

Lemma lights_void : all_void lights.
Proof. repeat constructor. Qed.

(** The transmissions of README.md 84-87 and 99-112 (two requests in one here), one
    which is spoiled after the first request, an empty one. *)
Definition ex_transmissions : list (list Z) := [[0; 1]; [1; 1; 2; 0]; [0; 0; 3; 9; 9; 9]; []; [2; 1]]%Z.

Lemma light_session : forall i name c s, nth_error (kr_funcs lights) i = Some (name, light name) ->
  (0 <= c < 256)%Z ->
  session pc_native lights [(i, [VInt c])] s (packet lights i (light name) [VInt c] ++ []) (answer lights (light name) (VInt 0) ++ [])
    ((name, [VInt c]) :: s).
Proof.
  intros i name c s Hi Hc. eapply session_cons; [exact Hi| |constructor].
  split; [|split; [reflexivity|exact I]]. cbn [f_sig light sig_params]. constructor; [|constructor]. split; [cbn [has_type]; change (space 1) with 256%Z; lia|exact I].
Qed.

Example C63_example : exists b b' x',
  keyring_ok pc_native lights /\ well_sized false lights WEAK_REFERENCE /\ all_void lights
  /\ make_single lights WEAK_REFERENCE [] = Some b
  /\ sequel pc_native lights [] ex_transmissions x'
  /\ Forall (fun t => (Z.of_nat (length t) <= int_max pc_native)%Z) ex_transmissions
  /\ transmissions pc_native 7 ex_transmissions b [] = Ok (b', x')
  /\ x' = [(4, [VInt 1]); (2, [VInt 0]); (4, [VInt 0]); (3, [VInt 1]); (2, [VInt 1])].
Proof.
  do 3 eexists. split; [exact lights_ok|]. split; [exact lights_well_sized|]. split; [exact lights_void|].
  split; [reflexivity|]. split; [|split; [|split; [vm_compute; reflexivity|reflexivity]]].
  2:{ repeat constructor; vm_compute; discriminate. }
  unfold ex_transmissions.
  eapply sequel_cons.
  { eapply transmission_whole. apply (light_session 0 2 1 []); [reflexivity|lia]. }
  eapply sequel_cons.
  { eapply transmission_whole. eapply (session_cons pc_native lights 1 3 (light 3) [VInt 1]).
    - reflexivity.
    - split; [|split; [reflexivity|exact I]]. cbn [f_sig light sig_params]. encs.
    - apply (light_session 2 4 0); [reflexivity|lia]. }
  eapply sequel_cons.
  { eapply (transmission_spoiled pc_native lights _ _ [0; 0]%Z _ _ [3]%Z [9; 9; 9]%Z).
    - apply (light_session 0 2 0); [reflexivity|lia].
    - split; [reflexivity|split; [repeat constructor; discriminate|vm_compute; discriminate]]. }
  eapply sequel_cons.
  { eapply transmission_whole. apply session_nil. }
  eapply sequel_cons.
  { eapply transmission_whole. apply (light_session 2 4 1); [reflexivity|lia]. }
  apply sequel_nil.
Qed.

(** A transmission ends after the index of the first light; the next one, which
    is whole, lights the second one.  The callee lights the first one.  If
    the next one is empty, the callee calls the callback of the first light
    with 255. *)
Theorem C63_refuted : exists b b1 b2 args,
  make_single lights WEAK_REFERENCE [] = Some b
  /\ (forall s, session pc_native lights [(1, args)] s [1; 1]%Z [] ((3, args) :: s))
  /\ transmissions pc_native 9 [[0]; [1; 1]]%Z b [] = Ok (b1, [(2, [VInt 1])])
  /\ transmissions pc_native 9 [[0]; []]%Z b [] = Ok (b2, [(2, [VInt 255])]).
Proof.
  do 3 eexists. exists [VInt 1]. split; [reflexivity|]. split.
  { intros s. apply (light_session 1 3 1 s); [reflexivity|lia]. }
  split; vm_compute; reflexivity.
Qed.

Print Assumptions C63_transmissions_partial.
Print Assumptions C63_refuted.
