(** Properties C35 to C48: buffered dispatchers. *)

From Coq Require Import List ZArith Lia Bool Arith.
From Verif Require Import Base CInt Spec IntModel Conditions MemFacts TypeLevel Serial TupleModel
  TypeLevelProofs IntProofs SignedProofs SerialProofs CodecFacts Bounds TupleProofs SpecRpc Rpc RpcProofs
  Hosts Closed PropertiesTypes PropertiesRpc Buffered SpecBuffered BufferedProofs.
Import ListNotations.
Open Scope nat_scope.

(** ** Setting *)

(** Both kinds of dispatchers at once. *)
Definition make_buffered {X : Type} (dbl : bool) (kr : keyring X) (ft : action_features) (g g' : list Z)
    : option (buffered X) :=
  if dbl then make_double kr ft g g' else make_single kr ft g.

(** The sum of the sizes of the parameters as C++ objects. *)
Definition native_sizes (s : signature) : nat := list_sum (map sizeof (sig_params s)).

(** The greatest of them in a keyring. *)
Definition max_native {X : Type} (kr : keyring X) : nat := list_max (map native_sizes (kr_signatures kr)).

(** What the output buffer holds. *)
Definition out_capacity {X : Type} (dbl : bool) (kr : keyring X) : nat :=
  if dbl then max_native kr else max_native kr + kr_index_size kr.

(** The buffers of the dispatcher are large enough and the sizes it relies on
    are those of the packets.  See C36, C37 and C53 for when this holds. *)
Definition well_sized {X : Type} (dbl : bool) (kr : keyring X) (ft : action_features) : Prop :=
  Forall (fun s =>
      (ft = WEAK_REFERENCE -> native_sizes s = wire_sizes (sig_params s))
      /\ wire_sizes (sig_params s) <= max_native kr
      /\ wire_size_ret (sig_ret s) <= out_capacity dbl kr)
    (kr_signatures kr).

(** The abstract machine of a new dispatcher. *)
Definition fresh {X : Type} (kr : keyring X) : machine X := mk_machine [] [] (map snd (kr_funcs kr)).

(** Every step of a history is legitimate. *)
Definition legitimate {X : Type} (p : platform) (dbl : bool) (kr : keyring X) (ft : action_features)
    (o : op X) (a : machine X) (x : X) : Prop :=
  step_ok (format_of kr) p ft (kr_signatures kr) o a x /\ (dbl = true \/ half_duplex o a).

(** What the outside world sees of a run. *)
Definition observe {A X : Type} (r : res (A * X * list obs)) : res (X * list obs) :=
  '(_, x, vs) <- r;; Ok (x, vs).

Lemma max17_list_max : forall l r, max17 l = Some r -> r = list_max l.
Proof.
  intros l r H. destruct (max17_spec l r H) as [H1 H2]. apply Nat.le_antisymm.
  - pose proof (proj1 (list_max_le l (list_max l)) (le_n _)) as H3. rewrite Forall_forall in H3. auto.
  - apply list_max_le. apply Forall_forall. auto.
Qed.

Lemma parameters_native : forall s, parameters_size s = native_sizes s.
Proof. intros s. unfold parameters_size, native_sizes. apply sum17_list_sum. Qed.

Lemma make_buffered_represents : forall (X : Type) p dbl (kr : keyring X) ft g g' b,
  keyring_ok p kr -> well_sized dbl kr ft -> make_buffered dbl kr ft g g' = Some b ->
  exists ni no, kr_index_size kr <= ni
    /\ Forall (framing_ok ft ni no (kr_index_size kr)) (kr_signatures kr)
    /\ represents kr ft ni no dbl b (fresh kr).
Proof.
  intros X p dbl kr ft g g' b Hk Hf Hb.
  assert (Hn : exists n, max17 (map_parameters_size (kr_signatures kr)) = Some n).
  { unfold make_buffered, make_double, make_single, needed_output_buffer_size in Hb.
    destruct (max17 (map_parameters_size (kr_signatures kr))) as [n|]; eauto.
    destruct dbl, (needed_input_buffer_size kr); discriminate. }
  destruct Hn as [n Hn].
  assert (En : n = max_native kr).
  { unfold max_native. rewrite (max17_list_max _ _ Hn). unfold map_parameters_size. f_equal.
    apply map_ext. apply parameters_native. }
  assert (Hpad : forall m (l : list Z), length (firstn m (l ++ repeat 0%Z m)) = m).
  { intros m l. rewrite firstn_length, app_length, repeat_length. lia. }
  exists (n + kr_index_size kr), (out_capacity dbl kr). split; [lia|]. split.
  { eapply Forall_impl; [|exact Hf]. intros s (H1 & H2 & H3). unfold framing_ok. rewrite parameters_native.
    split; auto. split; auto. lia. }
  unfold make_buffered, make_double, make_single, needed_input_buffer_size, needed_output_buffer_size,
    out_capacity in *. rewrite <- En.
  rewrite Hn in Hb. destruct dbl.
  - injection Hb as <-. apply (init_represents p); cbn [ibuf obuf is_double]; auto; lia.
  - assert (Em : max17 [n + kr_index_size kr; n] = Some (n + kr_index_size kr)).
    { destruct (max17_some [n + kr_index_size kr; n]) as [r Hr]; [discriminate|].
      destruct (max17_spec _ _ Hr) as [H1 H2]. rewrite Hr. f_equal.
      specialize (H2 (n + kr_index_size kr) ltac:(left; reflexivity)).
      destruct H1 as [H1|[H1|[]]]; lia. }
    rewrite Em in Hb. injection Hb as <-. apply (init_represents p); cbn [ibuf obuf is_double]; auto; lia.
Qed.

(** A state of the dispatcher which some legitimate history leads to, together
    with the state of the abstract machine after the same history. *)
Definition reached {X : Type} (p : platform) (dbl : bool) (kr : keyring X) (ft : action_features)
    (b : buffered X) (a : machine X) (x : X) : Prop :=
  exists g g' b0 ops x0 vs,
    make_buffered dbl kr ft g g' = Some b0
    /\ along (format_of kr) (legitimate p dbl kr ft) ops (fresh kr) x0
    /\ mc_run (format_of kr) ops (fresh kr) x0 = Ok (a, x, vs)
    /\ run_ops p ops b0 x0 = Ok (b, x, vs).

Lemma mc_run_app : forall (X : Type) fm ops ops' (a : machine X) x,
  mc_run fm (ops ++ ops') a x =
    ('(a1, x1, vs) <- mc_run fm ops a x;; '(a2, x2, vs') <- mc_run fm ops' a1 x1;; Ok (a2, x2, vs ++ vs')).
Proof.
  intros X fm ops ops'. induction ops as [|o ops IH]; intros a x; cbn [app mc_run bind].
  - destruct (mc_run fm ops' a x) as [[[? ?] ?]|]; reflexivity.
  - destruct (mc_step fm o a x) as [[[a1 x1] v]|]; cbn [bind]; auto. rewrite IH.
    destruct (mc_run fm ops a1 x1) as [[[a2 x2] vs]|]; cbn [bind]; auto.
    destruct (mc_run fm ops' a2 x2) as [[[a3 x3] vs']|]; reflexivity.
Qed.

Lemma run_ops_app : forall p (X : Type) ops ops' (b : buffered X) x,
  run_ops p (ops ++ ops') b x =
    ('(b1, x1, vs) <- run_ops p ops b x;; '(b2, x2, vs') <- run_ops p ops' b1 x1;; Ok (b2, x2, vs ++ vs')).
Proof.
  intros p X ops ops'. induction ops as [|o ops IH]; intros a x; cbn [app run_ops bind].
  - destruct (run_ops p ops' a x) as [[[? ?] ?]|]; reflexivity.
  - destruct (step p o a x) as [[[a1 x1] v]|]; cbn [bind]; auto. rewrite IH.
    destruct (run_ops p ops a1 x1) as [[[a2 x2] vs]|]; cbn [bind]; auto.
    destruct (run_ops p ops' a2 x2) as [[[a3 x3] vs']|]; reflexivity.
Qed.

Lemma along_app : forall (X : Type) fm P ops ops' (a : machine X) x,
  along fm P (ops ++ ops') a x <->
  along fm P ops a x /\ forall a1 x1 vs, mc_run fm ops a x = Ok (a1, x1, vs) -> along fm P ops' a1 x1.
Proof.
  intros X fm P ops ops'. induction ops as [|o ops IH]; intros a x; cbn [app along mc_run].
  - split; [intros H; split; auto; intros a1 x1 vs E; injection E as <- <- _; auto|].
    intros [_ H]. apply (H a x []). reflexivity.
  - split.
    + intros [H1 H2]. split; [split; auto|].
      * intros a1 x1 v E. apply (IH a1 x1). eauto.
      * intros a2 x2 vs E. ok_inv E r. destruct r as [[a1 x1] v]. ok_inv E r. destruct r as [[a2' x2'] vs'].
        injection E as -> -> _. destruct (IH a1 x1) as [IH1 _]. apply (IH1 (H2 a1 x1 v eq_refl)) with (1 := E1).
    + intros [[H1 H2] H3]. split; auto. intros a1 x1 v E. apply IH. split; eauto.
      intros a2 x2 vs E'. apply (H3 a2 x2 (v :: vs)). rewrite E. cbn [bind]. rewrite E'. reflexivity.
Qed.

Section Reached.
  Context {X : Type}.
  Variables (p : platform) (dbl : bool) (kr : keyring X) (ft : action_features).
  Hypothesis Hp : wf_platform p.
  Hypothesis Hk : keyring_ok p kr.
  Hypothesis Hs : well_sized dbl kr ft.
  Let fm := format_of kr.

  Lemma runs_agree : forall g g' b ops x, make_buffered dbl kr ft g g' = Some b ->
    along fm (legitimate p dbl kr ft) ops (fresh kr) x ->
    observe (run_ops p ops b x) = observe (mc_run fm ops (fresh kr) x).
  Proof.
    intros g g' b ops x Hb Hal.
    destruct (make_buffered_represents X p dbl kr ft g g' b Hk Hs Hb) as (ni & no & Hw & Hf & Hr).
    pose proof (run_refines p kr ft ni no dbl Hp Hk Hw Hf ops b (fresh kr) x Hr Hal) as H.
    unfold agrees, observe in *. unfold fm.
    destruct (mc_run (format_of kr) ops (fresh kr) x) as [[[a' x'] vs]|f]; cbn [bind].
    - destruct H as (b' & E & _). rewrite E. reflexivity.
    - rewrite H. reflexivity.
  Qed.

  Lemma reached_new : forall g g' b x, make_buffered dbl kr ft g g' = Some b ->
    reached p dbl kr ft b (fresh kr) x.
  Proof. intros g g' b x H. exists g, g', b, [], x, []. cbn. auto. Qed.

  Lemma reached_represents : forall b a x, reached p dbl kr ft b a x ->
    exists ni no, kr_index_size kr <= ni
      /\ Forall (framing_ok ft ni no (kr_index_size kr)) (kr_signatures kr)
      /\ represents kr ft ni no dbl b a.
  Proof.
    intros b a x (g & g' & b0 & ops & x0 & vs & Hb & Hal & Hm & Hr).
    destruct (make_buffered_represents X p dbl kr ft g g' b0 Hk Hs Hb) as (ni & no & Hw & Hf & Hrep).
    exists ni, no. split; auto. split; auto.
    pose proof (run_refines p kr ft ni no dbl Hp Hk Hw Hf ops b0 (fresh kr) x0 Hrep Hal) as H.
    unfold agrees in H. rewrite Hm in H. destruct H as (b' & E & H). assert (b = b') by congruence. subst. auto.
  Qed.

  Lemma reached_step : forall o b a x a' x' v, reached p dbl kr ft b a x -> legitimate p dbl kr ft o a x ->
    mc_step fm o a x = Ok (a', x', v) ->
    exists b', step p o b x = Ok (b', x', v) /\ reached p dbl kr ft b' a' x'.
  Proof.
    intros o b a x a' x' v H Hl Hm. destruct (reached_represents b a x H) as (ni & no & Hw & Hf & Hrep).
    destruct Hl as [Hok Hal].
    pose proof (step_refines p kr ft ni no dbl Hp Hk Hw Hf o b a x Hrep Hok Hal) as Ha.
    unfold agrees in Ha. fold fm in Ha. rewrite Hm in Ha. destruct Ha as (b' & E & _). exists b'. split; auto.
    destruct H as (g & g' & b0 & ops & x0 & vs & Hb & Hl & Hm0 & Hr).
    exists g, g', b0, (ops ++ [o]), x0, (vs ++ [v]). split; auto. split; [|split].
    - apply along_app. split; auto. intros a1 x1 vs1 E1. unfold fm in *.
      assert (a1 = a /\ x1 = x) as [-> ->] by (split; congruence). cbn [along]. split; auto. split; auto.
    - rewrite mc_run_app. fold fm in Hm0 |- *. rewrite Hm0. cbn [bind mc_run]. rewrite Hm. reflexivity.
    - rewrite run_ops_app, Hr. cbn [bind run_ops]. rewrite E. reflexivity.
  Qed.

  Lemma reached_fault : forall o b a x f, reached p dbl kr ft b a x -> legitimate p dbl kr ft o a x ->
    mc_step fm o a x = Fault f -> step p o b x = Fault f.
  Proof.
    intros o b a x f H [Hok Hal] Hm. destruct (reached_represents b a x H) as (ni & no & Hw & Hf & Hrep).
    pose proof (step_refines p kr ft ni no dbl Hp Hk Hw Hf o b a x Hrep Hok Hal) as Ha.
    unfold agrees in Ha. fold fm in Ha. rewrite Hm in Ha. auto.
  Qed.

  Lemma reached_run : forall ops b a x a' x' vs, reached p dbl kr ft b a x ->
    along fm (legitimate p dbl kr ft) ops a x -> mc_run fm ops a x = Ok (a', x', vs) ->
    exists b', run_ops p ops b x = Ok (b', x', vs) /\ reached p dbl kr ft b' a' x'.
  Proof.
    induction ops as [|o ops IH]; intros b a x a' x' vs H Hl Hm; cbn [mc_run along run_ops] in *.
    - injection Hm as <- <- <-. exists b. auto.
    - ok_inv Hm r. destruct r as [[a1 x1] v]. ok_inv Hm r. destruct r as [[a2 x2] vs2]. injection Hm as -> -> <-.
      destruct Hl as [Hl1 Hl2]. destruct (reached_step o b a x a1 x1 v H Hl1 E) as (b1 & E1 & H1).
      destruct (IH b1 a1 x1 a' x' vs2 H1 (Hl2 a1 x1 v eq_refl) E0) as (b2 & E2 & H2).
      exists b2. split; auto. rewrite E1. cbn [bind]. rewrite E2. reflexivity.
  Qed.

  Lemma reached_table : forall b a x, reached p dbl kr ft b a x -> map f_sig (mc_table a) = kr_signatures kr.
  Proof.
    intros b a x H. destruct (reached_represents b a x H) as (ni & no & _ & _ & Hr).
    apply Hr.
  Qed.
End Reached.

(** ** C35 *)

(** Whatever the history, a double buffered dispatcher shows the world what the
    abstract machine of [SpecBuffered] shows. *)
Theorem C35_refinement : forall (X : Type) p (kr : keyring X) ft g g' b ops x,
  wf_platform p -> keyring_ok p kr -> well_sized true kr ft ->
  make_double kr ft g g' = Some b ->
  along (format_of kr) (step_ok (format_of kr) p ft (kr_signatures kr)) ops (fresh kr) x ->
  observe (run_ops p ops b x) = observe (mc_run (format_of kr) ops (fresh kr) x).
Proof.
  intros X p kr ft g g' b ops x Hp Hk Hs Hb Hal. apply (runs_agree p true kr ft Hp Hk Hs g g'); auto.
  clear - Hal. revert Hal. generalize (fresh kr). revert x.
  induction ops as [|o ops IH]; intros x a H; cbn [along] in *; auto.
  destruct H as [H1 H2]. split; [split; auto|]. intros a1 x1 v E. eapply IH; eauto.
Qed.

(** ** C42 *)

(** So does a single buffered dispatcher, provided that no byte is received
    while a response is pending. *)
Theorem C42_half_duplex : forall (X : Type) p (kr : keyring X) ft g b ops x,
  wf_platform p -> keyring_ok p kr -> well_sized false kr ft ->
  make_single kr ft g = Some b ->
  along (format_of kr) (fun o a x => step_ok (format_of kr) p ft (kr_signatures kr) o a x /\ half_duplex o a)
    ops (fresh kr) x ->
  observe (run_ops p ops b x) = observe (mc_run (format_of kr) ops (fresh kr) x).
Proof.
  intros X p kr ft g b ops x Hp Hk Hs Hb Hal. apply (runs_agree p false kr ft Hp Hk Hs g []); auto.
  clear - Hal. revert Hal. generalize (fresh kr). revert x.
  induction ops as [|o ops IH]; intros x a H; cbn [along] in *; auto.
  destruct H as [[H1 H1'] H2]. split; [split; auto|]. intros a1 x1 v E. eapply IH; eauto.
Qed.

(** Legitimacy of closed histories: the state after each step is computed, the
    callbacks are left as they are. *)
Ltac next_state :=
  match goal with
  | |- forall a1 x1 b, mc_step ?fm ?o (mk_machine ?i ?out ?t) ?x = Ok (a1, x1, b) -> _ =>
      let s := constr:(mc_step fm o (mk_machine i out t) x) in
      let i' := eval vm_compute in (match s with Ok (a, _, _) => mc_in a | Fault _ => [] end) in
      let out' := eval vm_compute in (match s with Ok (a, _, _) => mc_out a | Fault _ => [] end) in
      let x' := eval vm_compute in (match s with Ok (_, y, _) => y | Fault _ => x end) in
      let v := eval vm_compute in (match s with Ok (_, _, b) => b | Fault _ => ONone end) in
      let E := fresh in
      let E' := fresh in
      assert (E : s = Ok (mk_machine i' out' t, x', v)) by (vm_compute; reflexivity);
      intros ? ? ? E'; rewrite E in E'; clear E; injection E' as <- <- <-
  end.

Ltac legit :=
  unfold fresh;
  repeat match goal with
    | |- along _ _ [] _ _ => exact I
    | |- along _ _ (_ :: _) _ _ => cbn [along]; split
    | |- forall a1 x1 b, mc_step _ _ _ _ = _ -> _ => next_state
    | |- True => exact I
    | |- legitimate _ _ _ _ _ _ _ => split; [|first [left; reflexivity | right]]
    | |- half_duplex _ _ => first [exact I | reflexivity]
    | |- step_ok _ _ _ _ _ _ _ => cbn [step_ok]; try exact I
    | |- is_byte _ => split; [discriminate|reflexivity]
    | |- servable _ _ _ _ _ => vm_compute; try exact I
    | |- _ /\ _ => split
    end; try (solve [range | repeat constructor; range]).

Lemma ex_well_sized : well_sized true ex_keyring ANY /\ well_sized false ex_keyring ANY.
Proof.
  split; unfold well_sized, ex_keyring, kr_signatures; cbn [kr_funcs map snd]; list_cases;
    (split; [discriminate|]); vm_compute; lia.
Qed.

(** A request is received while the response of the previous one is sent; the
    last byte is an index which designates nothing. *)
Definition ex_history : list (op log) :=
  [Put 0; Put 255; Put 254; Get; Put 5; IsLoaded; Get; Put 0; Put 1; Get; Put 2; Get; Get; IsLoaded; Put 3; Get;
   Get; Get; Put 1; Put 77; Move; Put 1]%Z.

Example C35_example : exists b,
  keyring_ok pc_native ex_keyring /\ well_sized true ex_keyring ANY
  /\ make_double ex_keyring ANY [9; 9; 9]%Z [] = Some b
  /\ along (format_of ex_keyring) (step_ok (format_of ex_keyring) pc_native ANY (kr_signatures ex_keyring))
       ex_history (fresh ex_keyring) []
  /\ observe (run_ops pc_native ex_history b []) =
     Ok ([(1, []); (1, []); (0, [VInt 258; VInt 3]); (0, [VInt (-2); VInt 5])],
         [OStatus LOADING_PACKET; OStatus LOADING_PACKET; OStatus LOADING_PACKET; OByte 0;
          OStatus RESOLVED_PACKET; OBool true; OByte 0; OStatus LOADING_PACKET; OStatus LOADING_PACKET; OByte 0;
          OStatus LOADING_PACKET; OByte 0; OByte 3; OBool false; OStatus RESOLVED_PACKET; OByte 0; OByte 0; OByte 1;
          OStatus RESOLVED_PACKET; OStatus DROPPED_PACKET; ONone; OStatus RESOLVED_PACKET]%Z).
Proof.
  eexists. split; [exact ex_keyring_ok|]. split; [exact (proj1 ex_well_sized)|]. split; [reflexivity|].
  split; [|vm_compute; reflexivity]. unfold ex_history. legit.
Qed.

Example C42_example : exists b,
  well_sized false ex_keyring ANY
  /\ make_single ex_keyring ANY [9; 9; 9]%Z = Some b
  /\ let ops := [Put 0; Put 255; Put 254; Put 5; Get; IsLoaded; Get; Get; Get; Put 2; Put 1]%Z in
     along (format_of ex_keyring) (fun o a x => step_ok (format_of ex_keyring) pc_native ANY (kr_signatures ex_keyring) o a x
                                     /\ half_duplex o a) ops (fresh ex_keyring) []
  /\ observe (run_ops pc_native ops b []) =
     Ok ([(0, [VInt (-2); VInt 5])],
         [OStatus LOADING_PACKET; OStatus LOADING_PACKET; OStatus LOADING_PACKET; OStatus RESOLVED_PACKET;
          OByte 0; OBool true; OByte 0; OByte 0; OByte 3; OStatus LOADING_PACKET; OStatus LOADING_PACKET]%Z).
Proof.
  eexists. split; [exact (proj2 ex_well_sized)|]. split; [reflexivity|]. cbv zeta.
  split; [|vm_compute; reflexivity]. legit.
Qed.

(** The condition on the history cannot be dropped: a byte received while the
    response is pending spoils it. *)
Theorem C42_full_duplex_refuted : exists (kr : keyring log) ft b ops,
  keyring_ok pc_native kr /\ well_sized false kr ft /\ make_single kr ft [] = Some b
  /\ along (format_of kr) (step_ok (format_of kr) pc_native ft (kr_signatures kr)) ops (fresh kr) []
  /\ observe (run_ops pc_native ops b []) <> observe (mc_run (format_of kr) ops (fresh kr) []).
Proof.
  exists ex_keyring, ANY. eexists. exists ([Put 0; Put 255; Put 254; Put 5; Put 2; Get]%Z).
  split; [exact ex_keyring_ok|]. split; [exact (proj2 ex_well_sized)|]. split; [reflexivity|].
  split; [legit|]. vm_compute. discriminate.
Qed.

Print Assumptions C35_refinement.
Print Assumptions C42_half_duplex.
Print Assumptions C42_full_duplex_refuted.
