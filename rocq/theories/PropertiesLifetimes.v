(** Property C84: callbacks which replace, move and call actions while they run. *)

From Coq Require Import List ZArith Lia Bool Arith.
From Verif Require Import Base CInt Spec IntModel Conditions MemFacts TypeLevel Serial TupleModel
  TypeLevelProofs IntProofs SignedProofs SerialProofs CodecFacts Bounds TupleProofs Hosts Closed PropertiesTuple
  PropertiesTypes SpecRpc Rpc RpcProofs PropertiesRpc Lifetimes.
Import ListNotations.
Open Scope nat_scope.

(** ** Specification

    Programs in a world where no object ever dies, as in a language with a garbage
    collector; what would be destroyed, and what is used, is written down. *)

Inductive event : Type :=
| Used (n : name)     (* the functor is called, its members are used, or it is given to an action *)
| Dropped (n : name). (* in C++, the functor is destroyed *)

Definition about (ev : event) (n : name) : Prop := ev = Used n \/ ev = Dropped n.

(** Something happens to a functor after its destruction. *)
Definition misused (tr : list event) : Prop :=
  exists before n between ev after, tr = before ++ Dropped n :: between ++ ev :: after /\ about ev n.

(** The functor which an action owns. *)
Definition owned (s : slot) : list event :=
  match s with
  | Owns b => [Dropped (Block b)]
  | _ => []
  end.

(** The functor which an action calls. *)
Definition callee (s : slot) : option name :=
  match s with
  | Null => None
  | Owns b => Some (Block b)
  | Refers n => Some n
  end.

(** The bytes of the arguments of a call. *)
Definition good_input (p : platform) (e : endianess) (m : signed_mode) (params : list ty) (bs : list Z) : Prop :=
  Forall is_byte bs /\ length bs = wire_sizes params /\ decodable_list p e m params bs.

Section Immortal.
  Variable p : platform.
  Variables (e : endianess) (m : signed_mode).
  Context {S X : Type}.
  Variable classes : nat -> class S X.

  (** A new action. *)
  Inductive makes : given S -> memory S X -> memory S X -> slot -> list event -> Prop :=
  | makes_nothing : forall t, makes Nothing t t Null []
  | makes_temporary : forall c s t,
      makes (Temporary c s) t
        (mk_memory (fun n => if name_eqb n (Block (next t)) then Some (c, s) else objects t n) (next t + 1) (slots t) (outside t))
        (Owns (next t)) []
  | makes_lvalue : forall n o t, objects t n = Some o -> makes (Lvalue n) t t (Refers n) [Used n].

  (** What a body does on the object [self], and what an action answers. *)
  Inductive does : option name -> code S X -> memory S X -> memory S X -> val -> list event -> Prop :=
  | does_return : forall self v t, does self (Return v) t t v []
  | does_world : forall self f t x' k t' v tr,
      f (outside t) = (x', k) ->
      does self k (mk_memory (objects t) (next t) (slots t) x') t' v tr ->
      does self (World f) t t' v tr
  | does_members : forall n f t c s s' k t' v tr,
      objects t n = Some (c, s) -> f s = (s', k) ->
      does (Some n) k
        (mk_memory (fun i => if name_eqb i n then Some (c, s') else objects t i) (next t) (slots t) (outside t)) t' v tr ->
      does (Some n) (Members f) t t' v (Used n :: tr)
  | does_declare : forall self o c s k t t' v tr,
      objects t (Var o) = None ->
      does self k
        (mk_memory (fun n => if name_eqb n (Var o) then Some (c, s) else objects t n) (next t) (slots t) (outside t)) t' v tr ->
      does self (Declare o c s k) t t' v tr
  | does_destroy : forall self o k t t' v tr,
      objects t (Var o) <> None ->
      does self k t t' v tr ->
      does self (Destroy o k) t t' v (Dropped (Var o) :: tr)
  | does_assign : forall self a g k t t1 s tr1 t' v tr,
      makes g t t1 s tr1 ->
      does self k (mk_memory (objects t1) (next t1) (fun i => if i =? a then s else slots t1 i) (outside t1)) t' v tr ->
      does self (Assign a g k) t t' v (tr1 ++ owned (slots t a) ++ tr)
  | does_move_same : forall self a k t t' v tr,
      does self k t t' v tr ->
      does self (MoveTo a a k) t t' v tr
  | does_move : forall self a b k t t' v tr,
      a <> b ->
      does self k
        (mk_memory (objects t) (next t) (fun i => if i =? a then slots t b else if i =? b then Null else slots t i) (outside t))
        t' v tr ->
      does self (MoveTo a b k) t t' v (owned (slots t a) ++ tr)
  | does_call : forall self a input k t t1 output tr1 t' v tr,
      answers a input t t1 output tr1 ->
      does self (k output) t1 t' v tr ->
      does self (Call a input k) t t' v (tr1 ++ tr)
  with answers : nat -> list Z -> memory S X -> memory S X -> list Z -> list event -> Prop :=
  | answers_null : forall a input t, slots t a = Null -> answers a input t t [] []
  | answers_object : forall a input t n c s t' v tr,
      callee (slots t a) = Some n -> objects t n = Some (c, s) ->
      good_input p e m (sig_params (cl_sig (classes c))) input ->
      does (Some n) (cl_body (classes c) n (dec_list e m (sig_params (cl_sig (classes c))) input)) t t' v tr ->
      ret_encodable p m (sig_ret (cl_sig (classes c))) v ->
      answers a input t t' (response e m (sig_ret (cl_sig (classes c))) v) (Used n :: tr).

  Scheme does_mut := Induction for does Sort Prop
  with answers_mut := Induction for answers Sort Prop.
  Combined Scheme does_answers from does_mut, answers_mut.
End Immortal.

(** The beginning of a program. *)
Definition fresh {S X : Type} (x : X) : memory S X := mk_memory (fun _ => None) 0 (fun _ => Null) x.

(** ** A discipline

    [placed a c]: the action [a] may own a functor of class [c]. *)

Section Discipline.
  Context {S X : Type}.
  Variable placed : nat -> nat -> Prop.

  (** The members are not used. *)
  Fixpoint no_members (k : code S X) : Prop :=
    match k with
    | Return _ => True
    | World f => forall x, let (_, k') := f x in no_members k'
    | Members _ => False
    | Declare _ _ _ k' | Destroy _ k' | Assign _ _ k' | MoveTo _ _ k' => no_members k'
    | Call _ _ k' => forall o, no_members (k' o)
    end.

  (** No variable is destroyed, temporaries go where they may, actions refer to
      variables only. *)
  Fixpoint tidy (k : code S X) : Prop :=
    match k with
    | Return _ => True
    | World f => forall x, let (_, k') := f x in tidy k'
    | Members f => forall s, let (_, k') := f s in tidy k'
    | Declare _ _ _ k' => tidy k'
    | Destroy _ _ => False
    | Assign a g k' =>
        match g with
        | Nothing => True
        | Temporary c _ => placed a c
        | Lvalue n => exists o, n = Var o
        end /\ tidy k'
    | MoveTo a b k' => (forall c, placed b c -> placed a c) /\ tidy k'
    | Call _ _ k' => forall o, tidy (k' o)
    end.

  (** A functor of class [c] does not use its members once it has replaced an action
      which may own it, or called an action. *)
  Fixpoint careful (c : nat) (k : code S X) : Prop :=
    match k with
    | Return _ => True
    | World f => forall x, let (_, k') := f x in careful c k'
    | Members f => forall s, let (_, k') := f s in careful c k'
    | Declare _ _ _ k' | Destroy _ k' => careful c k'
    | Assign a _ k' => (placed a c -> no_members k') /\ careful c k'
    | MoveTo a b k' => (a <> b -> placed a c -> no_members k') /\ careful c k'
    | Call _ _ k' => forall o, no_members (k' o)
    end.
End Discipline.

(** ** Proofs *)

Lemma name_eqb_spec : forall a b, name_eqb a b = true <-> a = b.
Proof.
  intros [x|x] [y|y]; cbn; try (split; discriminate); rewrite Nat.eqb_eq; split; congruence.
Qed.
Lemma name_eqb_refl : forall a, name_eqb a a = true.
Proof. intros. apply name_eqb_spec. reflexivity. Qed.
Lemma name_eqb_neq : forall a b, a <> b -> name_eqb a b = false.
Proof. intros a b H. destruct (name_eqb a b) eqn:E; auto. apply name_eqb_spec in E. contradiction. Qed.

Definition dead (n : name) (d : list name) : bool := existsb (name_eqb n) d.

Lemma dead_iff : forall n d, dead n d = true <-> In n d.
Proof.
  intros. unfold dead. rewrite existsb_exists. split.
  - intros (x & Hx & E). apply name_eqb_spec in E. congruence.
  - intros H. exists n. split; auto. apply name_eqb_refl.
Qed.

Fixpoint clean (d : list name) (tr : list event) : bool :=
  match tr with
  | [] => true
  | Used n :: tr' => negb (dead n d) && clean d tr'
  | Dropped n :: tr' => negb (dead n d) && clean (n :: d) tr'
  end.

Fixpoint after_trace (d : list name) (tr : list event) : list name :=
  match tr with
  | [] => d
  | Used _ :: tr' => after_trace d tr'
  | Dropped n :: tr' => after_trace (n :: d) tr'
  end.

Lemma clean_app : forall tr1 d tr2, clean d (tr1 ++ tr2) = clean d tr1 && clean (after_trace d tr1) tr2.
Proof.
  induction tr1 as [|[n|n] tr1 IH]; intros d tr2; cbn; auto; rewrite IH; rewrite andb_assoc; reflexivity.
Qed.
Lemma after_trace_app : forall tr1 d tr2, after_trace d (tr1 ++ tr2) = after_trace (after_trace d tr1) tr2.
Proof. induction tr1 as [|[n|n] tr1 IH]; intros; cbn; auto. Qed.

Lemma dirty : forall tr d, clean d tr = false <->
  (exists n before ev after, In n d /\ tr = before ++ ev :: after /\ about ev n) \/ misused tr.
Proof.
  assert (K : forall tr ev0, misused tr -> misused (ev0 :: tr)).
  { intros tr ev0 (b & n & bt & ev & a & -> & H). exists (ev0 :: b), n, bt, ev, a. auto. }
  induction tr as [|[n|n] tr IH]; intros d; cbn [clean].
  - split; [discriminate|]. intros [(n & [|] & ev & a & _ & E & _)|([|] & n & bt & ev & a & E & _)]; discriminate.
  - rewrite andb_false_iff, negb_false_iff, dead_iff, IH. split.
    + intros [H|[(n' & b & ev & a & H1 & -> & H2)|H]]; auto.
      * left. exists n, [], (Used n), tr. unfold about. auto.
      * left. exists n', (Used n :: b), ev, a. auto.
    + intros [(n' & [|ev0 b] & ev & a & H1 & E & H2)|([|ev0 b] & n' & bt & ev & a & E & H)]; cbn in E; injection E as E1 E2.
      * subst. left. destruct H2 as [H2|H2]; [|discriminate]. congruence.
      * subst. right. left. exists n', b, ev, a. auto.
      * discriminate.
      * right. right. exists b, n', bt, ev, a. auto.
  - rewrite andb_false_iff, negb_false_iff, dead_iff, IH. split.
    + intros [H|[(n' & b & ev & a & [->|H1] & -> & H2)|H]]; auto.
      * left. exists n, [], (Dropped n), tr. unfold about. auto.
      * right. exists [], n', b, ev, a. auto.
      * left. exists n', (Dropped n :: b), ev, a. auto.
    + intros [(n' & [|ev0 b] & ev & a & H1 & E & H2)|([|ev0 b] & n' & bt & ev & a & E & H)]; cbn in E; injection E as E1 E2.
      * subst. left. destruct H2 as [H2|H2]; [discriminate|]. congruence.
      * subst. right. left. exists n', b, ev, a. cbn. auto.
      * subst. right. left. exists n', bt, ev, a. cbn. auto.
      * right. right. exists b, n', bt, ev, a. auto.
Qed.

Lemma clean_misused : forall tr, clean [] tr = false <-> misused tr.
Proof.
  intros tr. rewrite dirty. split; auto. intros [(n & _ & _ & _ & [] & _)|H]; auto.
Qed.

(** The memory of the model, when the objects [d] are dead. *)
Definition agrees {S X : Type} (d : list name) (t tm : memory S X) : Prop :=
  (forall n, objects tm n = if dead n d then None else objects t n)
  /\ next tm = next t /\ (forall a, slots tm a = slots t a) /\ outside tm = outside t
  /\ (forall b, next t <= b -> ~ In (Block b) d)
  /\ (forall n, In n d -> objects t n <> None).

Section Agreement.
  Variable p : platform.
  Variables (e : endianess) (m : signed_mode).
  Context {S X : Type}.
  Variable classes : nat -> class S X.
  Hypothesis Hp : wf_platform p.
  Hypothesis Hc : forall c, sig_ok p e m (cl_sig (classes c)).

  Lemma read_arguments_ok : forall ts input, Forall (ty_ok p e m) ts -> good_input p e m ts input ->
    read_arguments p e m ts input = Ok (dec_list e m ts input).
  Proof.
    intros ts input Ht (Hb & Hl & Hd). unfold read_arguments. rewrite read_tuple_ok by auto.
    pose proof (take_wires unit input [] [] tt) as T. rewrite app_nil_r, Hl in T. rewrite T. cbn [bind].
    rewrite (invoke_decodes p e m) by auto. reflexivity.
  Qed.

  Lemma write_result_ok : forall ret v, ret_ty_ok p e m ret -> ret_encodable p m ret v ->
    write_result p e m ret v = Ok (response e m ret v).
  Proof.
    intros [t|] v Ht Hv; cbn in *; auto. rewrite insert_ok by auto. rewrite give_wires. reflexivity.
  Qed.

  Lemma agrees_delete : forall d (t tm : memory S X) s, agrees d t tm ->
    (forall b, s = Owns b -> objects t (Block b) <> None /\ b < next t) ->
    if clean d (owned s) then exists tm', delete s tm = Done tm' /\ agrees (after_trace d (owned s)) t tm'
    else delete s tm = Undefined.
  Proof.
    intros d t tm s A Hs. destruct s as [|b|n]; cbn; eauto.
    rewrite andb_true_r. destruct A as (A1 & A2 & A3 & A4 & A5 & A6).
    rewrite A1. destruct (dead (Block b) d) eqn:E; cbn [negb]; auto.
    destruct (Hs b eq_refl) as [Hb Hl]. destruct (objects t (Block b)) as [o|] eqn:Eo; [|congruence].
    eexists. split; [reflexivity|]. repeat split; cbn [objects next slots outside set_object]; auto.
    - intros n. cbn [dead existsb]. fold (dead n d). rewrite A1. destruct (name_eqb n (Block b)); auto.
    - intros b' Hb' [H|H]; [injection H as ->; lia|]. apply (A5 b'); auto.
    - intros n [<-|H]; auto. congruence.
  Qed.

  (** Every block which an action owns has been allocated. *)
  Definition allocated (t : memory S X) : Prop :=
    (forall a b, slots t a = Owns b -> objects t (Block b) <> None /\ b < next t).

  Lemma play_agrees :
    (forall self c (t t' : memory S X) v tr, does p e m classes self c t t' v tr ->
       allocated t ->
       allocated t'
       /\ forall d tm, agrees d t tm ->
       if clean d tr then
         exists tm', agrees (after_trace d tr) t' tm'
         /\ exists depth, forall fuel, depth <= fuel -> play (enter p e m classes fuel) self c tm = Done (tm', v)
       else
         exists depth, forall fuel, depth <= fuel -> play (enter p e m classes fuel) self c tm = Undefined)
    /\ (forall a input (t t' : memory S X) output tr, answers p e m classes a input t t' output tr ->
       allocated t ->
       allocated t'
       /\ forall d tm, agrees d t tm ->
       if clean d tr then
         exists tm', agrees (after_trace d tr) t' tm'
         /\ exists depth, forall fuel, depth <= fuel -> enter p e m classes fuel a input tm = Done (tm', output)
       else
         exists depth, forall fuel, depth <= fuel -> enter p e m classes fuel a input tm = Undefined).
  Proof.
    apply does_answers.
    - (* Return *) intros self v t Ha. split; auto. intros d tm A. cbn. exists tm. split; auto. exists 0. auto.
    - (* World *) intros self f t x' k t' v tr Ef _ IH Ha.
      destruct IH as [Ha' IH]; [exact Ha|]. split; auto. intros d tm A.
      destruct A as (A1 & A2 & A3 & A4 & A5 & A6). cbn [play]. rewrite A4, Ef.
      apply IH. repeat split; auto.
    - (* Members *) intros n f t c s s' k t' v tr Eo Ef _ IH Ha.
      destruct IH as [Ha' IH].
      { intros a b Hs. destruct (Ha a b Hs) as [H1 H2]. cbn [objects next]. split; auto.
        destruct (name_eqb (Block b) n); auto. discriminate. }
      split; auto. intros d tm A. cbn [play clean after_trace].
      destruct A as (A1 & A2 & A3 & A4 & A5 & A6). rewrite A1.
      destruct (dead n d) eqn:E; cbn [negb andb].
      { exists 0. reflexivity. }
      rewrite Eo, Ef. apply IH. repeat split; cbn [objects next slots outside set_object]; auto.
      + intros i. destruct (name_eqb i n) eqn:Ei; auto. apply name_eqb_spec in Ei. subst. rewrite E. reflexivity.
      + intros i Hi. destruct (name_eqb i n); auto. discriminate.
    - (* Declare *) intros self o c s k t t' v tr Eo _ IH Ha.
      destruct IH as [Ha' IH].
      { intros a b Hs. destruct (Ha a b Hs) as [H1 H2]. cbn [objects next name_eqb]. auto. }
      split; auto. intros d tm A. destruct A as (A1 & A2 & A3 & A4 & A5 & A6). cbn [play].
      apply IH. repeat split; cbn [objects next slots outside set_object]; auto.
      + intros i. destruct (name_eqb i (Var o)) eqn:Ei; auto. apply name_eqb_spec in Ei. subst.
        destruct (dead (Var o) d) eqn:Ed; auto. apply dead_iff in Ed. apply A6 in Ed. congruence.
      + intros i Hi. destruct (name_eqb i (Var o)); auto. discriminate.
    - (* Destroy *) intros self o k t t' v tr Eo _ IH Ha.
      destruct IH as [Ha' IH]; [exact Ha|]. split; auto. intros d tm A. cbn [play clean after_trace].
      destruct A as (A1 & A2 & A3 & A4 & A5 & A6). rewrite A1. destruct (dead (Var o) d) eqn:E; cbn [negb andb].
      { exists 0. reflexivity. }
      destruct (objects t (Var o)) eqn:Ex; [|congruence].
      apply IH. repeat split; cbn [objects next slots outside set_object]; auto.
      + intros n. cbn [dead existsb]. fold (dead n d). rewrite A1. destruct (name_eqb n (Var o)); auto.
      + intros b Hb [H|H]; [discriminate|]. apply (A5 b); auto.
      + intros n [<-|H]; auto. congruence.
    - (* Assign *) intros self a g k t t1 s tr1 t' v tr Hm _ IH Ha.
      assert (B : allocated t1 /\ (forall b, s = Owns b -> objects t1 (Block b) <> None /\ b < next t1)
                  /\ slots t1 a = slots t a).
      { inversion Hm; subst; cbn [slots next objects]; (split; [|split; [|reflexivity]]); auto; try discriminate.
        - intros a' b Hs. cbn [slots next objects] in *. destruct (Ha a' b Hs) as [H1 H2]. split; [|lia].
          destruct (name_eqb (Block b) (Block (next t))); auto. discriminate.
        - intros b E. injection E as <-. rewrite name_eqb_refl. split; [discriminate|lia]. }
      destruct B as (B1 & B2 & B3).
      destruct IH as [Ha' IH].
      { intros a' b. cbn [slots objects next]. destruct (a' =? a); eauto. }
      split; auto. intros d tm A.
      (* the new action *)
      assert (N : if clean d tr1 then exists tm1, new_action g tm = Done (tm1, s) /\ agrees (after_trace d tr1) t1 tm1
                  else new_action g tm = Undefined).
      { destruct A as (A1 & A2 & A3 & A4 & A5 & A6). inversion Hm; subst; cbn [clean after_trace new_action].
        - eexists. split; [reflexivity|]. repeat split; auto.
        - rewrite A2. eexists. split; [reflexivity|].
          repeat split; cbn [objects next slots outside set_object]; auto; try lia.
          + intros n. destruct (name_eqb n (Block (next t))) eqn:En; auto. apply name_eqb_spec in En. subst.
            destruct (dead (Block (next t)) d) eqn:Ed; auto. apply dead_iff in Ed. apply A5 in Ed; [contradiction|lia].
          + intros b Hb. apply A5. lia.
          + intros n Hn. destruct (name_eqb n (Block (next t))); auto. discriminate.
        - rewrite A1. destruct (dead n d); cbn [negb andb]; auto.
          match goal with H : objects _ n = Some _ |- _ => rewrite H end.
          eexists. split; [reflexivity|]. repeat split; auto. }
      rewrite !clean_app, after_trace_app, after_trace_app. destruct (clean d tr1) eqn:E1; cbn [andb].
      2:{ exists 0. intros fuel _. cbn [play]. unfold assign. rewrite N. reflexivity. }
      destruct N as (tm1 & N & A'). set (d1 := after_trace d tr1) in *.
      pose (t2 := mk_memory (objects t1) (next t1) (fun i => if i =? a then s else slots t1 i) (outside t1)).
      assert (A2 : agrees d1 t2 (set_slot a s tm1)).
      { destruct A' as (A1 & A2 & A3 & A4 & A5 & A6). repeat split; cbn [objects next slots outside set_slot t2]; auto.
        intros i. destruct (i =? a); auto. }
      assert (Hs : slots tm1 a = slots t a).
      { destruct A' as (_ & _ & A3 & _). rewrite A3. exact B3. }
      pose proof (agrees_delete d1 t2 (set_slot a s tm1) (slots t a) A2) as D.
      assert (Q : forall b, slots t a = Owns b -> objects t2 (Block b) <> None /\ b < next t2).
      { intros b Hb. unfold t2. cbn [objects next]. apply (B1 a). congruence. }
      specialize (D Q). cbn [play]. unfold assign. rewrite N, Hs.
      destruct (clean d1 (owned (slots t a))); cbn [andb].
      2:{ exists 0. intros fuel _. rewrite D. reflexivity. }
      destruct D as (tm2 & D & A3). rewrite D. apply IH. exact A3.
    - (* MoveTo a a *) intros self a k t t' v tr _ IH Ha.
      destruct IH as [Ha' IH]; [exact Ha|]. split; auto. intros d tm A. cbn [play].
      unfold move_assign. rewrite Nat.eqb_refl. apply IH. exact A.
    - (* MoveTo a b *) intros self a b k t t' v tr Hab _ IH Ha.
      destruct IH as [Ha' IH].
      { intros i c. cbn [slots objects next]. destruct (i =? a); eauto. destruct (i =? b); [discriminate|eauto]. }
      split; auto. intros d tm A. cbn [play]. unfold move_assign.
      apply Nat.eqb_neq in Hab. rewrite Hab.
      match type of IH with forall d tm, agrees d ?x tm -> _ => set (t2 := x) in * end.
      assert (A2 : agrees d t2 (set_slot a (slots tm b) (set_slot b Null tm))).
      { destruct A as (A1 & A2 & A3 & A4 & A5 & A6). repeat split; cbn [objects next slots outside set_slot t2]; auto.
        intros i. rewrite !A3. reflexivity. }
      assert (Hs : slots tm a = slots t a) by apply A. rewrite Hs.
      pose proof (agrees_delete d t2 _ (slots t a) A2) as D.
      assert (Q : forall c, slots t a = Owns c -> objects t2 (Block c) <> None /\ c < next t2).
      { intros c Hb. apply (Ha a). congruence. }
      specialize (D Q). rewrite clean_app, after_trace_app.
      destruct (clean d (owned (slots t a))); cbn [andb].
      2:{ exists 0. intros fuel _. rewrite D. reflexivity. }
      destruct D as (tm2 & D & A3). rewrite D. apply IH. exact A3.
    - (* Call *) intros self a input k t t1 output tr1 t' v tr _ IH1 _ IH2 Ha.
      destruct IH1 as [Ha1 IH1]; [exact Ha|]. destruct IH2 as [Ha2 IH2]; [exact Ha1|].
      split; auto. intros d tm A. specialize (IH1 d tm A). cbn [play].
      rewrite clean_app, after_trace_app. destruct (clean d tr1); cbn [andb].
      2:{ destruct IH1 as [n1 H1]. exists n1. intros fuel Hf. rewrite (H1 fuel Hf). reflexivity. }
      destruct IH1 as (tm1 & A1 & n1 & H1). specialize (IH2 _ tm1 A1).
      destruct (clean (after_trace d tr1) tr).
      + destruct IH2 as (tm2 & A2 & n2 & H2). exists tm2. split; auto.
        exists (Nat.max n1 n2). intros fuel Hf. rewrite H1 by lia. apply H2. lia.
      + destruct IH2 as [n2 H2]. exists (Nat.max n1 n2). intros fuel Hf. rewrite H1 by lia. apply H2. lia.
    - (* Null *) intros a input t Es Ha. split; auto. intros d tm A. cbn [clean after_trace].
      exists tm. split; auto. exists 1. intros [|fuel] Hf; [lia|].
      cbn [enter]. destruct A as (A1 & A2 & A3 & A4 & A5 & A6). rewrite A3, Es. reflexivity.
    - (* an object *) intros a input t n c s t' v tr En Eo Hi _ IH Hv Ha.
      destruct IH as [Ha' IH]; [exact Ha|]. split; auto. intros d tm A.
      cbn [clean after_trace].
      assert (Ent : forall fuel, enter p e m classes (Datatypes.S fuel) a input tm =
        match objects tm n with
        | None => Undefined
        | Some (c, _) =>
            match read_arguments p e m (sig_params (cl_sig (classes c))) input with
            | Fault f => Wrong f
            | Ok args =>
                match play (enter p e m classes fuel) (Some n) (cl_body (classes c) n args) tm with
                | Undefined => Undefined
                | Wrong f => Wrong f
                | Done (t1, v) =>
                    match write_result p e m (sig_ret (cl_sig (classes c))) v with
                    | Ok output => Done (t1, output)
                    | Fault f => Wrong f
                    end
                end
            end
        end).
      { intros fuel. cbn [enter]. destruct A as (A1 & A2 & A3 & A4 & A5 & A6). rewrite A3.
        destruct (slots t a); cbn in En; try discriminate; injection En as <-; reflexivity. }
      specialize (IH d tm A). destruct A as (A1 & _). rewrite A1 in Ent. destruct (dead n d); cbn [negb andb].
      { exists 1. intros [|fuel] Hf; [lia|]. apply Ent. }
      rewrite Eo in Ent. destruct (Hc c) as [Hc1 Hc2]. rewrite read_arguments_ok in Ent by auto.
      destruct (clean d tr).
      + destruct IH as (tm' & A' & depth & H). exists tm'. split; auto.
        exists (Datatypes.S depth). intros [|fuel] Hf; [lia|].
        rewrite Ent, H by lia. rewrite write_result_ok by auto. reflexivity.
      + destruct IH as [depth H]. exists (Datatypes.S depth). intros [|fuel] Hf; [lia|].
        rewrite Ent, H by lia. reflexivity.
  Qed.
End Agreement.

Section Safety.
  Variable p : platform.
  Variables (e : endianess) (m : signed_mode).
  Context {S X : Type}.
  Variable classes : nat -> class S X.
  Variable placed : nat -> nat -> Prop.
  Hypothesis Htidy : forall c n args, tidy placed (cl_body (classes c) n args).
  Hypothesis Hcareful : forall a c, placed a c -> forall n args, careful placed c (cl_body (classes c) n args).

  Definition safe (d : list name) (t : memory S X) : Prop :=
    (forall a b, slots t a = Owns b -> ~ In (Block b) d /\ b < next t
       /\ exists c s, objects t (Block b) = Some (c, s) /\ placed a c)
    /\ (forall a a' b, slots t a = Owns b -> slots t a' = Owns b -> a = a')
    /\ (forall a n, slots t a = Refers n -> exists o, n = Var o)
    /\ (forall n, In n d -> exists b, n = Block b /\ b < next t).

  Definition fit (self : option name) (k : code S X) (d : list name) (t : memory S X) : Prop :=
    match self with
    | None | Some (Var _) => True
    | Some (Block b) =>
        no_members k
        \/ (~ In (Block b) d /\ b < next t /\ exists c s, objects t (Block b) = Some (c, s) /\ careful placed c k)
    end.

  Lemma safe_var : forall d t o, safe d t -> dead (Var o) d = false.
  Proof.
    intros d t o (_ & _ & _ & H). destruct (dead (Var o) d) eqn:E; auto.
    apply dead_iff in E. apply H in E as (b & E & _). discriminate.
  Qed.
  Lemma alive : forall n d, ~ In n d -> dead n d = false.
  Proof. intros n d H. destruct (dead n d) eqn:E; auto. apply dead_iff in E. contradiction. Qed.

  (** Dropping the owner of an action which becomes another one. *)
  Lemma safe_drop : forall d (t t2 : memory S X) a,
    (forall b, slots t a = Owns b -> ~ In (Block b) d /\ b < next t2 /\ forall a', slots t2 a' <> Owns b) ->
    safe d t2 ->
    clean d (owned (slots t a)) = true /\ safe (after_trace d (owned (slots t a))) t2.
  Proof.
    intros d t t2 a H Hs. destruct (slots t a) as [|b|n]; cbn; auto.
    destruct (H b eq_refl) as (H1 & H2 & H3). rewrite alive by auto. split; auto.
    destruct Hs as (S1 & S2 & S3 & S4). repeat split; auto.
    - intros [E|E]; [|apply (S1 _ _ H0); auto]. injection E as <-. apply (H3 _ H0).
    - apply (S1 a0 b0 H0).
    - apply (S1 a0 b0 H0).
    - intros n [<-|Hn]; eauto.
  Qed.

  Lemma safety :
    (forall self k (t t' : memory S X) v tr, does p e m classes self k t t' v tr ->
       forall d, safe d t -> tidy placed k -> fit self k d t ->
       clean d tr = true /\ safe (after_trace d tr) t')
    /\ (forall a input (t t' : memory S X) output tr, answers p e m classes a input t t' output tr ->
       forall d, safe d t -> clean d tr = true /\ safe (after_trace d tr) t').
  Proof.
    apply does_answers.
    - intros self v t d Hs _ _. auto.
    - intros self f t x' k t' v tr Ef _ IH d Hs Ht Hf. apply IH; auto.
      + cbn in Ht. specialize (Ht (outside t)). rewrite Ef in Ht. exact Ht.
      + destruct self as [[o|b]|]; auto. destruct Hf as [Hf|(F1 & F2 & c & s & F3 & F4)]; [left|right].
        * cbn in Hf. specialize (Hf (outside t)). rewrite Ef in Hf. exact Hf.
        * cbn in F4. specialize (F4 (outside t)). rewrite Ef in F4. cbn [objects next]. eauto 6.
    - intros n f t c s s' k t' v tr Eo Ef _ IH d Hs Ht Hf.
      assert (A : dead n d = false).
      { destruct n as [o|b]; [eapply safe_var; eauto|].
        destruct Hf as [[]|(F1 & _)]. apply alive. auto. }
      cbn [clean after_trace]. rewrite A. cbn [negb andb]. apply IH.
      + destruct Hs as (S1 & S2 & S3 & S4). repeat split; auto; cbn [slots next objects] in *.
        * apply (S1 _ _ H).
        * apply (S1 _ _ H).
        * destruct (S1 _ _ H) as (_ & _ & c0 & s0 & E0 & P0). destruct (name_eqb (Block b) n) eqn:En; eauto.
          apply name_eqb_spec in En. subst n. rewrite Eo in E0. injection E0 as <- <-. eauto.
      + cbn in Ht. specialize (Ht s). rewrite Ef in Ht. exact Ht.
      + destruct n as [o|b]; cbn; auto. destruct Hf as [[]|(F1 & F2 & c0 & s0 & F3 & F4)]. right.
        rewrite Eo in F3. injection F3 as <- <-. cbn in F4. specialize (F4 s). rewrite Ef in F4.
        repeat split; auto. exists c, s'. rewrite Nat.eqb_refl. auto.
    - intros self o c s k t t' v tr Eo _ IH d Hs Ht Hf. apply IH; auto.
    - intros self o k t t' v tr Eo _ IH d Hs [].
    - intros self a g k t t1 s tr1 t' v tr Hm _ IH d Hs [Hg Ht] Hf.
      destruct Hs as (S1 & S2 & S3 & S4).
      assert (C1 : clean d tr1 = true /\ after_trace d tr1 = d).
      { inversion Hm; subst; cbn; auto. destruct Hg as [o' ->]. rewrite (safe_var d t1 o') by (repeat split; eauto; eapply S1; eauto). auto. }
      destruct C1 as [C1 C2]. rewrite !clean_app, !after_trace_app, C1, C2. cbn [andb].
      match type of IH with forall d, safe d ?x -> _ => set (t2 := x) in * end.
      assert (N : (s = Owns (next t) /\ next t2 = next t + 1 /\ exists c s0, objects t2 (Block (next t)) = Some (c, s0) /\ placed a c)
                  \/ (next t2 = next t /\ forall b, s <> Owns b)).
      { inversion Hm; subst; cbn [t2 next objects] in *; auto.
        - right. split; auto. discriminate.
        - left. repeat split; auto. rewrite name_eqb_refl. eauto.
        - right. split; auto. discriminate. }
      assert (R : forall n, s = Refers n -> exists o, n = Var o).
      { intros n ->. inversion Hm; subst. exact Hg. }
      assert (O : forall b, b < next t -> objects t2 (Block b) = objects t (Block b)).
      { intros b Hb. inversion Hm; subst; cbn [t2 objects]; auto.
        rewrite name_eqb_neq; auto. intros E. injection E as ->. lia. }
      assert (L : next t <= next t2) by lia.
      assert (Sl : forall i, slots t2 i = if i =? a then s else slots t i).
      { intros i. inversion Hm; subst; reflexivity. }
      clearbody t2. clear Hm.
      assert (Hs2 : safe d t2).
      { repeat split.
        - rewrite Sl in H. destruct (a0 =? a) eqn:Ea.
          + destruct N as [(E & E' & c & s0 & E2 & E3)|[_ N]]; [|exfalso; eapply N; eauto].
            rewrite E in H. injection H as <-. intros Hin. apply S4 in Hin as (b & E0 & Hb). injection E0 as <-. lia.
          + apply (S1 _ _ H).
        - rewrite Sl in H. destruct (a0 =? a) eqn:Ea.
          + destruct N as [(E & E' & c & s0 & E2 & E3)|[_ N]]; [|exfalso; eapply N; eauto].
            rewrite E in H. injection H as <-. lia.
          + pose proof (S1 _ _ H). lia.
        - rewrite Sl in H. destruct (a0 =? a) eqn:Ea.
          + apply Nat.eqb_eq in Ea. subst a0.
            destruct N as [(E & E' & c & s0 & E2 & E3)|[_ N]]; [|exfalso; eapply N; eauto].
            rewrite E in H. injection H as <-. eauto.
          + destruct (S1 _ _ H) as (_ & Hb & c & s0 & E0 & P0). exists c, s0. rewrite O; auto.
        - intros i j b. rewrite !Sl. destruct (i =? a) eqn:Ei, (j =? a) eqn:Ej; intros Hi Hj.
          + apply Nat.eqb_eq in Ei, Ej. congruence.
          + destruct N as [(E & E' & _)|[_ N]]; [|exfalso; eapply N; eauto].
            pose proof (S1 _ _ Hj). rewrite E in Hi. injection Hi as <-. lia.
          + destruct N as [(E & E' & _)|[_ N]]; [|exfalso; eapply N; eauto].
            pose proof (S1 _ _ Hi). rewrite E in Hj. injection Hj as <-. lia.
          + eauto.
        - intros i n. rewrite Sl. destruct (i =? a); eauto.
        - intros n Hn. apply S4 in Hn as (b & -> & Hb). exists b. split; auto. lia. }
      destruct (safe_drop d t t2 a) as [D1 D2]; auto.
      { intros b Hb. destruct (S1 _ _ Hb) as (Q1 & Q2 & _). split; [auto|]. split; [lia|].
        intros i. rewrite Sl. destruct (i =? a) eqn:Ei.
        - destruct N as [(E & _)|[_ N]]; [|apply N]. rewrite E. intros E0. injection E0 as <-. lia.
        - intros Hi. apply Nat.eqb_neq in Ei. apply Ei. eapply S2; eauto. }
      rewrite D1. cbn [andb]. apply IH; auto.
      destruct self as [[o|b]|]; auto. destruct Hf as [Hf|(F1 & F2 & c & s0 & F3 & F4 & F5)]; [left; exact Hf|].
      destruct (slots t a) as [|b'|n] eqn:Es.
      + right. cbn. rewrite O by auto. repeat split; auto; try lia. eauto.
      + destruct (Nat.eq_dec b' b) as [->|Hb].
        * left. apply F4. destruct (S1 _ _ Es) as (_ & _ & c0 & s1 & E0 & P0). congruence.
        * right. cbn. rewrite O by auto. repeat split; auto; try lia; eauto.
          intros [E|E]; [congruence|auto].
      + right. cbn. rewrite O by auto. repeat split; auto; try lia. eauto.
    - intros self a k t t' v tr _ IH d Hs [_ Ht] Hf. apply IH; auto.
      destruct self as [[o|b]|]; auto. destruct Hf as [Hf|(F1 & F2 & c & s0 & F3 & F4 & F5)]; [left; exact Hf|].
      right. repeat split; auto. eauto.
    - intros self a b k t t' v tr Hab _ IH d Hs [Hg Ht] Hf.
      destruct Hs as (S1 & S2 & S3 & S4).
      match type of IH with forall d, safe d ?x -> _ => set (t2 := x) in * end.
      assert (Sl : forall i, slots t2 i = if i =? a then slots t b else if i =? b then Null else slots t i) by reflexivity.
      assert (Hs2 : safe d t2).
      { repeat split.
        - rewrite Sl in H. destruct (a0 =? a); [|destruct (a0 =? b); [discriminate|]]; apply (S1 _ _ H).
        - rewrite Sl in H. destruct (a0 =? a); [|destruct (a0 =? b); [discriminate|]]; apply (S1 _ _ H).
        - rewrite Sl in H. destruct (a0 =? a) eqn:Ea; [|destruct (a0 =? b); [discriminate|]].
          + apply Nat.eqb_eq in Ea. subst a0. destruct (S1 _ _ H) as (_ & _ & c & s0 & E0 & P0).
            exists c, s0. split; auto.
          + destruct (S1 _ _ H) as (_ & _ & c & s0 & E0 & P0). exists c, s0. auto.
        - intros i j b0. rewrite !Sl. destruct (i =? a) eqn:Ei, (j =? a) eqn:Ej.
          + apply Nat.eqb_eq in Ei, Ej. congruence.
          + intros Hi. destruct (j =? b) eqn:Ejb; [discriminate|]. intros Hj. apply Nat.eqb_neq in Ejb.
            exfalso. apply Ejb. eapply S2; eauto.
          + destruct (i =? b) eqn:Eib; [discriminate|]. intros Hi Hj. apply Nat.eqb_neq in Eib.
            exfalso. apply Eib. eapply S2; eauto.
          + destruct (i =? b); [discriminate|]. intros Hi. destruct (j =? b); [discriminate|]. eauto.
        - intros i n. rewrite Sl. destruct (i =? a); eauto. destruct (i =? b); [discriminate|eauto].
        - exact S4. }
      destruct (safe_drop d t t2 a) as [D1 D2]; auto.
      { intros b0 Hb. destruct (S1 _ _ Hb) as (Q1 & Q2 & _). split; [auto|]. split; [exact Q2|].
        intros i. rewrite Sl. destruct (i =? a) eqn:Ei; [|destruct (i =? b); [discriminate|]].
        - intros E. apply Hab. eapply S2; eauto.
        - intros Hi. apply Nat.eqb_neq in Ei. apply Ei. eapply S2; eauto. }
      rewrite clean_app, after_trace_app, D1. cbn [andb]. apply IH; auto.
      destruct self as [[o|b0]|]; auto. destruct Hf as [Hf|(F1 & F2 & c & s0 & F3 & F4 & F5)]; [left; exact Hf|].
      destruct (slots t a) as [|b'|n] eqn:Es.
      + right. cbn. repeat split; auto. eauto.
      + destruct (Nat.eq_dec b' b0) as [->|Hb].
        * left. apply F4; auto. destruct (S1 _ _ Es) as (_ & _ & c0 & s1 & E0 & P0). congruence.
        * right. cbn. repeat split; auto; eauto. intros [E|E]; [congruence|auto].
      + right. cbn. repeat split; auto. eauto.
    - intros self a input k t t1 output tr1 t' v tr _ IH1 _ IH2 d Hs Ht Hf.
      destruct (IH1 d Hs) as [C1 S1]. rewrite clean_app, after_trace_app, C1. cbn [andb].
      apply IH2; [exact S1|exact (Ht output)|].
      destruct self as [[o|b]|]; auto. left. destruct Hf as [Hf|(_ & _ & c & s0 & _ & F4)]; [exact (Hf output)|exact (F4 output)].
    - intros a input t Es d Hs. auto.
    - intros a input t n c s t' v tr En Eo Hi _ IH Hv d Hs. cbn [clean after_trace].
      pose proof Hs as (S1 & S2 & S3 & S4).
      assert (Q : dead n d = false /\ fit (Some n) (cl_body (classes c) n (dec_list e m (sig_params (cl_sig (classes c))) input)) d t).
      { destruct (slots t a) as [|b|n'] eqn:Es; cbn in En; try discriminate; injection En as <-.
        - destruct (S1 _ _ Es) as (Q1 & Q2 & c0 & s0 & Q3 & Q4). split; [apply alive; auto|]. right.
          repeat split; auto. exists c, s. split; auto. rewrite Eo in Q3. injection Q3 as <- <-. eauto.
        - destruct (S3 _ _ Es) as [o ->]. split; [eapply safe_var; eauto|exact I]. }
      destruct Q as [Q1 Q2]. rewrite Q1. cbn [negb andb]. apply IH; auto.
  Qed.
End Safety.

(** ** Theorems *)

Lemma fresh_agrees : forall (S X : Type) (x : X), agrees [] (fresh (S := S) x) (fresh x).
Proof. intros. repeat split; auto. Qed.

(** A program whose execution in a world without destruction ends behaves the same
    when functors are destroyed, if nothing happens to any of them afterwards;
    otherwise its behaviour is undefined. *)
Theorem C84_exact : forall (S X : Type) p e m (classes : nat -> class S X) c x t v tr,
  wf_platform p -> (forall i, sig_ok p e m (cl_sig (classes i))) ->
  does p e m classes None c (fresh x) t v tr ->
  (misused tr ->
     exists depth, forall fuel, depth <= fuel -> program p e m classes fuel c x = Undefined)
  /\ (~ misused tr ->
     exists t' depth, (forall fuel, depth <= fuel -> program p e m classes fuel c x = Done (t', v))
       /\ outside t' = outside t
       /\ (forall a, slots t' a = slots t a)
       /\ (forall n, ~ In (Dropped n) tr -> objects t' n = objects t n)
       /\ (forall n, In (Dropped n) tr -> objects t' n = None)).
Proof.
  intros S X p e m classes c x t v tr Hp Hc H.
  destruct (play_agrees p e m classes Hp Hc) as [K _].
  destruct (K _ _ _ _ _ _ H) as [_ K']; [intros a b E; discriminate|].
  specialize (K' [] (fresh x) (fresh_agrees S X x)).
  destruct (clean [] tr) eqn:E.
  - split.
    + intros M. apply clean_misused in M. congruence.
    + intros _. destruct K' as (tm & A & depth & R). exists tm, depth. destruct A as (A1 & A2 & A3 & A4 & A5 & A6).
      assert (D : forall n, In n (after_trace [] tr) <-> In (Dropped n) tr).
      { intros n. assert (G : forall l d, In n (after_trace d l) <-> In n d \/ In (Dropped n) l).
        { induction l as [|[i|i] l IH]; intros d; cbn [after_trace]; [cbn; tauto|rewrite IH; cbn; intuition discriminate|].
          rewrite IH. cbn. intuition congruence. }
        rewrite G. cbn. tauto. }
      split; [exact R|]. split; auto. split; auto. split.
      * intros n Hn. rewrite A1. destruct (dead n (after_trace [] tr)) eqn:Ed; auto.
        apply dead_iff, D in Ed. contradiction.
      * intros n Hn. rewrite A1. apply D, dead_iff in Hn. rewrite Hn. reflexivity.
  - split; [intros _; exact K'|]. intros N. exfalso. apply N, clean_misused, E.
Qed.

(** If the functors which actions may own do not use their members once they have
    replaced an action which may own them or called an action, and if no variable is
    destroyed, the behaviour is defined, whatever the program does with its actions. *)
Theorem C84_discipline : forall (S X : Type) p e m (classes : nat -> class S X) (placed : nat -> nat -> Prop) c x t v tr,
  wf_platform p -> (forall i, sig_ok p e m (cl_sig (classes i))) ->
  (forall i n args, tidy placed (cl_body (classes i) n args)) ->
  (forall a i, placed a i -> forall n args, careful placed i (cl_body (classes i) n args)) ->
  tidy placed c ->
  does p e m classes None c (fresh x) t v tr ->
  exists t' depth, (forall fuel, depth <= fuel -> program p e m classes fuel c x = Done (t', v))
    /\ outside t' = outside t.
Proof.
  intros S X p e m classes placed c x t v tr Hp Hc Ht Hk Hm H.
  destruct (C84_exact S X p e m classes c x t v tr Hp Hc H) as [_ K].
  destruct K as (t' & depth & R & O & _); eauto.
  destruct (safety p e m classes placed Ht Hk) as [Q _].
  destruct (Q _ _ _ _ _ _ H []) as [Q1 _]; auto.
  - repeat split; cbn; try discriminate. intros n [].
  - exact I.
  - intros M. apply clean_misused in M. congruence.
Qed.

(** When actions only refer to variables (functors which were not moved, and
    [action_features::WEAK_REFERENCE]) and no variable is destroyed, functors may use
    their members at any time. *)
Theorem C84_references : forall (S X : Type) p e m (classes : nat -> class S X) c x t v tr,
  wf_platform p -> (forall i, sig_ok p e m (cl_sig (classes i))) ->
  (forall i n args, tidy (fun _ _ => False) (cl_body (classes i) n args)) -> tidy (fun _ _ => False) c ->
  does p e m classes None c (fresh x) t v tr ->
  exists t' depth, (forall fuel, depth <= fuel -> program p e m classes fuel c x = Done (t', v))
    /\ outside t' = outside t.
Proof. intros. eapply C84_discipline; eauto. intros a i []. Qed.

(** A functor which replaces the action it is called by, then returns: the response is
    the value it returns, it is destroyed, and the next call of the action is one of the
    new functor. *)
Theorem C84_self_replacement : forall (S X : Type) p e m (classes : nat -> class S X) a b c s c' s' v input t fuel,
  wf_platform p -> sig_ok p e m (cl_sig (classes c)) ->
  slots t a = Owns b -> b < next t -> objects t (Block b) = Some (c, s) ->
  good_input p e m (sig_params (cl_sig (classes c))) input ->
  cl_body (classes c) (Block b) (dec_list e m (sig_params (cl_sig (classes c))) input)
  = Assign a (Temporary c' s') (Return v) ->
  ret_encodable p m (sig_ret (cl_sig (classes c))) v ->
  exists t', enter p e m classes (1 + fuel) a input t = Done (t', response e m (sig_ret (cl_sig (classes c))) v)
    /\ objects t' (Block b) = None
    /\ (exists b', slots t' a = Owns b' /\ objects t' (Block b') = Some (c', s'))
    /\ (forall a', a' <> a -> slots t' a' = slots t a')
    /\ (forall n, n <> Block b -> n <> Block (next t) -> objects t' n = objects t n)
    /\ outside t' = outside t.
Proof.
  intros S X p e m classes a b c s c' s' v input t fuel Hp [Hc1 Hc2] Es Hb Eo Hi Hk Hv.
  cbn [plus enter]. rewrite Es, Eo, (read_arguments_ok p e m Hp) by auto. rewrite Hk.
  cbn [play]. unfold assign. cbn [new_action slots set_object].
  rewrite Es. unfold delete. cbn [objects set_slot set_object].
  assert (N : name_eqb (Block b) (Block (next t)) = false) by (apply name_eqb_neq; intros E; injection E as ->; lia).
  rewrite N, Eo, (write_result_ok p e m Hp) by auto. eexists. split; [reflexivity|].
  cbn [objects slots outside set_object set_slot next]. rewrite name_eqb_refl.
  split; [reflexivity|]. split; [|split; [|split]].
  - exists (next t). rewrite Nat.eqb_refl. split; auto. rewrite name_eqb_refl.
    rewrite name_eqb_neq; auto. intros E. injection E as E. lia.
  - intros a' Ha. apply Nat.eqb_neq in Ha. rewrite Ha. reflexivity.
  - intros n H1 H2. rewrite !name_eqb_neq by auto. reflexivity.
  - reflexivity.
Qed.

(** ** Examples *)

Definition byte_sig : signature := mk_sig [TUns 1] (Some (TUns 1)).

(** - 0: [struct { uint8_t n; uint8_t operator()(uint8_t k) { n += k; if (n > 9) disp.replace<0>(C1{n}); return k; } };]
    - 1: the same, but it always returns [n];
    - 2: it replaces the action 0, then uses its member;
    - 3: it calls the action 1, then uses its member;
    - 4: a functor which replaces the action 0;
    - 5: as 2, but it takes the action 0 away first;
    - 6: it gives [*this] to the action 1, and replaces the action 0. *)
Definition ex_class (i : nat) : class Z (list Z) :=
  mk_class byte_sig (fun this args =>
    let k := match args with [VInt k] => k | _ => 0%Z end in
    let log s c := World (fun x => (x ++ [s], c)) in
    let finish := Members (fun n => ((n + 1) mod 256, Return (VInt (n mod 256))))%Z in
    match i with
    | 0 => Members (fun n =>
             let n' := ((n + k) mod 256)%Z in
             (n', log n' (if (9 <? n')%Z then Assign 0 (Temporary 1 n') (Return (VInt (k mod 256))) else Return (VInt (k mod 256)))))
    | 1 => Members (fun n => (n, log n (Return (VInt (n mod 256)))))
    | 2 => Assign 0 (Temporary 1 0%Z) finish
    | 3 => Call 1 [1%Z] (fun _ => finish)
    | 4 => Assign 0 (Temporary 1 0%Z) (Return (VInt 0))
    | 5 => MoveTo 9 0 (Assign 0 (Temporary 1 0%Z) finish)
    | _ => Assign 1 (Lvalue this) (Assign 0 Nothing (Return (VInt 0)))
    end).

Lemma ex_class_ok : forall i, sig_ok pc_native LITTLE TWOS_COMPLEMENT (cl_sig (ex_class i)).
Proof. intros i. split; cbn; [tyoks|]. unfold ty_ok. cbn. intuition (try lia; try discriminate). Qed.

(** Three calls of a functor which replaces itself at the second one. *)
Definition counting : code Z (list Z) :=
  Assign 0 (Temporary 0 3%Z) (Call 0 [4%Z] (fun o1 => Call 0 [5%Z] (fun o2 => Call 0 [6%Z] (fun o3 =>
    World (fun x => (x ++ o1 ++ o2 ++ o3, Return (VInt 0))))))).

Definition run_ex (c : code Z (list Z)) : outcome (list Z * val) :=
  match program pc_native LITTLE TWOS_COMPLEMENT ex_class 5 c [] with
  | Done (t, v) => Done (outside t, v)
  | Undefined => Undefined
  | Wrong f => Wrong f
  end.

Example C84_example : run_ex counting = Done ([7; 12; 12; 4; 5; 12]%Z, VInt 0).
Proof. vm_compute. reflexivity. Qed.

Lemma byte_input : forall b, is_byte b -> good_input pc_native LITTLE TWOS_COMPLEMENT [TUns 1] [b].
Proof.
  intros b H. split; [repeat constructor; apply H|]. split; [reflexivity|]. cbn [decodable_list decodable]. auto.
Qed.

(** Play a closed program. *)
Ltac played :=
  lazymatch goal with
  | |- does ?p ?e ?m ?cl ?self ?c ?t ?t' ?v ?tr =>
      let c' := eval hnf in c in
      let t1 := eval cbn [objects next slots outside fresh Nat.eqb Nat.add] in t in
      change (does p e m cl self c' t1 t' v tr);
      lazymatch c' with
      | Return _ => apply does_return
      | World _ => eapply does_world; [reflexivity|played]
      | Members _ => eapply does_members; [reflexivity|reflexivity|played]
      | Assign _ _ _ => eapply does_assign; [econstructor; reflexivity|played]
      | MoveTo _ _ _ => eapply does_move; [discriminate|played]
      | Call _ _ _ => eapply does_call; [played|played]
      end
  | |- answers _ _ _ _ _ _ _ _ _ _ =>
      eapply answers_object; [reflexivity|reflexivity|apply byte_input; range|played|];
      cbn [cl_sig ex_class byte_sig sig_ret ret_encodable]; split; [vm_compute; split; congruence|exact I]
  end.

Ltac is_clean := rewrite <- clean_misused; vm_compute; congruence.
Ltac is_misused := apply clean_misused; vm_compute; reflexivity.

(** C84_exact on a program which is correct. *)
Example C84_example_exact : exists t tr,
  does pc_native LITTLE TWOS_COMPLEMENT ex_class None counting (fresh []) t (VInt 0) tr
  /\ outside t = [7; 12; 12; 4; 5; 12]%Z /\ In (Dropped (Block 0)) tr /\ ~ misused tr.
Proof.
  do 2 eexists. split; [unfold counting; played|].
  split; [vm_compute; reflexivity|]. split; [vm_compute; auto 10|is_clean].
Qed.

(** C84_discipline: its hypotheses hold of the classes 0 and 1. *)
Example C84_example_discipline :
  let classes i := ex_class (if i =? 0 then 0 else 1) in
  (forall i, sig_ok pc_native LITTLE TWOS_COMPLEMENT (cl_sig (classes i)))
  /\ (forall i n args, tidy (fun _ _ => True) (cl_body (classes i) n args))
  /\ (forall i n args, careful (fun _ _ => True) i (cl_body (classes i) n args))
  /\ tidy (fun _ _ => True) counting.
Proof.
  cbv zeta. split; [intros; apply ex_class_ok|].
  split; [|split]; [intros i n args; destruct (i =? 0)..|]; cbn; auto; intros s; destruct (9 <? _)%Z; cbn; auto.
Qed.

(** C84_references: the class 2, given as a variable. *)
Definition by_reference : code Z (list Z) :=
  Declare 0 2 5%Z (Declare 1 1 8%Z (Assign 0 (Lvalue (Var 0)) (Call 0 [1%Z] (fun o => World (fun x => (x ++ o, Return (VInt 0))))))).
Definition ref_class (i : nat) : class Z (list Z) :=
  mk_class byte_sig (fun _ _ => Assign 0 (Lvalue (Var 1)) (Members (fun n => ((n + 1)%Z, Return (VInt (n mod 256)))))).
Example C84_example_references :
  (forall i n args, tidy (fun _ _ => False) (cl_body (ref_class i) n args)) /\ tidy (fun _ _ => False) by_reference
  /\ exists t, program pc_native LITTLE TWOS_COMPLEMENT ref_class 3 by_reference [] = Done (t, VInt 0) /\ outside t = [5]%Z.
Proof.
  split; [cbn; eauto|]. split; [cbn; eauto|]. eexists. split; [reflexivity|]. vm_compute. reflexivity.
Qed.

(** Some program whose functors are called as they should, and whose behaviour is
    undefined because of destructions. *)
Definition breaks (c : code Z (list Z)) : Prop :=
  exists t v tr, does pc_native LITTLE TWOS_COMPLEMENT ex_class None c (fresh []) t v tr
    /\ exists depth, forall fuel, depth <= fuel -> program pc_native LITTLE TWOS_COMPLEMENT ex_class fuel c [] = Undefined.

Lemma breaks_misused : forall c t v tr,
  does pc_native LITTLE TWOS_COMPLEMENT ex_class None c (fresh []) t v tr -> misused tr -> breaks c.
Proof.
  intros c t v tr H M. exists t, v, tr. split; auto.
  apply (C84_exact _ _ pc_native LITTLE TWOS_COMPLEMENT ex_class c [] t v tr pc_native_wf ex_class_ok H). exact M.
Qed.

Definition call_once (a : nat) : code Z (list Z) := Call a [1%Z] (fun o => World (fun x => (x ++ o, Return (VInt 0)))).

(** doc/callee.rst.in 63-66 and dispatcher.hpp 176-187 put no condition on the caller
    of [replace]. A
    functor which replaces the action it is called by may not use its members
    afterwards; a functor which calls an action may be destroyed by it; an action to
    which [*this] was given calls a destroyed functor. *)
Theorem C84_members_refuted : breaks (Assign 0 (Temporary 2 5%Z) (call_once 0)).
Proof. eapply breaks_misused; [played|is_misused]. Qed.
Theorem C84_nested_refuted : breaks (Assign 0 (Temporary 3 5%Z) (Assign 1 (Temporary 4 0%Z) (call_once 0))).
Proof. eapply breaks_misused; [unfold call_once; played|is_misused]. Qed.
Theorem C84_this_refuted : breaks (Assign 0 (Temporary 6 5%Z) (Call 0 [1%Z] (fun _ => call_once 1))).
Proof. eapply breaks_misused; [unfold call_once; played|is_misused]. Qed.

(** A functor which takes the action it is called by away before it replaces it is not
    destroyed. *)
Example C84_example_taken : run_ex (Assign 0 (Temporary 5 5%Z) (call_once 0)) = Done ([5]%Z, VInt 0).
Proof. vm_compute. reflexivity. Qed.

Print Assumptions C84_exact.
Print Assumptions C84_discipline.
Print Assumptions C84_references.
Print Assumptions C84_self_replacement.
Print Assumptions C84_members_refuted.
Print Assumptions C84_nested_refuted.
Print Assumptions C84_this_refuted.
