(** Property C66: the functors held by actions. *)

From Coq Require Import List ZArith Lia Bool Arith.
From Verif Require Import Base CInt Spec IntModel Conditions MemFacts TypeLevel Serial TupleModel
  TypeLevelProofs IntProofs SignedProofs SerialProofs CodecFacts Bounds TupleProofs Hosts Closed PropertiesTuple
  PropertiesTypes SpecRpc Rpc RpcProofs PropertiesRpc Functors.
Import ListNotations.
Open Scope nat_scope.

(** ** Specification *)

(** The bytes of the arguments of a call. *)
Definition good_input (p : platform) (e : endianess) (m : signed_mode) (params : list ty) (bs : list Z) : Prop :=
  Forall is_byte bs /\ length bs = wire_sizes params /\ decodable_list p e m params bs.

(** The results of the functors can be encoded. *)
Definition class_ok {S X : Type} (p : platform) (e : endianess) (m : signed_mode) (g : functor_class S X) : Prop :=
  sig_ok p e m (g_sig g)
  /\ forall args s x, Forall2 has_type (sig_params (g_sig g)) args ->
       ret_encodable p m (sig_ret (g_sig g)) (snd (g_call g args s x)).

(** Names are declared once, the variables which are used are alive (but
    nothing is said about the variables to which actions refer), and actions
    are called on the bytes of arguments. *)
Fixpoint legal {S : Type} (p : platform) (e : endianess) (m : signed_mode) (params : list ty)
    (known alive : list nat) (ops : list (op S)) : Prop :=
  match ops with
  | [] => True
  | o :: ops' =>
      match o with
      | Declare v _ => ~ In v known /\ legal p e m params (v :: known) (v :: alive) ops'
      | Assign v _ | FromLvalue _ v | FromRvalue _ v => In v alive /\ legal p e m params known alive ops'
      | EndOfScope v => In v alive /\ legal p e m params known (remove Nat.eq_dec v alive) ops'
      | FromTemporary _ _ | Move _ _ | Clear _ => legal p e m params known alive ops'
      | Call _ input => good_input p e m params input /\ legal p e m params known alive ops'
      end
  end.

(** The variable to which each action refers, if any. *)
Definition refers_after {S : Type} (r : nat -> option nat) (o : op S) : nat -> option nat :=
  match o with
  | FromLvalue a v => fun b => if b =? a then Some v else r b
  | FromRvalue a _ | FromTemporary a _ | Clear a => fun b => if b =? a then None else r b
  | Move a c => fun b => if a =? c then r b else if b =? a then r c else if b =? c then None else r b
  | _ => r
  end.
Definition refers {S : Type} (ops : list (op S)) : nat -> option nat := fold_left refers_after ops (fun _ => None).

(** An action is called although it refers to a destroyed variable. *)
Definition dangling {S : Type} (ops : list (op S)) : Prop :=
  exists before a input after v,
    ops = before ++ Call a input :: after /\ refers before a = Some v /\ In (EndOfScope v) before.

(** The operation makes [a] another action. *)
Definition changes {S : Type} (a : nat) (o : op S) : Prop :=
  match o with
  | FromLvalue b _ | FromRvalue b _ | FromTemporary b _ | Clear b => b = a
  | Move b c => b <> c /\ (b = a \/ c = a)
  | _ => False
  end.

(** What is asked to [a], and what it is asked according to the events. *)
Fixpoint asked {S : Type} (a : nat) (ops : list (op S)) : list (list Z) :=
  match ops with
  | Call b input :: ops' => if b =? a then input :: asked a ops' else asked a ops'
  | _ :: ops' => asked a ops'
  | [] => []
  end.
Fixpoint served {S X : Type} (a : nat) (evs : list (event S X)) : list (list Z) :=
  match evs with
  | Called b _ input _ _ _ :: evs' => if b =? a then input :: served a evs' else served a evs'
  | _ :: evs' => served a evs'
  | [] => []
  end.

Section Chains.
  Context {S X : Type}.
  Variables (e : endianess) (m : signed_mode) (g : functor_class S X).

  (** One call of the functor whose state is [s]. *)
  Definition one_call (s : S) (input : list Z) (x x' : X) (output : list Z) (s' : S) : Prop :=
    exists v, g_call g (dec_list e m (sig_params (g_sig g)) input) s x = (s', x', v)
      /\ output = response e m (sig_ret (g_sig g)) v.

  (** The calls of [a] are those of a functor of its own, of initial state [s]. *)
  Fixpoint own_chain (a : nat) (s : S) (evs : list (event S X)) : Prop :=
    match evs with
    | [] => True
    | Called b v input x x' output :: evs' =>
        if b =? a then v = None /\ exists s', one_call s input x x' output s' /\ own_chain a s' evs'
        else own_chain a s evs'
    | _ :: evs' => own_chain a s evs'
    end.

  (** The calls of [a], and of every other action which refers to the variable
      [v], are those of [v], of initial state [s], and see what the program does
      with it. *)
  Fixpoint shared_chain (a v : nat) (s : S) (evs : list (event S X)) : Prop :=
    match evs with
    | [] => True
    | Called b u input x x' output :: evs' =>
        (b = a -> u = Some v)
        /\ match u with
           | Some u =>
               if u =? v then exists s', one_call s input x x' output s' /\ shared_chain a v s' evs'
               else shared_chain a v s evs'
           | None => shared_chain a v s evs'
           end
    | Written u s' :: evs' => if u =? v then shared_chain a v s' evs' else shared_chain a v s evs'
    | Taken u :: evs' => if u =? v then shared_chain a v (snd (g_take g s)) evs' else shared_chain a v s evs'
    end.
End Chains.

Definition start {S X : Type} (x : X) : memory S X := mk_memory (fun _ => None) (fun _ => Null) x false.

(** ** Proofs *)

Lemma update_same : forall (A : Type) (f : nat -> A) i a, update f i a i = a.
Proof. intros. unfold update. rewrite Nat.eqb_refl. reflexivity. Qed.
Lemma update_other : forall (A : Type) (f : nat -> A) i a j, j <> i -> update f i a j = f j.
Proof. intros. unfold update. destruct (Nat.eqb_spec j i); congruence. Qed.

Section Proofs.
  Context {S X : Type}.
  Variables (p : platform) (e : endianess) (m : signed_mode) (g : functor_class S X).
  Hypothesis Hp : wf_platform p.
  Hypothesis Hg : class_ok p e m g.
  Let params : list ty := sig_params (g_sig g).

  Lemma default_ret : ret_encodable p m (sig_ret (g_sig g))
    match sig_ret (g_sig g) with Some t => default_val t | None => VInt 0 end.
  Proof.
    destruct Hg as [[_ Hr] _]. destruct (sig_ret (g_sig g)) as [t|]; cbn in *; auto. apply default_ok. apply Hr.
  Qed.

  (** A call, on each kind of action. *)
  Lemma call_held : forall t a input, good_input p e m params input -> slots t a <> Null ->
    run p (held_action e m g t a) take_wire give_wire (mk_wires input [] t)
    = let (w, v) := f_call (held_functor g a) (dec_list e m params input) (mk_wires [] [] t) in
      Ok (mk_wires (w_in w) (w_out w ++ response e m (sig_ret (g_sig g)) v) (w_user w)).
  Proof.
    intros t a input (Hb & Hl & Hd) Hn. destruct Hg as [Hs Hr].
    assert (Epull : pull take_wire (wire_sizes params) (mk_wires input [] t) = Ok (mk_wires [] [] t, input)).
    { rewrite <- Hl. rewrite <- (app_nil_r input) at 2. apply take_wires. }
    assert (Ha : action_model (held_action e m g t a) = Some (mk_model e m (held_functor g a))).
    { unfold held_action. destruct (slots t a); [congruence| |]; reflexivity. }
    rewrite (C29_read_call_write _ p _ _ take_wire give_wire _ Hp Ha); cbn [m_func m_e m_m].
    - change (f_sig (held_functor g a)) with (g_sig g). fold params. rewrite Epull. cbn [bind].
      destruct (f_call (held_functor g a) (dec_list e m params input) (mk_wires [] [] t)) as [[wi wo wu] v].
      rewrite give_wires. reflexivity.
    - exact Hs.
    - change (f_sig (held_functor g a)) with (g_sig g). fold params. intros x1 bs E. rewrite Epull in E.
      injection E as <- <-. split; auto. split; auto.
      assert (Ht : Forall2 has_type params (dec_list e m params input)).
      { apply dec_list_has_types; auto. eapply tys_wf. apply Hs. }
      unfold held_functor. cbn [f_call w_user]. destruct (slots t a) as [|s|v].
      + congruence.
      + specialize (Hr (dec_list e m params input) s (outside t) Ht).
        destruct (g_call g (dec_list e m params input) s (outside t)) as [[s' x'] r]. exact Hr.
      + destruct (variables t v) as [s|].
        * specialize (Hr (dec_list e m params input) s (outside t) Ht).
          destruct (g_call g (dec_list e m params input) s (outside t)) as [[s' x'] r]. exact Hr.
        * apply default_ret.
  Qed.

  Let args (input : list Z) : list val := dec_list e m params input.

  Lemma step_call : forall t a input, good_input p e m params input ->
    match slots t a with
    | Null => step p e m g (Call a input) t = Ok (t, [])
    | Own s => exists s' x' v, g_call g (args input) s (outside t) = (s', x', v)
        /\ step p e m g (Call a input) t
           = Ok (mk_memory (variables t) (update (slots t) a (Own s')) x' (undefined t),
                 [Called a None input (outside t) x' (response e m (sig_ret (g_sig g)) v)])
    | Ref o =>
        match variables t o with
        | Some s => exists s' x' v, g_call g (args input) s (outside t) = (s', x', v)
            /\ step p e m g (Call a input) t
               = Ok (mk_memory (update (variables t) o (Some s')) (slots t) x' (undefined t),
                     [Called a (Some o) input (outside t) x' (response e m (sig_ret (g_sig g)) v)])
        | None => exists evs, step p e m g (Call a input) t
            = Ok (mk_memory (variables t) (slots t) (outside t) true, evs)
        end
    end.
  Proof.
    intros t a input Hi. pose proof (call_held t a input Hi) as C.
    unfold step. destruct (slots t a) as [|s|o] eqn:Es.
    - unfold held_action. rewrite Es. reflexivity.
    - rewrite C by discriminate. unfold held_functor. cbn [f_call w_user]. rewrite Es. fold (args input).
      destruct (g_call g (args input) s (outside t)) as [[s' x'] v] eqn:Eg.
      exists s', x', v. split; [reflexivity|]. reflexivity.
    - rewrite C by discriminate. unfold held_functor. cbn [f_call w_user]. rewrite Es. fold (args input).
      destruct (variables t o) as [s|].
      + destruct (g_call g (args input) s (outside t)) as [[s' x'] v] eqn:Eg.
        exists s', x', v. split; [reflexivity|]. reflexivity.
      + eexists. reflexivity.
  Qed.

  Lemma exec_cons : forall o ops t r, exec p e m g (o :: ops) t = Ok (Some r) ->
    exists t1 ev evs, step p e m g o t = Ok (t1, ev) /\ undefined t1 = false
      /\ exec p e m g ops t1 = Ok (Some (fst r, evs)) /\ snd r = ev ++ evs.
  Proof.
    intros o ops t r E. cbn [exec] in E. destruct (step p e m g o t) as [[t1 ev]|f] eqn:Es; cbn [bind] in E; [|discriminate].
    destruct (undefined t1) eqn:Eu; [discriminate|].
    destruct (exec p e m g ops t1) as [[[t2 evs]|]|f] eqn:Ex; cbn [bind] in E; try discriminate.
    injection E as <-. exists t1, ev, evs. cbn [fst snd]. auto.
  Qed.

  Definition inputs_ok (ops : list (op S)) : Prop :=
    Forall (fun o => match o with Call _ input => good_input p e m params input | _ => True end) ops.

  (** An operation which does not change the action [a]. *)
  Lemma step_keeps : forall a o t t1 ev, step p e m g o t = Ok (t1, ev) -> ~ changes a o ->
    match o with Call _ _ => False | _ => True end ->
    slots t1 a = slots t a /\ (forall b v i x x' bs, ~ In (Called b v i x x' bs) ev).
  Proof.
    intros a o t t1 ev E Hc Hn.
    destruct o as [v s|v s|v|b v|b v|b s|b c|b|b input]; cbn [step changes] in *; try contradiction;
      try (injection E as <- <-; cbn [slots]; split; [reflexivity|]; intros; cbn; intuition discriminate);
      try (injection E as <- <-; cbn [slots]; rewrite update_other by auto; split; [reflexivity|]; intros; cbn; intuition discriminate).
    - destruct (variables t v) as [s|].
      + destruct (g_take g s) as [s1 s2]. injection E as <- <-. cbn [slots]. rewrite update_other by auto.
        split; [reflexivity|]. intros; cbn; intuition discriminate.
      + injection E as <- <-. cbn [slots]. split; [reflexivity|]. intros; cbn; intuition discriminate.
    - destruct (Nat.eqb_spec b c) as [->|N].
      + injection E as <- <-. split; [reflexivity|]. intros; cbn; auto.
      + injection E as <- <-. cbn [slots]. rewrite !update_other by (intros ->; apply Hc; auto).
        split; [reflexivity|]. intros; cbn; auto.
  Qed.

  Lemma own_chain_skip : forall a s ev evs, (forall b v i x x' bs, ~ In (Called b v i x x' bs) ev) ->
    own_chain e m g a s (ev ++ evs) <-> own_chain e m g a s evs.
  Proof.
    induction ev as [|c ev IH]; intros evs H; cbn [app]; [tauto|].
    assert (H' : forall b v i x x' bs, ~ In (Called b v i x x' bs) ev) by (intros; intros K; eapply H; right; exact K).
    destruct c; cbn [own_chain]; try (apply IH; auto).
    exfalso. eapply H. left. reflexivity.
  Qed.
  Lemma served_skip : forall a (ev evs : list (event S X)), (forall b v i x x' bs, ~ In (Called b v i x x' bs) ev) ->
    served a (ev ++ evs) = served a evs.
  Proof.
    induction ev as [|c ev IH]; intros evs H; cbn [app]; [auto|].
    assert (H' : forall b v i x x' bs, ~ In (Called b v i x x' bs) ev) by (intros; intros K; eapply H; right; exact K).
    destruct c; cbn [served]; try (apply IH; auto).
    exfalso. eapply H. left. reflexivity.
  Qed.

  Lemma owned : forall a ops s t t' evs, slots t a = Own s -> Forall (fun o => ~ changes a o) ops -> inputs_ok ops ->
    exec p e m g ops t = Ok (Some (t', evs)) -> own_chain e m g a s evs /\ served a evs = asked a ops.
  Proof.
    intros a. induction ops as [|o ops IH]; intros s t t' evs Hs Hc Hi E.
    - cbn in E. injection E as <- <-. cbn. auto.
    - apply exec_cons in E as (t1 & ev & evs' & Es & Hu & Ex & Ev). cbn [fst snd] in *. subst evs.
      inversion Hc as [|o0 ops0 Hc1 Hc2]; subst o0 ops0. inversion Hi as [|o0 ops0 Hi1 Hi2]; subst o0 ops0.
      destruct o as [v s0|v s0|v|b v|b v|b s0|b c|b|b input];
        try (match type of Es with step _ _ _ _ ?o _ = _ =>
          destruct (step_keeps a o t t1 ev Es Hc1 I) as [K1 K2] end;
          rewrite own_chain_skip, served_skip by auto; cbn [asked]; apply (IH s t1 t'); auto; congruence).
      pose proof (step_call t b input Hi1) as C. cbn [asked].
      destruct (Nat.eqb_spec b a) as [->|N].
      + rewrite Hs in C. destruct C as (s' & x' & v & G & C). rewrite C in Es. injection Es as <- <-.
        apply (IH s' _ t') in Ex; auto; [|cbn [slots]; apply update_same]. destruct Ex as [I1 I2].
        cbn [app own_chain served]. rewrite Nat.eqb_refl. split; [|congruence].
        split; auto. exists s'. split; auto. exists v. split; auto.
      + apply Nat.eqb_neq in N.
        assert (K : slots t1 a = Own s /\ (ev = [] \/ exists u i x x' bs, ev = [Called b u i x x' bs])).
        { apply Nat.eqb_neq in N. destruct (slots t b) as [|s0|o].
          - rewrite C in Es. injection Es as <- <-. auto.
          - destruct C as (s' & x' & v & G & C). rewrite C in Es. injection Es as <- <-. cbn [slots].
            rewrite update_other by auto. split; auto. right. eauto 6.
          - destruct (variables t o) as [s0|].
            + destruct C as (s' & x' & v & G & C). rewrite C in Es. injection Es as <- <-. cbn [slots].
              split; auto. right. eauto 6.
            + destruct C as [evs0 C]. rewrite C in Es. injection Es as <- <-. discriminate Hu. }
        destruct K as [K1 K2]. destruct (IH s t1 t' evs' K1 Hc2 Hi2 Ex) as [I1 I2].
        destruct K2 as [-> | (u & i & x & x' & bs & ->)]; cbn [app own_chain served]; auto. rewrite N. auto.
  Qed.

  Lemma shared : forall a v ops s t t' evs, slots t a = Ref v -> variables t v = Some s ->
    Forall (fun o => ~ changes a o) ops -> ~ In (EndOfScope v) ops -> inputs_ok ops ->
    exec p e m g ops t = Ok (Some (t', evs)) -> shared_chain e m g a v s evs /\ served a evs = asked a ops.
  Proof.
    intros a v. induction ops as [|o ops IH]; intros s t t' evs Hs Hv Hc Hend Hi E.
    - cbn in E. injection E as <- <-. cbn. auto.
    - apply exec_cons in E as (t1 & ev & evs' & Es & Hu & Ex & Ev). cbn [fst snd] in *. subst evs.
      inversion Hc as [|o0 ops0 Hc1 Hc2]; subst o0 ops0. inversion Hi as [|o0 ops0 Hi1 Hi2]; subst o0 ops0.
      assert (Hend' : ~ In (EndOfScope v) ops) by (intros K; apply Hend; right; exact K).
      assert (Hend1 : o <> EndOfScope v) by (intros ->; apply Hend; left; reflexivity).
      assert (Hsl : match o with Call _ _ => False | _ => True end -> slots t1 a = Ref v).
      { intros K. destruct (step_keeps a o t t1 ev Es Hc1 K) as [K1 _]. congruence. }
      destruct o as [u s0|u s0|u|b u|b u|b s0|b c|b|b input]; cbn [asked];
        try specialize (Hsl I).
      1,2: cbn [step] in Es; injection Es as <- <-; cbn [app shared_chain served];
        destruct (Nat.eqb_spec u v) as [->|N];
          [apply (IH s0 _ t') in Ex; auto; cbn [variables]; apply update_same
          |apply (IH s _ t') in Ex; auto; cbn [variables]; rewrite update_other; auto].
      + cbn [step] in Es. injection Es as <- <-. cbn [app]. apply (IH s _ t') in Ex; auto.
        cbn [variables]. rewrite update_other; auto.
      + cbn [step] in Es. injection Es as <- <-. cbn [app]. apply (IH s _ t') in Ex; auto.
      + cbn [step] in Es. destruct (variables t u) as [su|] eqn:Eu.
        * destruct (g_take g su) as [s1 s2] eqn:Et. injection Es as <- <-. cbn [app shared_chain served].
          destruct (Nat.eqb_spec u v) as [->|N].
          -- assert (su = s) by congruence. subst su. rewrite Et. cbn [snd].
             apply (IH s2 _ t') in Ex; auto. cbn [variables]. apply update_same.
          -- apply (IH s _ t') in Ex; auto. cbn [variables]. rewrite update_other; auto.
        * injection Es as <- <-. discriminate Hu.
      + cbn [step] in Es. injection Es as <- <-. cbn [app]. apply (IH s _ t') in Ex; auto.
      + cbn [step] in Es. destruct (b =? c); injection Es as <- <-; cbn [app]; apply (IH s _ t') in Ex; auto.
      + cbn [step] in Es. injection Es as <- <-. cbn [app]. apply (IH s _ t') in Ex; auto.
      + clear Hsl. pose proof (step_call t b input Hi1) as C.
        destruct (slots t b) as [|s0|u] eqn:Eb.
        * rewrite C in Es. injection Es as <- <-. cbn [app]. destruct (Nat.eqb_spec b a) as [->|N]; [congruence|].
          apply (IH s _ t') in Ex; auto.
        * destruct C as (s' & x' & r & G & C). rewrite C in Es. injection Es as <- <-.
          cbn [app shared_chain served]. destruct (Nat.eqb_spec b a) as [->|N]; [congruence|].
          apply (IH s _ t') in Ex; auto.
          -- split; [|apply Ex]. split; [congruence|apply Ex].
          -- cbn [slots]. rewrite update_other; auto.
        * destruct (variables t u) as [su|] eqn:Eu.
          -- destruct C as (s' & x' & r & G & C). rewrite C in Es. injection Es as <- <-.
             cbn [app shared_chain served].
             destruct (Nat.eqb_spec u v) as [->|N].
             ++ assert (su = s) by congruence. subst su.
                apply (IH s' _ t') in Ex; auto; [|cbn [variables]; apply update_same].
                destruct Ex as [I1 I2]. split.
                ** split; auto. exists s'. split; auto. exists r. auto.
                ** destruct (b =? a); congruence.
             ++ apply (IH s _ t') in Ex; auto; [|cbn [variables]; rewrite update_other; auto].
                destruct Ex as [I1 I2]. destruct (Nat.eqb_spec b a) as [->|N']; [congruence|].
                split; auto. split; auto. congruence.
          -- destruct C as [evs0 C]. rewrite C in Es. injection Es as <- <-. discriminate Hu.
  Qed.

  (** The memory after [pre]. *)
  Record tied (known alive : list nat) (pre : list (op S)) (t : memory S X) : Prop := {
    tied_slots : forall a v, slots t a = Ref v <-> refers pre a = Some v;
    tied_vars : forall v, variables t v <> None <-> In v alive;
    tied_ended : forall v, In (EndOfScope v) pre -> ~ In v alive /\ In v known;
    tied_refers : forall a v, refers pre a = Some v -> In v known;
    tied_alive : forall v, In v alive -> In v known;
    tied_known : forall v, In v known -> ~ In v alive -> In (EndOfScope v) pre;
    tied_defined : undefined t = false
  }.

  Lemma refers_snoc : forall (pre : list (op S)) o, refers (pre ++ [o]) = refers_after (refers pre) o.
  Proof. intros. unfold refers. rewrite fold_left_app. reflexivity. Qed.

  Lemma in_snoc : forall (A : Type) (x y : A) l, In x (l ++ [y]) <-> In x l \/ y = x.
  Proof. intros. rewrite in_app_iff. cbn. tauto. Qed.

  (** Operations other than [Declare] and [EndOfScope] change neither list. *)
  Lemma tied_same : forall known alive pre t o t1,
    tied known alive pre t ->
    (forall a v, slots t1 a = Ref v <-> refers_after (refers pre) o a = Some v) ->
    (forall v, variables t1 v <> None <-> variables t v <> None) ->
    (forall v, o <> EndOfScope v) ->
    (forall a v, refers_after (refers pre) o a = Some v -> In v known) ->
    undefined t1 = false -> tied known alive (pre ++ [o]) t1.
  Proof.
    intros known alive pre t o t1 T H1 H2 H3 H4 H5. constructor; auto.
    - intros a v. rewrite refers_snoc. auto.
    - intros v. rewrite H2. apply (tied_vars _ _ _ _ T).
    - intros v K. apply in_snoc in K as [K|K]; [apply (tied_ended _ _ _ _ T); auto|]. exfalso. eapply H3. exact K.
    - intros a v. rewrite refers_snoc. apply H4.
    - apply (tied_alive _ _ _ _ T).
    - intros v K1 K2. apply in_snoc. left. apply (tied_known _ _ _ _ T); auto.
  Qed.

  Lemma update_none : forall (f : nat -> option S) o s v, f o <> None ->
    (update f o (Some s) v <> None <-> f v <> None).
  Proof.
    intros f o s v H. unfold update. destruct (Nat.eqb_spec v o) as [->|N]; [|tauto]. split; auto. discriminate.
  Qed.

  Lemma undefined_iff : forall ops known alive pre t, tied known alive pre t -> legal p e m params known alive ops ->
    (exists r, exec p e m g ops t = Ok r)
    /\ (exec p e m g ops t = Ok None <->
        exists before a input after v, ops = before ++ Call a input :: after
          /\ refers (pre ++ before) a = Some v /\ In (EndOfScope v) (pre ++ before)).
  Proof.
    induction ops as [|o ops IH]; intros known alive pre t T L.
    - split; [eexists; reflexivity|]. split; [discriminate|].
      intros (before & a & input & after & v & E & _). destruct before; discriminate.
    - assert (Next : forall known' alive' t1 ev, step p e m g o t = Ok (t1, ev) -> tied known' alive' (pre ++ [o]) t1 ->
        legal p e m params known' alive' ops ->
        (forall a input v, o = Call a input -> refers pre a = Some v -> ~ In (EndOfScope v) pre) ->
        (exists r, exec p e m g (o :: ops) t = Ok r)
        /\ (exec p e m g (o :: ops) t = Ok None <->
            exists before a input after v, o :: ops = before ++ Call a input :: after
              /\ refers (pre ++ before) a = Some v /\ In (EndOfScope v) (pre ++ before))).
      { intros known' alive' t1 ev Es T1 L1 Hd. destruct (IH known' alive' (pre ++ [o]) t1 T1 L1) as [[r Er] Hiff].
        cbn [exec]. rewrite Es. cbn [bind]. rewrite (tied_defined _ _ _ _ T1), Er. cbn [bind].
        split; [destruct r as [[t2 evs]|]; eexists; reflexivity|].
        assert (Hn : (match r with None => Ok None | Some (t2, evs) => Ok (Some (t2, ev ++ evs)) end
                       : res (option (memory S X * list (event S X)))) = Ok None <-> exec p e m g ops t1 = Ok None).
        { rewrite Er. destruct r as [[t2 evs]|]; split; congruence. }
        rewrite Hn, Hiff. split.
        - intros (before & a & input & after & v & E & R & K). exists (o :: before), a, input, after, v.
          rewrite <- app_assoc in R, K. cbn [app] in *. split; [congruence|auto].
        - intros (before & a & input & after & v & E & R & K). destruct before as [|o' before]; cbn [app] in *.
          + injection E as -> E. exfalso. rewrite app_nil_r in *. eapply Hd; eauto.
          + injection E as <- E. exists before, a, input, after, v. rewrite <- app_assoc. cbn [app]. auto. }
      destruct o as [u s0|u s0|u|b u|b u|b s0|b c|b|b input]; cbn [legal] in L.
      + destruct L as [L1 L2]. eapply Next; [reflexivity| |exact L2|discriminate].
        constructor; cbn [variables slots undefined].
        * intros a v. rewrite refers_snoc. cbn [refers_after]. apply (tied_slots _ _ _ _ T).
        * intros v. cbn [In]. unfold update. destruct (Nat.eqb_spec v u) as [->|N].
          -- split; [auto|discriminate].
          -- rewrite (tied_vars _ _ _ _ T). split; auto. intros [K|K]; congruence.
        * intros v K. apply in_snoc in K as [K|K]; [|discriminate]. destruct (tied_ended _ _ _ _ T v K) as [K1 K2].
          split; [|right; auto]. intros [->|K3]; auto.
        * intros a v. rewrite refers_snoc. cbn [refers_after]. intros K. right. eapply (tied_refers _ _ _ _ T); eauto.
        * intros v [->|K]; [left; auto|right]. apply (tied_alive _ _ _ _ T); auto.
        * intros v [->|K] K2; [exfalso; apply K2; left; auto|]. apply in_snoc. left. apply (tied_known _ _ _ _ T); auto.
          intros K3. apply K2. right. auto.
        * apply (tied_defined _ _ _ _ T).
      + destruct L as [L1 L2]. eapply Next; [reflexivity| |exact L2|discriminate].
        apply (tied_same known alive pre t); auto; try discriminate; cbn [variables slots undefined refers_after].
        * apply (tied_slots _ _ _ _ T).
        * intros v. apply update_none. apply (tied_vars _ _ _ _ T). auto.
        * apply (tied_refers _ _ _ _ T).
        * apply (tied_defined _ _ _ _ T).
      + destruct L as [L1 L2]. eapply Next; [reflexivity| |exact L2|discriminate].
        constructor; cbn [variables slots undefined].
        * intros a v. rewrite refers_snoc. cbn [refers_after]. apply (tied_slots _ _ _ _ T).
        * intros v. unfold update. destruct (Nat.eqb_spec v u) as [->|N].
          -- split; [congruence|]. intros K. exfalso. eapply remove_In. exact K.
          -- rewrite (tied_vars _ _ _ _ T). split; intros K; [apply in_in_remove; auto|]. eapply in_remove. exact K.
        * intros v K. apply in_snoc in K as [K|K].
          -- destruct (tied_ended _ _ _ _ T v K) as [K1 K2]. split; auto. intros K3. apply K1. eapply in_remove. exact K3.
          -- injection K as ->. split; [apply remove_In|]. apply (tied_alive _ _ _ _ T); auto.
        * intros a v. rewrite refers_snoc. cbn [refers_after]. apply (tied_refers _ _ _ _ T).
        * intros v K. apply (tied_alive _ _ _ _ T). eapply in_remove. exact K.
        * intros v K1 K2. apply in_snoc. destruct (Nat.eq_dec v u) as [->|N]; [right; auto|left].
          apply (tied_known _ _ _ _ T); auto. intros K3. apply K2. apply in_in_remove; auto.
        * apply (tied_defined _ _ _ _ T).
      + destruct L as [L1 L2]. eapply Next; [reflexivity| |exact L2|discriminate].
        apply (tied_same known alive pre t); auto; try discriminate; cbn [variables slots undefined refers_after].
        * intros a v. unfold update. destruct (a =? b); [split; congruence|]. apply (tied_slots _ _ _ _ T).
        * tauto.
        * intros a v. destruct (a =? b); [|apply (tied_refers _ _ _ _ T)]. intros K. injection K as <-.
          apply (tied_alive _ _ _ _ T). auto.
        * apply (tied_defined _ _ _ _ T).
      + destruct L as [L1 L2]. assert (Hu : variables t u <> None) by (apply (tied_vars _ _ _ _ T); auto).
        destruct (variables t u) as [s0|] eqn:Eu; [|congruence].
        destruct (g_take g s0) as [s1 s2] eqn:Et.
        eapply Next; [cbn [step]; rewrite Eu, Et; reflexivity| |exact L2|discriminate].
        apply (tied_same known alive pre t); auto; try discriminate; cbn [variables slots undefined refers_after].
        * intros a v. unfold update. destruct (a =? b); [split; congruence|]. apply (tied_slots _ _ _ _ T).
        * intros v. apply update_none. congruence.
        * intros a v. destruct (a =? b); [discriminate|apply (tied_refers _ _ _ _ T)].
        * apply (tied_defined _ _ _ _ T).
      + eapply Next; [reflexivity| |exact L|discriminate].
        apply (tied_same known alive pre t); auto; try discriminate; cbn [variables slots undefined refers_after].
        * intros a v. unfold update. destruct (a =? b); [split; congruence|]. apply (tied_slots _ _ _ _ T).
        * tauto.
        * intros a v. destruct (a =? b); [discriminate|apply (tied_refers _ _ _ _ T)].
        * apply (tied_defined _ _ _ _ T).
      + destruct (Nat.eqb_spec b c) as [->|N].
        * eapply Next; [cbn [step]; rewrite Nat.eqb_refl; reflexivity| |exact L|discriminate].
          apply (tied_same known alive pre t); auto; try discriminate; cbn [refers_after].
          -- intros a v. rewrite Nat.eqb_refl. apply (tied_slots _ _ _ _ T).
          -- tauto.
          -- intros a v. rewrite Nat.eqb_refl. apply (tied_refers _ _ _ _ T).
          -- apply (tied_defined _ _ _ _ T).
        * eapply Next; [cbn [step]; rewrite (proj2 (Nat.eqb_neq b c) N); reflexivity| |exact L|discriminate].
          apply (tied_same known alive pre t); auto; try discriminate; cbn [variables slots undefined refers_after];
            rewrite ?(proj2 (Nat.eqb_neq b c) N).
          -- intros a v. unfold update. destruct (a =? b); [apply (tied_slots _ _ _ _ T)|].
             destruct (a =? c); [split; congruence|]. apply (tied_slots _ _ _ _ T).
          -- tauto.
          -- intros a v. destruct (a =? b); [apply (tied_refers _ _ _ _ T)|].
             destruct (a =? c); [discriminate|apply (tied_refers _ _ _ _ T)].
          -- apply (tied_defined _ _ _ _ T).
      + eapply Next; [reflexivity| |exact L|discriminate].
        apply (tied_same known alive pre t); auto; try discriminate; cbn [variables slots undefined refers_after].
        * intros a v. unfold update. destruct (a =? b); [split; congruence|]. apply (tied_slots _ _ _ _ T).
        * tauto.
        * intros a v. destruct (a =? b); [discriminate|apply (tied_refers _ _ _ _ T)].
        * apply (tied_defined _ _ _ _ T).
      + destruct L as [L1 L2]. pose proof (step_call t b input L1) as C.
        destruct (slots t b) as [|s0|u] eqn:Eb.
        * eapply Next; [exact C| |exact L2|].
          -- apply (tied_same known alive pre t); auto; try discriminate; cbn [refers_after]; try tauto; apply T.
          -- intros a i v E R. injection E as <- <-. apply (tied_slots _ _ _ _ T) in R. congruence.
        * destruct C as (s' & x' & r & G & C). eapply Next; [exact C| |exact L2|].
          -- apply (tied_same known alive pre t); auto; try discriminate; cbn [variables slots undefined refers_after]; try tauto; try apply T.
             intros a v. unfold update. destruct (Nat.eqb_spec a b) as [->|N]; [|apply (tied_slots _ _ _ _ T)].
             split; [discriminate|]. intros K. apply (tied_slots _ _ _ _ T) in K. congruence.
          -- intros a i v E R. injection E as <- <-. apply (tied_slots _ _ _ _ T) in R. congruence.
        * destruct (variables t u) as [su|] eqn:Eu.
          -- destruct C as (s' & x' & r & G & C). eapply Next; [exact C| |exact L2|].
             ++ apply (tied_same known alive pre t); auto; try discriminate; cbn [variables slots undefined refers_after]; try tauto; try apply T.
                intros v. apply update_none. congruence.
             ++ intros a i v E R K. injection E as <- <-. apply (tied_slots _ _ _ _ T) in R.
                assert (v = u) by congruence. subst v.
                apply (tied_ended _ _ _ _ T) in K. apply K. apply (tied_vars _ _ _ _ T). congruence.
          -- destruct C as [evs C]. cbn [exec]. rewrite C. cbn [bind undefined].
             split; [eexists; reflexivity|]. split; [intros _|reflexivity].
             exists [], b, input, ops, u. cbn [app]. rewrite app_nil_r. split; [reflexivity|].
             assert (R : refers pre b = Some u) by (apply (tied_slots _ _ _ _ T); auto). split; auto.
             apply (tied_known _ _ _ _ T); [eapply (tied_refers _ _ _ _ T); eauto|].
             intros K. apply (tied_vars _ _ _ _ T) in K. congruence.
  Qed.
End Proofs.

(** ** Theorems *)

(** An action made from a temporary, or from a variable which is moved, holds a
    functor of its own: whatever happens to anything else. *)
Theorem C66_owned : forall (S X : Type) p e m (g : functor_class S X) a o s ops t t' evs,
  wf_platform p -> class_ok p e m g ->
  (o = FromTemporary a s \/ exists v, o = FromRvalue a v /\ variables t v = Some s) ->
  Forall (fun o => ~ changes a o) ops ->
  Forall (fun o => match o with Call _ input => good_input p e m (sig_params (g_sig g)) input | _ => True end) ops ->
  exec p e m g (o :: ops) t = Ok (Some (t', evs)) ->
  own_chain e m g a (fst (g_take g s)) evs /\ served a evs = asked a ops.
Proof.
  intros S X p e m g a o s ops t t' evs Hp Hg Ho Hc Hi E.
  apply exec_cons in E as (t1 & ev & evs' & Es & Hu & Ex & Ev). cbn [fst snd] in *. subst evs.
  destruct Ho as [->|(v & -> & Hv)]; cbn [step] in Es.
  - injection Es as <- <-. cbn [app]. eapply owned in Ex; eauto. cbn [slots]. apply update_same.
  - rewrite Hv in Es. destruct (g_take g s) as [s1 s2]. injection Es as <- <-. cbn [app own_chain served fst].
    eapply owned in Ex; eauto. cbn [slots]. apply update_same.
Qed.

(** An action made from a variable calls the variable itself. *)
Theorem C66_shared : forall (S X : Type) p e m (g : functor_class S X) a v s ops t t' evs,
  wf_platform p -> class_ok p e m g -> variables t v = Some s ->
  Forall (fun o => ~ changes a o) ops -> ~ In (EndOfScope v) ops ->
  Forall (fun o => match o with Call _ input => good_input p e m (sig_params (g_sig g)) input | _ => True end) ops ->
  exec p e m g (FromLvalue a v :: ops) t = Ok (Some (t', evs)) ->
  shared_chain e m g a v s evs /\ served a evs = asked a ops.
Proof.
  intros S X p e m g a v s ops t t' evs Hp Hg Hv Hc He Hi E.
  apply exec_cons in E as (t1 & ev & evs' & Es & Hu & Ex & Ev). cbn [fst snd] in *. subst evs.
  cbn [step] in Es. injection Es as <- <-. cbn [app]. eapply shared in Ex; eauto. cbn [slots]. apply update_same.
Qed.

(** The behaviour is undefined exactly when an action which refers to a
    destroyed variable is called. *)
Theorem C66_undefined : forall (S X : Type) p e m (g : functor_class S X) ops x,
  wf_platform p -> class_ok p e m g -> legal p e m (sig_params (g_sig g)) [] [] ops ->
  (exists r, exec p e m g ops (start x) = Ok r)
  /\ (exec p e m g ops (start x) = Ok None <-> dangling ops).
Proof.
  intros S X p e m g ops x Hp Hg L.
  assert (T : tied [] [] [] (start x : memory S X)).
  { constructor; cbn; try tauto; intros; try (split; congruence); discriminate. }
  apply (undefined_iff p e m g Hp Hg ops [] [] [] (start x) T L).
Qed.

(** Programs which only give temporaries and moved variables to actions have no
    undefined behaviour. *)
Theorem C66_no_lvalue : forall (S X : Type) p e m (g : functor_class S X) ops x,
  wf_platform p -> class_ok p e m g -> legal p e m (sig_params (g_sig g)) [] [] ops ->
  Forall (fun o => match o with FromLvalue _ _ => False | _ => True end) ops ->
  exists r, exec p e m g ops (start x) = Ok (Some r).
Proof.
  intros S X p e m g ops x Hp Hg L Hl.
  destruct (C66_undefined S X p e m g ops x Hp Hg L) as [[r Er] H]. destruct r as [r|]; [eauto|].
  exfalso. apply H in Er as (before & a & input & after & v & -> & R & _).
  apply Forall_app in Hl as [Hl _].
  assert (K : forall r : nat -> option nat, (forall b, r b = None) -> fold_left refers_after before r a = None).
  { clear R L H. induction Hl as [|o before Ho Hb IH]; intros r Hr; cbn [fold_left]; auto.
    apply IH. intros b. destruct o; cbn [refers_after]; auto; try contradiction;
      repeat match goal with |- context [?i =? ?j] => destruct (i =? j) end; auto. }
  unfold refers in R. rewrite K in R by auto. discriminate.
Qed.

(** ** Examples *)

(** [struct G { int16_t n; int16_t operator()(int16_t k) { return n += k; } };] *)
Definition adder : functor_class Z (list Z) :=
  mk_class (mk_sig [TSig 2] (Some (TSig 2)))
    (fun args n x =>
       match args with
       | [VInt k] => (((n + k + 32767) mod 65535 - 32767)%Z, x ++ [k], VInt ((n + k + 32767) mod 65535 - 32767))
       | _ => (n, x, VInt 0)
       end)
    (fun n => (n, 0%Z)).

Lemma adder_ok : class_ok pc_native BIG TWOS_COMPLEMENT adder.
Proof.
  split.
  - split; cbn; [tyoks|]. unfold ty_ok. cbn. unfold sig_host_ok. intuition (try lia; try discriminate).
  - intros args s x H. cbn [adder g_sig sig_params sig_ret ret_encodable g_call] in *.
    inversion H as [|t v ts vs Hv H']; subst. inversion H'; subst.
    destruct v as [k|]; [|destruct Hv]. cbn [snd].
    pose proof (Z.mod_pos_bound (s + k + 32767) 65535 ltac:(lia)) as B.
    split; cbn [has_type all_signed].
    + change (half 2) with 32768%Z. lia.
    + unfold sig_encodable. change (half 2) with 32768%Z. intuition (try lia; try discriminate).
Qed.

(** Two actions made from the same object, one of them by moving it: the
    changes made to the object are seen by the first one only. *)
Definition sharing : list (op Z) :=
  [Declare 0 10%Z; FromRvalue 1 0; Assign 0 20%Z; FromLvalue 2 0; Call 1 [0; 1]%Z; Call 2 [0; 1]%Z; Assign 0 100%Z;
   Call 1 [0; 1]%Z; Call 2 [0; 1]%Z].

Lemma bytes_input : forall a b, is_byte a -> is_byte b -> good_input pc_native BIG TWOS_COMPLEMENT [TSig 2] [a; b].
Proof.
  intros a b Ha Hb. split; auto. split; [reflexivity|]. cbn [decodable_list decodable]. split; auto.
  intros _ _. right. reflexivity.
Qed.

Example C66_example :
  legal pc_native BIG TWOS_COMPLEMENT [TSig 2] [] [] sharing
  /\ exists t, exec pc_native BIG TWOS_COMPLEMENT adder sharing (start []) = Ok (Some (t,
    [Written 0 10%Z; Taken 0; Written 0 20%Z;
     Called 1 None [0; 1]%Z [] [1]%Z [0; 11]%Z; Called 2 (Some 0) [0; 1]%Z [1]%Z [1; 1]%Z [0; 21]%Z;
     Written 0 100%Z;
     Called 1 None [0; 1]%Z [1; 1]%Z [1; 1; 1]%Z [0; 12]%Z;
     Called 2 (Some 0) [0; 1]%Z [1; 1; 1]%Z [1; 1; 1; 1]%Z [0; 101]%Z])).
Proof.
  split.
  - cbn. repeat split; auto; try (apply bytes_input; range); try tauto; try discriminate.
  - eexists. vm_compute. reflexivity.
Qed.

(** action.hpp 156: "Wrap a copy of a provided callback".  False of lvalues:
    the action sees what happens to the callback afterwards. *)
Theorem C66_copy_refuted : exists t t' evs evs',
  exec pc_native BIG TWOS_COMPLEMENT adder [Declare 0 10%Z; FromLvalue 1 0; Call 1 [0; 1]%Z] (start [])
  = Ok (Some (t, evs))
  /\ exec pc_native BIG TWOS_COMPLEMENT adder [Declare 0 10%Z; FromLvalue 1 0; Assign 0 100%Z; Call 1 [0; 1]%Z] (start [])
     = Ok (Some (t', evs'))
  /\ last evs (Taken 0) = Called 1 (Some 0) [0; 1]%Z [] [1]%Z [0; 11]%Z
  /\ last evs' (Taken 0) = Called 1 (Some 0) [0; 1]%Z [] [1]%Z [0; 101]%Z.
Proof. do 4 eexists. split; [vm_compute; reflexivity|]. split; [vm_compute; reflexivity|]. split; reflexivity. Qed.

(** doc/callee.rst.in 65: "you can even replace the callbacks with callback of
    any storage duration".  A function which gives its local variable to a
    dispatcher, which lives longer. *)
Theorem C66_duration_refuted :
  let ops := [Declare 0 10%Z; FromLvalue 1 0; EndOfScope 0; Call 1 [0; 1]%Z] in
  legal pc_native BIG TWOS_COMPLEMENT [TSig 2] [] [] ops
  /\ exec pc_native BIG TWOS_COMPLEMENT adder ops (start []) = Ok None.
Proof.
  cbv zeta. split; [|vm_compute; reflexivity].
  cbn. repeat split; auto; try (apply bytes_input; range); try tauto; try discriminate.
Qed.

(** A functor whose [operator()] is qualified by [&&], because it gives away
    what it holds, is accepted (signature.hpp 65-72) and called several times. *)
Definition one_shot : functor_class Z unit :=
  mk_class (mk_sig [] (Some (TUns 2))) (fun _ n x => (0%Z, x, VInt n)) (fun n => (n, 0%Z)).

Example C66_example_one_shot : exists t,
  exec pc_native BIG TWOS_COMPLEMENT one_shot [FromTemporary 0 258%Z; Call 0 []; Call 0 []] (start tt)
  = Ok (Some (t, [Called 0 None [] tt tt [1; 2]%Z; Called 0 None [] tt tt [0; 0]%Z])).
Proof. eexists. vm_compute. reflexivity. Qed.

Print Assumptions C66_owned.
Print Assumptions C66_shared.
Print Assumptions C66_undefined.
Print Assumptions C66_no_lvalue.
Print Assumptions C66_copy_refuted.
Print Assumptions C66_duration_refuted.
