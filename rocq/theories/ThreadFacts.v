(** Two programs which share a buffered dispatcher: when their accesses clash. *)

From Coq Require Import List ZArith Lia Bool Arith.
From Verif Require Import Base Rpc Buffered RpcProofs Threads.
Import ListNotations.
Open Scope nat_scope.

Section Facts.
  Context {X : Type}.
  Notation shared := (shared X).
  Notation prog := (prog X).

  Lemma place_dec : forall l l' : place, {l = l'} + {l <> l'}.
  Proof. decide equality; apply Nat.eq_dec. Qed.

  (** Accesses which do not commute. *)
  Definition clash (a b : access) : Prop := fst a = fst b /\ (snd a = true \/ snd b = true).
  Definition clashes (t u : list access) : Prop := exists a b, In a t /\ In b u /\ clash a b.

  Lemma clash_dec : forall a b, {clash a b} + {~ clash a b}.
  Proof.
    intros [l w] [l' w']. unfold clash. cbn [fst snd]. destruct (place_dec l l') as [E|E].
    - destruct w; [left; auto|]. destruct w'; [left; auto|]. right. intros (_ & [H|H]); discriminate.
    - right. intros (H & _). auto.
  Qed.

  Lemma clash_sym : forall a b, clash a b -> clash b a.
  Proof. intros a b (H1 & H2). split; auto. destruct H2; auto. Qed.

  (** ** Places *)

  Lemma stored_some : forall m i v, i < length m -> stored m i v = Some (set_nth m i v).
  Proof. intros m i v H. unfold stored. destruct (Nat.ltb_spec i (length m)); auto; lia. Qed.

  Lemma stored_none : forall m i v, length m <= i -> stored m i v = None.
  Proof. intros m i v H. unfold stored. destruct (Nat.ltb_spec i (length m)); auto; lia. Qed.

  Lemma set_nth_comm : forall (A : Type) (l : list A) i j a b, i <> j ->
    set_nth (set_nth l i a) j b = set_nth (set_nth l j b) i a.
  Proof. induction l as [|c l IH]; intros [|i] [|j] a b H; cbn; auto; try lia. f_equal. apply IH. lia. Qed.

  Lemma look_change : forall l l' v (s s' : shared), l <> l' -> change l' v s = Some s' -> look l s' = look l s.
  Proof.
    intros l l' v [b x] s' H E. destruct b as [[k f acts] il lc inx onx ob bufs].
    unfold change in E. cbn [d_actions d_keyring d_features] in E.
    destruct l'; try (injection E as <-; destruct l; try congruence; reflexivity).
    - assert (G : forall a0 i0, (a0, i0) <> (array, i) -> forall s'' , Some s'' = Some s' -> True) by auto. clear G.
      destruct array as [|[|array]]; destruct bufs as [m|m o]; try discriminate; unfold stored in E;
        match type of E with context [?j <? length ?m] => destruct (Nat.ltb_spec j (length m)) end; try discriminate;
        cbn [option_map] in E; injection E as <-; destruct l; try reflexivity;
        unfold look; cbn [b_bufs]; destruct array as [|[|array]]; try reflexivity;
        apply set_nth_other; congruence.
    - destruct (Nat.ltb_spec i (length acts)); try discriminate. injection E as <-.
      destruct l; try reflexivity. unfold look. cbn [b_dispatcher d_actions]. apply set_nth_other. congruence.
  Qed.

  (** Stores at different places. *)
  Lemma change_change : forall l v l' v' (s : shared), l <> l' ->
    match change l v s, change l' v' s with
    | Some s1, Some s2 => exists s3, change l' v' s1 = Some s3 /\ change l v s2 = Some s3
    | Some s1, None => change l' v' s1 = None
    | None, Some s2 => change l v s2 = None
    | None, None => True
    end.
  Proof.
    intros l v l' v' [b x] H. destruct b as [[k f acts] il lc inx onx ob bufs].
    destruct l, l'; try congruence; unfold change, stored; cbn [d_actions d_keyring d_features];
      repeat match goal with
      | |- context [match ?a with 0 => _ | S _ => _ end] => is_var a; destruct a
      | |- context [match ?a with Single _ => _ | Double _ _ => _ end] => is_var a; destruct a
      end; auto;
      repeat first
      [ progress cbn [option_map d_actions d_keyring d_features] | rewrite set_nth_length
      | match goal with |- context [?i <? length ?l] => destruct (Nat.ltb_spec i (length l)); try lia end ]; auto;
      eexists; split; try reflexivity;
      rewrite set_nth_comm by congruence; reflexivity.
  Qed.

  (** ** Programs *)

  Lemma alone_seq : forall (A B : Type) (q : prog A) (k : A -> prog B) s,
    alone (seq q k) s
    = let '(t, r, s1) := alone q s in
      match r with
      | Ok a => let '(t', r', s2) := alone (k a) s1 in (t ++ t', r', s2)
      | Fault f => (t, Fault f, s1)
      end.
  Proof.
    intros A B q k. induction q as [a|f|l c IH|l v c IH|f args c IH]; intros s; cbn [seq alone].
    - destruct (alone (k a) s) as [[t r] s1]. reflexivity.
    - reflexivity.
    - destruct (look l s) as [v|]; [|reflexivity]. rewrite IH.
      destruct (alone (c v) s) as [[t [a|f]] s1]; [|reflexivity].
      destruct (alone (k a) s1) as [[t' r'] s2]. reflexivity.
    - destruct (change l v s) as [s1|]; [|reflexivity]. rewrite IH.
      destruct (alone c s1) as [[t [a|f]] s2]; [|reflexivity].
      destruct (alone (k a) s2) as [[t' r'] s3]. reflexivity.
    - destruct (f_call f args (snd s)) as [x v]. rewrite IH.
      destruct (alone (c v) (fst s, x)) as [[t [a|g]] s1]; [|reflexivity].
      destruct (alone (k a) s1) as [[t' r'] s2]. reflexivity.
  Qed.

  (** The first access of a program and the others. *)
  Lemma alone_advance : forall (A : Type) (q q' : prog A) s s', advance q s = Some (q', s') ->
    exists a, next q = Some a
      /\ alone q s = let '(t, r, s2) := alone q' s' in (a :: t, r, s2).
  Proof.
    intros A [a|f|l k|l v k|f args k] q' s s' H; cbn [advance] in H; try discriminate; cbn [next alone].
    - exists (l, false). split; auto. destruct (look l s) as [v|]; injection H as <- <-; reflexivity.
    - exists (l, true). split; auto. destruct (change l v s) as [s1|]; injection H as <- <-; reflexivity.
    - exists (PWorld, true). split; auto. destruct (f_call f args (snd s)) as [x r]. injection H as <- <-. reflexivity.
  Qed.

  Lemma alone_end : forall (A : Type) (q : prog A) s, advance q s = None ->
    next q = None /\ exists r, alone q s = ([], r, s).
  Proof.
    intros A [a|f|l k|l v k|f args k] s H; cbn [advance] in H; cbn [next alone]; split; eauto.
    - destruct (look l s); discriminate.
    - destruct (look l s); discriminate.
    - destruct (change l v s); discriminate.
    - destruct (change l v s); discriminate.
    - destruct (f_call f args (snd s)); discriminate.
    - destruct (f_call f args (snd s)); discriminate.
  Qed.

  Lemma next_advance : forall (A : Type) (q : prog A) s a, next q = Some a ->
    exists q' s', advance q s = Some (q', s').
  Proof.
    intros A [a|f|l k|l v k|f args k] s b H; cbn [next] in H; try discriminate; cbn [advance].
    - destruct (look l s); eauto.
    - destruct (change l v s); eauto.
    - destruct (f_call f args (snd s)); eauto.
  Qed.

  Lemma world_change : forall (b : buffered X) x y, change PWorld y (b, x) = Some (b, y).
  Proof. intros [] x y. reflexivity. Qed.

  (** One access of [q] and one access of [r] which do not clash commute. *)
  Lemma advance_advance : forall (A B : Type) (q q' : prog A) (r r' : prog B) s s1 s2 a b,
    next q = Some a -> next r = Some b -> ~ clash a b ->
    advance q s = Some (q', s1) -> advance r s = Some (r', s2) ->
    exists s3, advance q s2 = Some (q', s3) /\ advance r s1 = Some (r', s3).
  Proof.
    (* every access but a load is a store *)
    intros A B q q' r r' s s1 s2 a b Ha Hb Hc Hq Hr.
    assert (W : forall (C : Type) (q q' : prog C) s s' a, next q = Some a -> advance q s = Some (q', s') ->
      (snd a = false /\ s' = s
       /\ forall u, look (fst a) u = look (fst a) s -> advance q u = Some (q', u))
      \/ (snd a = true /\ fst a <> PWorld /\ exists v, 
           (forall u, advance q u = match change (fst a) v u with
                                    | Some u' => Some (match q with Store _ _ k => k | _ => q' end, u')
                                    | None => Some (Stop OutOfBounds, u)
                                    end)
           /\ (change (fst a) v s = Some s' \/ change (fst a) v s = None /\ s' = s /\ q' = Stop OutOfBounds))
      \/ (a = (PWorld, true) /\ exists f : X -> X * prog C,
           (forall u, advance q u = Some (snd (f (snd u)), (fst u, fst (f (snd u)))))
           /\ True)).
    { clear. intros C q q' s s' a H E.
      destruct q as [c|f|l k|l v k|f args k]; cbn [next] in H; try discriminate; injection H as <-; cbn [fst snd].
      - left. cbn [advance] in E. destruct (look l s) as [v|] eqn:El; injection E as <- <-; repeat split; auto;
          intros u Hu; cbn [advance]; rewrite Hu; reflexivity.
      - destruct (place_dec l PWorld) as [->|Hl].
        + right. right. split; auto. exists (fun _ => (v, k)). split; auto. intros [ub ux]. cbn [advance fst snd].
          rewrite world_change. reflexivity.
        + right. left. split; auto. split; auto. exists v. split.
          * intros u. reflexivity.
          * cbn [advance] in E. destruct (change l v s) as [s2|]; injection E as <- <-; auto.
      - right. right. split; auto. exists (fun x => let (y, r) := f_call f args x in (y, k r)). split; auto.
        intros [ub ux]. cbn [advance fst snd]. destruct (f_call f args ux); reflexivity. }
    pose proof (W A q q' s s1 a Ha Hq) as Wq. pose proof (W B r r' s s2 b Hb Hr) as Wr. clear W.
    destruct Wq as [(A1 & -> & A3)|[(A1 & A2 & v & A3 & A4)|(-> & f & A3 & _)]];
      destruct Wr as [(B1 & -> & B3)|[(B1 & B2 & w & B3 & B4)|(-> & g & B3 & _)]].
    - exists s. split; auto.
    - exists s2. split.
      + apply A3. destruct B4 as [B4|(_ & -> & _)]; auto.
        eapply look_change; [|exact B4]. intros E. apply Hc. split; auto.
      + exact Hr.
    - exists s2. split; auto. apply A3. rewrite B3 in Hr. injection Hr as _ <-. destruct s as [ub ux]. cbn [fst snd] in *.
      destruct a as [l aw]. cbn [fst snd] in *. subst aw.
      destruct l; try reflexivity. exfalso. apply Hc. split; cbn; auto.
    - exists s1. split; auto. apply B3. destruct A4 as [A4|(_ & -> & _)]; auto.
      eapply look_change; [|exact A4]. intros E. apply Hc. split; auto.
    - assert (N : fst a <> fst b) by (intros E; apply Hc; split; auto).
      pose proof (change_change (fst a) v (fst b) w s N) as C.
      destruct A4 as [A4|(A4 & -> & ->)]; destruct B4 as [B4|(B4 & -> & ->)]; rewrite A4, B4 in C.
      + destruct C as (s3 & C1 & C2). exists s3. rewrite A3, B3, C1, C2.
        rewrite A3, A4 in Hq. rewrite B3, B4 in Hr. split; congruence.
      + exists s1. split; auto. rewrite B3, C. reflexivity.
      + exists s2. split; auto. rewrite A3, C. reflexivity.
      + exists s. auto.
    - assert (C : forall u y, change (fst a) v (fst u, y) = option_map (fun t => (fst t, y)) (change (fst a) v u)).
      { intros [ub ux] y. cbn [fst]. destruct a as [l aw]. cbn [fst snd] in *. unfold change.
        destruct ub as [d il lc inx onx ob bufs]. destruct l; try reflexivity; try congruence.
        - destruct array as [|[|array]]; destruct bufs; try reflexivity; destruct (stored _ i v); reflexivity.
        - destruct (i <? length (d_actions d)); reflexivity. }
      rewrite B3 in Hr. injection Hr as <- <-.
      assert (S1 : snd s1 = snd s).
      { destruct A4 as [A4|(_ & -> & _)]; auto. specialize (C s (snd s)). rewrite <- surjective_pairing, A4 in C.
        cbn [option_map] in C. injection C as C. rewrite C. reflexivity. }
      exists (fst s1, fst (g (snd s))). split.
      + rewrite A3, C. destruct A4 as [A4|(A4 & -> & ->)]; rewrite A4; cbn [option_map]; [|reflexivity].
        rewrite A3, A4 in Hq. congruence.
      + rewrite B3, S1. reflexivity.
    - exists s1. split; auto. apply B3. rewrite A3 in Hq. injection Hq as _ <-. destruct s as [ub ux]. cbn [fst snd] in *.
      destruct b as [l aw]. cbn [fst snd] in *. subst aw.
      destruct l; try reflexivity. exfalso. apply Hc. split; cbn; auto.
    - assert (C : forall u y, change (fst b) w (fst u, y) = option_map (fun t => (fst t, y)) (change (fst b) w u)).
      { intros [ub ux] y. cbn [fst]. destruct b as [l aw]. cbn [fst snd] in *. unfold change.
        destruct ub as [d il lc inx onx ob bufs]. destruct l; try reflexivity; try congruence.
        - destruct array as [|[|array]]; destruct bufs; try reflexivity; destruct (stored _ i w); reflexivity.
        - destruct (i <? length (d_actions d)); reflexivity. }
      rewrite A3 in Hq. injection Hq as <- <-.
      assert (S1 : snd s2 = snd s).
      { destruct B4 as [B4|(_ & -> & _)]; auto. specialize (C s (snd s)). rewrite <- surjective_pairing, B4 in C.
        cbn [option_map] in C. injection C as C. rewrite C. reflexivity. }
      exists (fst s2, fst (f (snd s))). split.
      + rewrite A3, S1. reflexivity.
      + rewrite B3, C. destruct B4 as [B4|(B4 & -> & ->)]; rewrite B4; cbn [option_map]; [|reflexivity].
        rewrite B3, B4 in Hr. congruence.
    - exfalso. apply Hc. split; cbn; auto.
  Qed.

  Definition trace {A : Type} (q : prog A) (s : shared) : list access := fst (fst (alone q s)).

  Lemma clashes_one_dec : forall a u, {exists b, In b u /\ clash a b} + {~ exists b, In b u /\ clash a b}.
  Proof.
    intros a u. induction u as [|b u IH].
    - right. intros (b & [] & _).
    - destruct (clash_dec a b) as [C|C]; [left; exists b; cbn; auto|].
      destruct IH as [IH|IH].
      + left. destruct IH as (c & H1 & H2). exists c. cbn. auto.
      + right. intros (c & [<-|H] & H2); auto. apply IH. exists c. auto.
  Qed.

  Lemma alone_local : forall (A : Type) (q : prog A) s, advance q s = None ->
    exists v, q = local v /\ forall u, alone q u = ([], v, u).
  Proof.
    intros A [a|f|l k|l v k|f args k] s H; cbn [advance] in H.
    - exists (Ok a). auto.
    - exists (Fault f). auto.
    - destruct (look l s); discriminate.
    - destruct (change l v s); discriminate.
    - destruct (f_call f args (snd s)); discriminate.
  Qed.

  (** An access commutes with a whole program none of whose accesses it clashes
      with. *)
  Lemma advance_alone : forall (A B : Type) n (q : prog A) (r r' : prog B) s s' b t v s1,
    length t = n -> alone q s = (t, v, s1) -> next r = Some b -> advance r s = Some (r', s') ->
    (forall a, In a t -> ~ clash a b) ->
    exists s2, alone q s' = (t, v, s2) /\ advance r s1 = Some (r', s2).
  Proof.
    intros A B. induction n as [|n IH]; intros q r r' s s' b t v s1 Hn Hq Hb Hr Hc.
    - destruct (advance q s) as [[q' u]|] eqn:E.
      + destruct (alone_advance A q q' s u E) as (a & _ & E2). rewrite Hq in E2.
        destruct (alone q' u) as [[t' v'] u']. injection E2 as -> _ _. discriminate.
      + destruct (alone_local A q s E) as (v' & -> & H). rewrite H in Hq. injection Hq as <- <- <-.
        exists s'. split; auto.
    - destruct (advance q s) as [[q' u]|] eqn:E.
      + destruct (alone_advance A q q' s u E) as (a & Ea & E2). rewrite Hq in E2.
        destruct (alone q' u) as [[t' v'] u'] eqn:Eq. injection E2 as -> <- <-.
        destruct (advance_advance A B q q' r r' s u s' a b Ea Hb) as (s3 & C1 & C2); auto.
        { apply Hc. left. reflexivity. }
        cbn [length] in Hn.
        destruct (IH q' r r' u s3 b t' v s1 ltac:(lia) Eq Hb C2) as (s2 & D1 & D2).
        { intros c Hin. apply Hc. right. exact Hin. }
        exists s2. split; auto. destruct (alone_advance A q q' s' s3 C1) as (a' & Ea' & E2).
        rewrite Ea in Ea'. injection Ea' as <-. rewrite E2, D1. reflexivity.
      + destruct (alone_local A q s E) as (v' & -> & H). rewrite H in Hq. injection Hq as <- _ _. discriminate.
  Qed.

  Lemma trace_advance : forall (A B : Type) (q : prog A) (r r' : prog B) s s' b,
    next r = Some b -> advance r s = Some (r', s') -> (forall a, In a (trace q s) -> ~ clash a b) ->
    trace q s' = trace q s.
  Proof.
    intros A B q r r' s s' b Hb Hr Hc. unfold trace in *. destruct (alone q s) as [[t v] s1] eqn:E. cbn [fst] in *.
    destruct (advance_alone A B (length t) q r r' s s' b t v s1 eq_refl E Hb Hr Hc) as (s2 & -> & _). reflexivity.
  Qed.

  Lemma trace_step : forall (A : Type) (q q' : prog A) s s', advance q s = Some (q', s') ->
    exists a, next q = Some a /\ trace q s = a :: trace q' s'.
  Proof.
    intros A q q' s s' H. destruct (alone_advance A q q' s s' H) as (a & H1 & H2). exists a. split; auto.
    unfold trace. rewrite H2. destruct (alone q' s') as [[t v] u]. reflexivity.
  Qed.

  (** ** Races *)

  (** Both threads are about to access the same place, one of them to write it. *)
  Definition race {A B : Type} (q : prog A) (r : prog B) (s : shared) : Prop :=
    exists q' r' s' a b, evolves (q, r, s) (q', r', s')
      /\ next q' = Some a /\ next r' = Some b /\ clash a b.

  Lemma evolves_trans : forall (A B : Type) (c d e : two X A B), evolves c d -> evolves d e -> evolves c e.
  Proof. intros A B c d e H1 H2. induction H2; auto. econstructor; eauto. Qed.

  Lemma evolves_left : forall (A B : Type) n (q : prog A) (r : prog B) s t v s', length t = n ->
    alone q s = (t, v, s') -> evolves (q, r, s) (local v, r, s').
  Proof.
    intros A B. induction n as [|n IH]; intros q r s t v s' Hn H;
      (destruct (advance q s) as [[q' u]|] eqn:E;
       [destruct (alone_advance A q q' s u E) as (a & _ & E2); rewrite H in E2;
        destruct (alone q' u) as [[t' v'] u'] eqn:Eq; injection E2 as -> <- <-
       |destruct (alone_local A q s E) as (v' & -> & H'); rewrite H' in H; injection H as <- <- <-]).
    - discriminate.
    - constructor.
    - cbn [length] in Hn. apply (evolves_trans A B _ (q', r, u)).
      + econstructor; [constructor|]. constructor. exact E.
      + apply (IH q' r u t' v s'); auto. 
    - constructor.
  Qed.

  Lemma evolves_right : forall (A B : Type) n (q : prog A) (r : prog B) s t v s', length t = n ->
    alone r s = (t, v, s') -> evolves (q, r, s) (q, local v, s').
  Proof.
    intros A B. induction n as [|n IH]; intros q r s t v s' Hn H;
      (destruct (advance r s) as [[q' u]|] eqn:E;
       [destruct (alone_advance B r q' s u E) as (a & _ & E2); rewrite H in E2;
        destruct (alone q' u) as [[t' v'] u'] eqn:Eq; injection E2 as -> <- <-
       |destruct (alone_local B r s E) as (v' & -> & H'); rewrite H' in H; injection H as <- <- <-]).
    - discriminate.
    - constructor.
    - cbn [length] in Hn. apply (evolves_trans A B _ (q, q', u)).
      + econstructor; [constructor|]. constructor. exact E.
      + apply (IH q q' u t' v s'); auto.
    - constructor.
  Qed.

  (** The thread on the right reaches any of its accesses. *)
  Lemma reaches_access : forall (A B : Type) t (q : prog A) (r : prog B) s b, trace r s = t -> In b t ->
    exists r' s', evolves (q, r, s) (q, r', s') /\ next r' = Some b.
  Proof.
    intros A B. induction t as [|c t IH]; intros q r s b Ht Hb; [destruct Hb|].
    destruct (advance r s) as [[r1 s1]|] eqn:E.
    - destruct (trace_step B r r1 s s1 E) as (a & Ha & Et). rewrite Ht in Et. injection Et as <- Et.
      destruct Hb as [<-|Hb].
      + exists r, s. split; [constructor|exact Ha].
      + destruct (IH q r1 s1 b (eq_sym Et) Hb) as (r' & s' & H1 & H2). exists r', s'. split; auto.
        apply (evolves_trans A B _ (q, r1, s1)); auto. econstructor; [constructor|]. constructor. exact E.
    - destruct (alone_local B r s E) as (v & -> & H). unfold trace in Ht. rewrite H in Ht. discriminate.
  Qed.

  Lemma clashes_race : forall (A B : Type) t (q : prog A) (r : prog B) s, trace q s = t ->
    clashes t (trace r s) -> race q r s.
  Proof.
    intros A B. induction t as [|a t IH]; intros q r s Ht (a' & b & Ha & Hb & Hc); [destruct Ha|].
    destruct (advance q s) as [[q1 s1]|] eqn:E.
    2:{ destruct (alone_local A q s E) as (v & -> & H). unfold trace in Ht. rewrite H in Ht. discriminate. }
    destruct (trace_step A q q1 s s1 E) as (a1 & Hn & Et). rewrite Ht in Et. injection Et as <- Et.
    destruct (clashes_one_dec a (trace r s)) as [(c & Hin & C)|N].
    - destruct (reaches_access A B _ q r s c eq_refl Hin) as (r' & s' & H1 & H2).
      exists q, r', s', a, c. auto.
    - assert (Tr : trace r s1 = trace r s).
      { apply (trace_advance B A r q q1 s s1 a Hn E). intros d Hd C. apply N. exists d. split; auto. apply clash_sym. exact C. }
      destruct Ha as [<-|Ha]; [exfalso; apply N; exists b; auto|].
      destruct (IH q1 r s1 (eq_sym Et)) as (q' & r' & s' & x & y & H1 & H2).
      { exists a', b. rewrite Tr. auto. }
      exists q', r', s', x, y. split; auto.
      apply (evolves_trans A B _ (q1, r, s1)); auto. econstructor; [constructor|]. constructor. exact E.
  Qed.

  Lemma clashes_back : forall (A B : Type) (c d : two X A B), moves c d ->
    clashes (trace (fst (fst d)) (snd d)) (trace (snd (fst d)) (snd d)) ->
    clashes (trace (fst (fst c)) (snd c)) (trace (snd (fst c)) (snd c)).
  Proof.
    intros A B c d [q q' r s s' E|q r r' s s' E] (a & b & Ha & Hb & Hc); cbn [fst snd] in *.
    - destruct (trace_step A q q' s s' E) as (c0 & Hn & Et).
      destruct (clashes_one_dec c0 (trace r s)) as [(e & Hin & C)|N].
      + exists c0, e. rewrite Et. cbn. auto.
      + rewrite (trace_advance B A r q q' s s' c0 Hn E) in Hb.
        * exists a, b. rewrite Et. cbn. auto.
        * intros e He C. apply N. exists e. split; auto. apply clash_sym. exact C.
    - destruct (trace_step B r r' s s' E) as (c0 & Hn & Et).
      destruct (clashes_one_dec c0 (trace q s)) as [(e & Hin & C)|N].
      + exists e, c0. rewrite Et. cbn. split; auto. split; auto. apply clash_sym. exact C.
      + rewrite (trace_advance A B q r r' s s' c0 Hn E) in Ha.
        * exists a, b. rewrite Et. cbn. auto.
        * intros e He C. apply N. exists e. split; auto. apply clash_sym. exact C.
  Qed.

  Lemma next_trace : forall (A : Type) (q : prog A) s a, next q = Some a -> In a (trace q s).
  Proof.
    intros A q s a H. destruct (next_advance A q s a H) as (q' & s' & E).
    destruct (trace_step A q q' s s' E) as (b & Hb & ->). rewrite H in Hb. injection Hb as <-. left. reflexivity.
  Qed.

  Theorem race_iff : forall (A B : Type) (q : prog A) (r : prog B) s,
    race q r s <-> clashes (trace q s) (trace r s).
  Proof.
    intros A B q r s. split.
    - intros (q' & r' & s' & a & b & H & Ha & Hb & Hc).
      assert (C : clashes (trace q' s') (trace r' s')).
      { exists a, b. split; [apply next_trace; auto|]. split; [apply next_trace; auto|auto]. }
      clear a b Ha Hb Hc. 
      assert (G : forall d : two X A B, evolves (q, r, s) d ->
        clashes (trace (fst (fst d)) (snd d)) (trace (snd (fst d)) (snd d)) -> clashes (trace q s) (trace r s)).
      { intros d Hd. induction Hd as [|d d' Hd IH M]; auto. intros G. apply IH. eapply clashes_back; eauto. }
      exact (G _ H C).
    - intros H. eapply clashes_race; eauto.
  Qed.

  (** Without race the outcome is the one of the threads one after the other, in
      either order. *)
  Theorem no_race_serial : forall (A B : Type) (q : prog A) (r : prog B) s t v s1 u w s2,
    ~ race q r s -> alone q s = (t, v, s1) -> alone r s1 = (u, w, s2) ->
    (forall d, evolves (q, r, s) d -> evolves d (local v, local w, s2))
    /\ exists s1', alone r s = (u, w, s1') /\ alone q s1' = (t, v, s2).
  Proof.
    intros A B q r s t v s1 u w s2 N Hq Hr.
    (* one access of the right thread *)
    assert (R : forall (q : prog A) (r r' : prog B) s s' t v s1 u w s2,
      ~ clashes (trace q s) (trace r s) -> advance r s = Some (r', s') ->
      alone q s = (t, v, s1) -> alone r s1 = (u, w, s2) ->
      exists s1', alone q s' = (t, v, s1') /\ exists u', alone r' s1' = (u', w, s2) /\ exists b, next r = Some b /\ u = b :: u').
    { clear. intros q r r' s s' t v s1 u w s2 N E Hq Hr.
      destruct (trace_step B r r' s s' E) as (b & Hb & Et).
      destruct (advance_alone A B (length t) q r r' s s' b t v s1 eq_refl Hq Hb E) as (s1' & D1 & D2).
      { intros a Ha C. apply N. exists a, b. unfold trace at 1. rewrite Hq, Et. cbn. auto. }
      exists s1'. split; auto. destruct (alone_advance B r r' s1 s1' D2) as (b' & Hb' & E').
      rewrite Hb in Hb'. injection Hb' as <-. rewrite Hr in E'. destruct (alone r' s1') as [[u' w'] s2'].
      injection E' as -> -> ->. exists u'. split; auto. exists b. auto. }
    split.
    - assert (Inv : forall d, evolves (q, r, s) d ->
        ~ clashes (trace (fst (fst d)) (snd d)) (trace (snd (fst d)) (snd d))
        /\ exists t' s1' u', alone (fst (fst d)) (snd d) = (t', v, s1') /\ alone (snd (fst d)) s1' = (u', w, s2)).
      { intros d Hd. induction Hd as [|d d' Hd IH M].
        - cbn [fst snd]. split; [rewrite <- race_iff; exact N|]. exists t, s1, u. auto.
        - destruct IH as (I1 & t' & s1' & u' & I2 & I3). split.
          + intros C. apply I1. eapply clashes_back; eauto.
          + destruct M as [q0 q' r0 s0 s' E|q0 r0 r' s0 s' E]; cbn [fst snd] in *.
            * destruct (alone_advance A q0 q' s0 s' E) as (a & _ & E2). rewrite I2 in E2.
              destruct (alone q' s') as [[t2 v2] u2] eqn:Eq. injection E2 as -> <- <-. exists t2, s1', u'. auto.
            * destruct (R q0 r0 r' s0 s' t' v s1' u' w s2 I1 E I2 I3) as (s3 & R1 & u3 & R2 & _).
              exists t', s3, u3. auto. }
      intros d Hd. destruct (Inv d Hd) as (_ & t' & s1' & u' & I2 & I3). destruct d as [[q0 r0] s0]. cbn [fst snd] in *.
      apply (evolves_trans A B _ (local v, r0, s1')).
      + apply (evolves_left A B (length t') q0 r0 s0 t' v s1'); auto.
      + apply (evolves_right A B (length u') (local v) r0 s1' u' w s2); auto.
    - rewrite race_iff in N. revert q r s s1 u t N Hq Hr. intros q r s s1 u. 
      remember (length u) as n eqn:Hn. revert q r s s1 u Hn.
      induction n as [|n IH]; intros q r s s1 u Hn t N Hq Hr.
      + destruct (advance r s1) as [[r' x]|] eqn:E.
        { destruct (alone_advance B r r' s1 x E) as (b & _ & E2). rewrite Hr in E2.
          destruct (alone r' x) as [[t2 v2] u2]. injection E2 as -> _ _. discriminate. }
        destruct (alone_local B r s1 E) as (w' & -> & H). rewrite H in Hr. injection Hr as <- <- <-.
        exists s. split; auto.
      + destruct (advance r s) as [[r' s']|] eqn:E.
        2:{ destruct (alone_local B r s E) as (w' & -> & H). rewrite H in Hr. injection Hr as <- _ _. discriminate. }
        destruct (R q r r' s s' t v s1 u w s2 N E Hq Hr) as (s1' & R1 & u' & R2 & b & Hb & ->).
        cbn [length] in Hn.
        destruct (IH q r' s' s1' u' ltac:(lia) t) as (s3 & J1 & J2); auto.
        { intros C. apply N. apply (clashes_back A B (q, r, s) (q, r', s')); auto. constructor. exact E. }
        exists s3. split; auto. destruct (alone_advance B r r' s s' E) as (b' & Hb' & E').
        rewrite Hb in Hb'. injection Hb' as <-. rewrite E', J1. reflexivity.
  Qed.
End Facts.
