(** Property C82: the memory which actions and dispatchers allocate. *)

From Coq Require Import List Bool Arith Lia Permutation.
From Verif Require Import Rpc Alloc.
Import ListNotations.
Open Scope nat_scope.

(** ** Specification

    The blocks which are allocated and not freed, according to what the allocator
    saw; [None] if a block was freed which was not allocated (or already freed). *)
Fixpoint outstanding (h : heap) : option (list nat) :=
  match h with
  | [] => Some []
  | Allocated b :: h' =>
      match outstanding h' with
      | Some l => if existsb (Nat.eqb b) l then None else Some (b :: l)
      | None => None
      end
  | Refused :: h' => outstanding h'
  | Freed b :: h' =>
      match outstanding h' with
      | Some l => if existsb (Nat.eqb b) l then Some (remove Nat.eq_dec b l) else None
      | None => None
      end
  end.

(** The blocks which actions point to. *)
Definition block (s : slot) : list nat :=
  match s with
  | Owned b _ => [b]
  | _ => []
  end.
Definition held (os : objects) : list nat := flat_map (fun x => flat_map block (o_slots (snd x))) os.

(** The callbacks of an object. *)
Definition callback (s : slot) : option nat :=
  match s with
  | Null => None
  | Owned _ f | Static f => Some f
  end.
Definition callbacks (os : objects) (o : nat) : option (list (option nat)) :=
  option_map (fun x => map callback (o_slots x)) (find_object os o).

Definition allocations (h : heap) : nat :=
  length (filter (fun ev => match ev with Allocated _ => true | _ => false end) h).

(** The allocations which an operation may need at once. *)
Definition needs (c : op) : nat :=
  match c with
  | MakeAction _ _ | Replace _ _ _ | ReplaceStatic _ _ _ => 1
  | MakeDispatcher _ ANY fs => length fs
  | _ => 0
  end.

(** ** Blocks *)

(** Equations between concatenations, up to the order. *)
Ltac perm := apply (Permutation_count_occ Nat.eq_dec); intros ?; rewrite ?count_occ_app; cbn [count_occ]; lia.

Definition owns (h : heap) (bs : list nat) : Prop :=
  exists l, outstanding h = Some l /\ Permutation l bs /\ NoDup bs /\ Forall (fun b => b < requests h) bs.

Lemma existsb_in : forall b l, existsb (Nat.eqb b) l = true <-> In b l.
Proof.
  intros b l. rewrite existsb_exists. split.
  - intros (x & H & E). apply Nat.eqb_eq in E. subst x. exact H.
  - intros H. exists b. split; auto. apply Nat.eqb_refl.
Qed.

Lemma remove_perm : forall b l bs, Permutation l (b :: bs) -> NoDup (b :: bs) -> Permutation (remove Nat.eq_dec b l) bs.
Proof.
  intros b l bs P N. apply NoDup_Permutation.
  - assert (Nl : NoDup l) by (eapply Permutation_NoDup; [symmetry; exact P|exact N]). clear P N.
    induction l as [|x l IH]; cbn; [constructor|]. inversion Nl; subst.
    destruct (Nat.eq_dec b x); auto. constructor; auto. intros C. apply in_remove in C. tauto.
  - inversion N; auto.
  - intros x. inversion N; subst. split.
    + intros C. apply in_remove in C. destruct C as [C1 C2]. eapply Permutation_in in C1; [|exact P].
      destruct C1; [congruence|auto].
    + intros C. apply in_in_remove; [intros ->; auto|]. eapply Permutation_in; [symmetry; exact P|]. right. exact C.
Qed.

Lemma owns_perm : forall h a b, owns h a -> Permutation a b -> owns h b.
Proof.
  intros h a b (l & E & P & N & F) Q. exists l. split; auto. split; [etransitivity; eauto|].
  split; [eapply Permutation_NoDup; eauto|]. eapply Permutation_Forall; eauto.
Qed.

Lemma owns_allocated : forall h bs, owns h bs -> owns (Allocated (requests h) :: h) (requests h :: bs).
Proof.
  intros h bs (l & E & P & N & F).
  assert (A : ~ In (requests h) bs).
  { intros C. rewrite Forall_forall in F. apply F in C. lia. }
  exists (requests h :: l). cbn [outstanding]. rewrite E.
  assert (X : existsb (Nat.eqb (requests h)) l = false).
  { apply not_true_is_false. rewrite existsb_in. intros C. apply A. eapply Permutation_in; eauto. }
  rewrite X. split; auto. split; [apply perm_skip; auto|]. split; [constructor; auto|].
  unfold requests. cbn. constructor; [lia|]. eapply Forall_impl; [|exact F]. intros b Hb. unfold requests in Hb. lia.
Qed.

Lemma owns_refused : forall h bs, owns h bs -> owns (Refused :: h) bs.
Proof.
  intros h bs (l & E & P & N & F). exists l. split; auto. split; auto. split; auto.
  eapply Forall_impl; [|exact F]. unfold requests. cbn. intros. lia.
Qed.

Lemma owns_freed : forall h b bs, owns h (b :: bs) -> owns (Freed b :: h) bs.
Proof.
  intros h b bs (l & E & P & N & F). exists (remove Nat.eq_dec b l). cbn [outstanding]. rewrite E.
  assert (X : existsb (Nat.eqb b) l = true).
  { apply existsb_in. eapply Permutation_in; [symmetry; exact P|]. left. reflexivity. }
  rewrite X. split; auto. split; [apply remove_perm; auto|]. inversion N; subst. split; auto.
  inversion F; subst. unfold requests in *. cbn. auto.
Qed.

Lemma owns_free : forall s h bs, owns h (block s ++ bs) -> owns (free s h) bs.
Proof. intros [|b f|f] h bs H; cbn in *; auto. apply owns_freed. exact H. Qed.

Lemma owns_free_all : forall ss h bs, owns h (flat_map block ss ++ bs) -> owns (free_all ss h) bs.
Proof.
  induction ss as [|s ss IH]; intros h bs H; cbn in *; auto.
  apply owns_free. apply IH. eapply owns_perm; [exact H|]. rewrite <- app_assoc.
  rewrite !app_assoc. apply Permutation_app_tail. apply Permutation_app_comm.
Qed.

Lemma moved_same : forall n s h, moved n s h = (s, h).
Proof.
  induction n as [|n IH]; intros s h; cbn [moved]; auto.
  destruct s; cbn [move_from free]; apply IH.
Qed.

(** ** Operations *)

Section Proofs.
  Variable refuses : nat -> bool.
  Variable moves : nat.

  Lemma new_action_cases : forall f h bs, owns h bs ->
    match new_action refuses f h with
    | (h1, Value s) => s = Owned (requests h) (fn_id f) /\ owns h1 (block s ++ bs) /\ h1 = [Allocated (requests h)] ++ h
    | (h1, Throws) => owns h1 bs /\ (refuses (requests h) || fn_throws f = true) /\ exists d, h1 = d ++ h /\ allocations d <= 1
    end.
  Proof.
    intros f h bs H. unfold new_action. destruct (refuses (requests h)) eqn:R.
    - split; [apply owns_refused; auto|]. split; auto. exists [Refused]. cbn. auto.
    - destruct (fn_throws f) eqn:T.
      + split; [apply owns_freed, owns_allocated; auto|]. split; auto.
        exists [Freed (requests h); Allocated (requests h)]. cbn. auto.
      + split; auto. split; auto. apply owns_allocated. exact H.
  Qed.

  Lemma make_action_cases : forall ft f h bs, owns h bs ->
    match make_action refuses moves ft f h with
    | (h1, Value s) =>
        callback s = Some (fn_id f) /\ owns h1 (block s ++ bs)
        /\ exists d, h1 = d ++ h /\ allocations d = (match ft with ANY => 1 | WEAK_REFERENCE => 0 end)
    | (h1, Throws) => ft = ANY /\ owns h1 bs /\ (refuses (requests h) || fn_throws f = true) /\ exists d, h1 = d ++ h /\ allocations d <= 1
    end.
  Proof.
    intros ft f h bs H. unfold make_action. destruct ft.
    - pose proof (new_action_cases f h bs H) as N. destruct (new_action refuses f h) as [h1 [s|]].
      + rewrite moved_same. destruct N as (-> & O & ->). split; auto. split; auto. eexists; split; [reflexivity|]. reflexivity.
      + auto.
    - cbn. split; auto. split; auto. exists []. auto.
  Qed.

  Lemma allocations_app : forall a b, allocations (a ++ b) = allocations a + allocations b.
  Proof. intros. unfold allocations. rewrite filter_app, app_length. reflexivity. Qed.

  Lemma free_all_log : forall ss h, exists d, free_all ss h = d ++ h /\ allocations d = 0.
  Proof.
    induction ss as [|s ss IH]; intros h; [exists []; auto|]. destruct (IH h) as (d & E & A). cbn [free_all].
    rewrite E. destruct s as [|b f|f]; cbn [free]; eauto. exists (Freed b :: d). auto.
  Qed.

  Lemma free_log : forall s h, exists d, free s h = d ++ h /\ allocations d = 0.
  Proof. intros s h. exact (free_all_log [s] h). Qed.

  Lemma make_content_cases : forall ft fs acc h bs, owns h (flat_map block acc ++ bs) ->
    match make_content refuses moves ft fs acc h with
    | (h1, Value ss) =>
        map callback ss = map callback acc ++ map (fun f => Some (fn_id f)) fs /\ owns h1 (flat_map block ss ++ bs)
        /\ exists d, h1 = d ++ h /\ allocations d = (match ft with ANY => length fs | WEAK_REFERENCE => 0 end)
    | (h1, Throws) => ft = ANY /\ owns h1 bs /\ exists d, h1 = d ++ h /\ allocations d <= length fs
    end.
  Proof.
    induction fs as [|f fs IH]; intros acc h bs H; cbn [make_content].
    - rewrite app_nil_r. split; auto. split; auto. exists []. destruct ft; auto.
    - pose proof (make_action_cases ft f h _ H) as M. destruct (make_action refuses moves ft f h) as [h1 [s|]].
      + destruct M as (C & O & d & E & A).
        assert (O' : owns h1 (flat_map block (acc ++ [s]) ++ bs)).
        { eapply owns_perm; [exact O|]. rewrite flat_map_app. cbn [flat_map]. rewrite app_nil_r, <- app_assoc.
          rewrite !app_assoc. apply Permutation_app_tail. apply Permutation_app_comm. }
        specialize (IH (acc ++ [s]) h1 bs O'). destruct (make_content refuses moves ft fs (acc ++ [s]) h1) as [h2 [ss|]].
        * destruct IH as (C' & O2 & d' & E' & A'). split; [|split; auto].
          { rewrite C', map_app, <- app_assoc. cbn. rewrite C. reflexivity. }
          exists (d' ++ d). rewrite E', E, app_assoc. split; auto. rewrite allocations_app. destruct ft; cbn; lia.
        * destruct IH as (F & O2 & d' & E' & A'). split; auto. split; auto. exists (d' ++ d). rewrite E', E, app_assoc.
          split; auto. rewrite allocations_app. subst ft. cbn. lia.
      + destruct M as (F & O & _ & d & E & A). split; auto. split; [apply owns_free_all; exact O|].
        destruct (free_all_log acc h1) as (d' & E' & A'). exists (d' ++ d). rewrite E', E, app_assoc. split; auto.
        rewrite allocations_app. cbn. lia.
  Qed.

  (** ** Objects *)

  Definition blocks (x : object) : list nat := flat_map block (o_slots x).

  Lemma held_find : forall os o x, find_object os o = Some x ->
    Permutation (held os) (blocks x ++ held (drop_object os o)).
  Proof.
    induction os as [|[o' y] os IH]; intros o x H; cbn in *; [discriminate|].
    destruct (o' =? o).
    - injection H as ->. apply Permutation_refl.
    - cbn. fold (held os) (held (drop_object os o)). rewrite (IH o x H). rewrite !app_assoc.
      apply Permutation_app_tail. apply Permutation_app_comm.
  Qed.

  Lemma held_set : forall os o x x', find_object os o = Some x ->
    Permutation (held (set_object os o x')) (blocks x' ++ held (drop_object os o)).
  Proof.
    induction os as [|[o' y] os IH]; intros o x x' H; cbn in *; [discriminate|].
    destruct (o' =? o).
    - apply Permutation_refl.
    - cbn. fold (held (set_object os o x')) (held (drop_object os o)). rewrite (IH o x x' H). rewrite !app_assoc.
      apply Permutation_app_tail. apply Permutation_app_comm.
  Qed.

  Lemma find_set_other : forall os o o' x, o <> o' -> find_object (set_object os o x) o' = find_object os o'.
  Proof.
    induction os as [|[k y] os IH]; intros o o' x H; cbn; auto.
    destruct (k =? o) eqn:E; cbn; destruct (k =? o') eqn:E'; auto.
    apply Nat.eqb_eq in E, E'. congruence.
  Qed.

  Lemma find_set_same : forall os o x y, find_object os o = Some y -> find_object (set_object os o x) o = Some x.
  Proof.
    induction os as [|[k z] os IH]; intros o x y H; cbn in *; [discriminate|].
    destruct (k =? o) eqn:E; cbn; rewrite E; eauto.
  Qed.

  Lemma find_drop_other : forall os o o', o <> o' -> find_object (drop_object os o) o' = find_object os o'.
  Proof.
    induction os as [|[k y] os IH]; intros o o' H; cbn; auto.
    destruct (k =? o) eqn:E; cbn; destruct (k =? o') eqn:E'; auto.
    apply Nat.eqb_eq in E, E'. congruence.
  Qed.

  Lemma drop_set : forall os o o' x, o <> o' -> drop_object (set_object os o x) o' = set_object (drop_object os o') o x.
  Proof.
    induction os as [|[k y] os IH]; intros o o' x H; cbn; auto.
    destruct (k =? o) eqn:E; cbn; destruct (k =? o') eqn:E'; cbn; rewrite ?E; auto.
    - apply Nat.eqb_eq in E, E'. congruence.
    - rewrite IH; auto.
  Qed.

  Lemma held_two : forall os o o' x y, o <> o' -> find_object os o = Some x -> find_object os o' = Some y ->
    exists R, Permutation (held os) (blocks x ++ blocks y ++ R)
      /\ forall x' y', Permutation (held (set_object (set_object os o x') o' y')) (blocks x' ++ blocks y' ++ R).
  Proof.
    intros os o o' x y N Hx Hy. exists (held (drop_object (drop_object os o') o)). split.
    - rewrite (held_find os o' y Hy). rewrite (held_find (drop_object os o') o x) by (rewrite find_drop_other; auto).
      rewrite !app_assoc. apply Permutation_app_tail. apply Permutation_app_comm.
    - intros x' y'. rewrite (held_set (set_object os o x') o' y y') by (rewrite find_set_other; auto).
      rewrite drop_set by auto. rewrite (held_set (drop_object os o') o x x') by (rewrite find_drop_other; auto).
      rewrite !app_assoc. apply Permutation_app_tail. apply Permutation_app_comm.
  Qed.

  Lemma names_set : forall os o x, map fst (set_object os o x) = map fst os.
  Proof. induction os as [|[k y] os IH]; intros o x; cbn; auto. destruct (k =? o); cbn; congruence. Qed.

  Lemma names_drop : forall os o n, In n (map fst (drop_object os o)) -> In n (map fst os).
  Proof. induction os as [|[k y] os IH]; intros o n; cbn; auto. destruct (k =? o); cbn; intuition eauto. Qed.

  Lemma nodup_drop : forall os o, NoDup (map fst os) -> NoDup (map fst (drop_object os o)).
  Proof.
    induction os as [|[k y] os IH]; intros o H; cbn in *; auto. inversion H; subst.
    destruct (k =? o); cbn; auto. constructor; auto. intros C. apply names_drop in C. auto.
  Qed.

  Lemma find_none : forall os o, find_object os o = None -> ~ In o (map fst os).
  Proof.
    induction os as [|[k y] os IH]; intros o H; cbn in *; auto. destruct (k =? o) eqn:E; [discriminate|].
    apply Nat.eqb_neq in E. intros [C|C]; [auto|]. eapply IH; eauto.
  Qed.

  Lemma slot_at : forall ss i, i < length ss -> exists R,
    Permutation (flat_map block ss) (block (nth i ss Null) ++ R)
    /\ forall s, Permutation (flat_map block (replace_nth ss i s)) (block s ++ R).
  Proof.
    induction ss as [|a ss IH]; intros i H; cbn in H; [lia|]. destruct i as [|i].
    - exists (flat_map block ss). split; [|intros s]; apply Permutation_refl.
    - destruct (IH i) as (R & P & Q); [lia|]. exists (block a ++ R). split; [|intros s]; cbn [nth replace_nth flat_map].
      + rewrite P. rewrite !app_assoc. apply Permutation_app_tail. apply Permutation_app_comm.
      + rewrite (Q s). rewrite !app_assoc. apply Permutation_app_tail. apply Permutation_app_comm.
  Qed.

  Lemma move_assign_owns : forall d s h R, owns h (block d ++ block s ++ R) ->
    let '(d1, s1, h1) := move_assign d s h in
    callback d1 = callback s /\ owns h1 (block d1 ++ block s1 ++ R) /\ exists l, h1 = l ++ h /\ allocations l = 0.
  Proof.
    intros d s h R H. destruct s as [|b f|f]; cbn [move_assign move_from]; split; auto; split; try apply free_log;
      apply owns_free; exact H.
  Qed.

  Lemma assign_slots_owns : forall ds ss h R, length ds = length ss ->
    owns h (flat_map block ds ++ flat_map block ss ++ R) ->
    let '(ds1, ss1, h1) := assign_slots ds ss h in
    map callback ds1 = map callback ss /\ owns h1 (flat_map block ds1 ++ flat_map block ss1 ++ R)
    /\ exists l, h1 = l ++ h /\ allocations l = 0.
  Proof.
    induction ds as [|d ds IH]; intros [|s ss] h R L H; cbn in L; try lia; cbn [assign_slots].
    - split; auto. split; auto. exists []. auto.
    - cbn [flat_map] in H.
      assert (H1 : owns h (block d ++ block s ++ (flat_map block ds ++ flat_map block ss ++ R))).
      { eapply owns_perm; [exact H|]. rewrite <- !app_assoc. apply Permutation_app_head.
        rewrite !app_assoc. do 2 apply Permutation_app_tail. apply Permutation_app_comm. }
      pose proof (move_assign_owns d s h _ H1) as M. destruct (move_assign d s h) as [[d1 s1] h1].
      destruct M as (C & O & l & E & A).
      assert (O1 : owns h1 (flat_map block ds ++ flat_map block ss ++ (block d1 ++ block s1 ++ R))).
      { eapply owns_perm; [exact O|].
        perm. }
      specialize (IH ss h1 (block d1 ++ block s1 ++ R)). destruct (assign_slots ds ss h1) as [[ds1 ss1] h2].
      destruct IH as (C' & O2 & l' & E' & A'); [lia|exact O1|].
      split; [cbn; congruence|]. split.
      + eapply owns_perm; [exact O2|]. cbn [flat_map]. perm.
      + exists (l' ++ l). rewrite E', E, app_assoc. split; auto. rewrite allocations_app. lia.
  Qed.

  Definition good (os : objects) (h : heap) : Prop := owns h (held os) /\ NoDup (map fst os).

  Lemma put_slot_good : forall os o i x h made, good os h -> find_object os o = Some x -> i < length (o_slots x) ->
    match made with
    | (h1, Value s) => owns h1 (block s ++ held os) /\ exists d, h1 = d ++ h /\ allocations d <= 1
    | (h1, Throws) => owns h1 (held os) /\ exists d, h1 = d ++ h /\ allocations d <= 1
    end ->
    let '(os1, h1, t) := put_slot os o i x made in
    good os1 h1 /\ (exists d, h1 = d ++ h /\ allocations d <= 1) /\ (t = true -> os1 = os).
  Proof.
    intros os o i x h [h1 [s|]] [G N] Hf Hi H; cbn [put_slot].
    2: { split; [split; tauto|]. split; auto. apply H. }
    destruct H as (O & d & E & A). destruct (slot_at (o_slots x) i Hi) as (R & P & Q).
    assert (O1 : owns h1 (block (nth i (o_slots x) Null) ++ block s ++ (R ++ held (drop_object os o)))).
    { eapply owns_perm; [exact O|]. rewrite (held_find os o x Hf). unfold blocks. rewrite P, <- !app_assoc.
      rewrite !app_assoc. do 2 apply Permutation_app_tail. apply Permutation_app_comm. }
    pose proof (move_assign_owns _ _ _ _ O1) as M.
    destruct (move_assign (nth i (o_slots x) Null) s h1) as [[s1 rest] h2]. destruct M as (C & O2 & l & E2 & A2).
    split; [split|split].
    - apply owns_free. eapply owns_perm; [exact O2|]. rewrite (held_set os o x _ Hf). unfold blocks. cbn [o_slots].
      rewrite (Q s1), !app_assoc. do 2 apply Permutation_app_tail. apply Permutation_app_comm.
    - rewrite names_set. exact N.
    - destruct (free_log rest h2) as (l3 & E3 & A3). exists (l3 ++ l ++ d). rewrite E3, E2, E, !app_assoc. split; auto.
      rewrite !allocations_app. lia.
    - discriminate.
  Qed.

  Lemma moved_blocks : forall ss,
    Permutation (flat_map block ss)
      (flat_map block (map (fun s => fst (move_from s)) ss) ++ flat_map block (map (fun s => snd (move_from s)) ss)).
  Proof.
    induction ss as [|s ss IH]; cbn; auto. rewrite IH at 1. destruct s; cbn; auto.
  Qed.

  Lemma step_good : forall c os h, good os h ->
    let '(os1, h1, t) := step refuses moves c os h in
    good os1 h1 /\ (exists d, h1 = d ++ h /\ allocations d <= needs c) /\ (t = true -> os1 = os).
  Proof.
    intros c os h G.
    assert (Skip : good os h /\ (exists d, h = d ++ h /\ allocations d <= needs c) /\ (false = true -> os = os)).
    { split; auto. split; [exists []; cbn; split; auto; lia|auto]. }
    destruct G as [O N]. destruct c as [o f|o|o ft fs|o o'|o o'|o i f|o i f|o i o'|o]; cbn [step].
    - destruct (find_object os o) eqn:E; [exact Skip|]. pose proof (new_action_cases f h _ O) as H.
      destruct (new_action refuses f h) as [h1 [s|]].
      + destruct H as (_ & O1 & ->). split; [split|split].
        * unfold held. cbn. rewrite app_nil_r. exact O1.
        * cbn. constructor; auto. apply find_none. exact E.
        * exists [Allocated (requests h)]. auto.
        * discriminate.
      + destruct H as (O1 & _ & D). split; [split; auto|]. auto.
    - destruct (find_object os o) eqn:E; [exact Skip|]. split; [split|split].
      + exact O.
      + cbn. constructor; auto. apply find_none. exact E.
      + exists []. auto.
      + discriminate.
    - destruct (find_object os o) eqn:E; [exact Skip|].
      pose proof (make_content_cases ft fs [] h _ O) as H.
      destruct (make_content refuses moves ft fs [] h) as [h1 [ss|]].
      + destruct H as (_ & O1 & d & -> & A). split; [split|split].
        * exact O1.
        * cbn. constructor; auto. apply find_none. exact E.
        * exists d. split; auto. cbn. destruct ft; lia.
        * discriminate.
      + destruct H as (-> & O1 & D). split; [split; auto|]. auto.
    - destruct (find_object os o) eqn:E; [exact Skip|]. destruct (find_object os o') as [x|] eqn:E'; [|exact Skip].
      cbn [move_object]. split; [split|split].
      + eapply owns_perm; [exact O|]. unfold held at 2. cbn [flat_map snd o_slots]. fold (held (set_object os o' (mk_object (o_features x) (map (fun s => snd (move_from s)) (o_slots x))))).
        rewrite (held_set os o' x _ E'), (held_find os o' x E'). unfold blocks. cbn [o_slots].
        rewrite (moved_blocks (o_slots x)) at 1. rewrite app_assoc. apply Permutation_refl.
      + cbn. rewrite names_set. constructor; auto. apply find_none. exact E.
      + exists []. auto.
      + discriminate.
    - destruct (o =? o') eqn:Q; [exact Skip|]. apply Nat.eqb_neq in Q.
      destruct (find_object os o) as [x|] eqn:E; [|exact Skip]. destruct (find_object os o') as [y|] eqn:E'; [|exact Skip].
      assert (W : let '(os1, h1, t) := (if length (o_slots x) =? length (o_slots y) then
                    let '(ds, ss, h1) := assign_slots (o_slots x) (o_slots y) h in
                    (set_object (set_object os o (mk_object (o_features x) ds)) o' (mk_object (o_features y) ss), h1, false)
                  else (os, h, false)) in
        good os1 h1 /\ (exists d, h1 = d ++ h /\ allocations d <= 0) /\ (t = true -> os1 = os)).
      { destruct (length (o_slots x) =? length (o_slots y)) eqn:L; [|exact Skip]. apply Nat.eqb_eq in L.
        destruct (held_two os o o' x y Q E E') as (R & P1 & P2).
        pose proof (assign_slots_owns (o_slots x) (o_slots y) h R L (owns_perm _ _ _ O P1)) as M.
        destruct (assign_slots (o_slots x) (o_slots y) h) as [[ds ss] h1]. destruct M as (_ & O1 & l & El & A).
        split; [split|split].
        - eapply owns_perm; [exact O1|]. symmetry. apply P2.
        - rewrite !names_set. exact N.
        - exists l. split; auto. lia.
        - discriminate. }
      destruct (o_features x), (o_features y); try exact Skip; exact W.
    - destruct (find_object os o) as [x|] eqn:E; [|exact Skip].
      destruct (i <? length (o_slots x)) eqn:L; [|exact Skip]. apply Nat.ltb_lt in L.
      destruct (o_features x); [|exact Skip].
      apply put_slot_good; auto; [split; auto|]. pose proof (new_action_cases f h _ O) as H.
      destruct (new_action refuses f h) as [h1 [s|]].
      + destruct H as (_ & O1 & ->). split; auto. exists [Allocated (requests h)]. auto.
      + destruct H as (O1 & _ & D). auto.
    - destruct (find_object os o) as [x|] eqn:E; [|exact Skip].
      destruct (i <? length (o_slots x)) eqn:L; [|exact Skip]. apply Nat.ltb_lt in L.
      apply put_slot_good; auto; [split; auto|]. pose proof (make_action_cases (o_features x) f h _ O) as H.
      destruct (make_action refuses moves (o_features x) f h) as [h1 [s|]].
      + destruct H as (_ & O1 & d & -> & A). split; auto. exists d. split; auto. destruct (o_features x); lia.
      + destruct H as (_ & O1 & _ & D). auto.
    - destruct (o =? o') eqn:Q; [exact Skip|]. apply Nat.eqb_neq in Q.
      destruct (find_object os o) as [x|] eqn:E; [|exact Skip]. destruct (find_object os o') as [y|] eqn:E'; [|exact Skip].
      destruct (o_features x); [|exact Skip]. destruct (o_features y); [|exact Skip].
      destruct (o_slots y) as [|s [|]] eqn:Y; try exact Skip.
      destruct (i <? length (o_slots x)) eqn:L; [|exact Skip]. apply Nat.ltb_lt in L.
      destruct (held_two os o o' x y Q E E') as (R & P1 & P2). destruct (slot_at (o_slots x) i L) as (R' & P' & Q').
      assert (O1 : owns h (block (nth i (o_slots x) Null) ++ block s ++ (R' ++ R))).
      { eapply owns_perm; [exact O|]. rewrite P1. unfold blocks. rewrite Y, P'. cbn [flat_map]. rewrite app_nil_r.
        rewrite <- !app_assoc. apply Permutation_app_head. rewrite !app_assoc. apply Permutation_app_tail. apply Permutation_app_comm. }
      pose proof (move_assign_owns _ _ _ _ O1) as M.
      destruct (move_assign (nth i (o_slots x) Null) s h) as [[s1 old] h1]. destruct M as (_ & O2 & l & El & A).
      split; [split|split].
      + eapply owns_perm; [exact O2|]. rewrite (P2 _ _). unfold blocks. cbn [o_slots flat_map]. rewrite (Q' s1), app_nil_r.
        rewrite <- !app_assoc. apply Permutation_app_head. rewrite !app_assoc. apply Permutation_app_tail. apply Permutation_app_comm.
      + rewrite !names_set. exact N.
      + exists l. split; auto. lia.
      + discriminate.
    - destruct (find_object os o) as [x|] eqn:E; [|exact Skip]. split; [split|split].
      + apply owns_free_all. eapply owns_perm; [exact O|]. apply held_find. exact E.
      + apply nodup_drop. exact N.
      + destruct (free_all_log (o_slots x) h) as (d & -> & A). exists d. split; auto. lia.
      + discriminate.
  Qed.

  Lemma exec_good : forall cs os h, good os h -> good (fst (exec refuses moves cs os h)) (snd (exec refuses moves cs os h)).
  Proof.
    induction cs as [|c cs IH]; intros os h G; cbn [exec]; auto.
    pose proof (step_good c os h G) as S. destruct (step refuses moves c os h) as [[os1 h1] t]. apply IH. apply S.
  Qed.
End Proofs.

(** ** Theorems

    Whatever the program, whichever allocations are refused and whichever
    constructors throw, every block is freed at most once, and the blocks which are
    not freed are those which the existing actions point to, each pointed to once. *)
Theorem C82_blocks : forall refuses moves cs os h, exec refuses moves cs [] [] = (os, h) ->
  exists l, outstanding h = Some l /\ Permutation l (held os) /\ NoDup (held os).
Proof.
  intros refuses moves cs os h E. assert (G0 : good [] []).
  { split; [|constructor]. exists []. repeat split; auto; constructor. }
  pose proof (exec_good refuses moves cs [] [] G0) as G. rewrite E in G. destruct G as [(l & Ho & P & N & _) _].
  exists l. auto.
Qed.

(** Nothing is left once the objects are destroyed. *)
Theorem C82_no_leak : forall refuses moves cs h, exec refuses moves cs [] [] = ([], h) -> outstanding h = Some [].
Proof.
  intros refuses moves cs h E. destruct (C82_blocks refuses moves cs [] h E) as (l & H & P & _).
  apply Permutation_sym, Permutation_nil in P. congruence.
Qed.

Definition reachable (refuses : nat -> bool) (moves : nat) (os : objects) (h : heap) : Prop :=
  exists cs, exec refuses moves cs [] [] = (os, h).

Lemma reachable_good : forall refuses moves os h, reachable refuses moves os h -> good os h.
Proof.
  intros refuses moves os h (cs & E). assert (G0 : good [] []).
  { split; [|constructor]. exists []. repeat split; auto; constructor. }
  pose proof (exec_good refuses moves cs [] [] G0) as G. rewrite E in G. exact G.
Qed.

(** An operation which throws changes no object and leaves the same blocks. *)
Theorem C82_throws : forall refuses moves os h c os1 h1,
  reachable refuses moves os h -> step refuses moves c os h = (os1, h1, true) ->
  os1 = os /\ exists l l1, outstanding h = Some l /\ outstanding h1 = Some l1 /\ Permutation l l1.
Proof.
  intros refuses moves os h c os1 h1 R E. pose proof (reachable_good _ _ _ _ R) as G.
  pose proof (step_good refuses moves c os h G) as S. rewrite E in S. destruct S as [G1 [_ T]]. specialize (T eq_refl).
  subst os1. split; auto. destruct G as [(l & H & P & _) _]. destruct G1 as [(l1 & H1 & P1 & _) _].
  exists l, l1. split; auto. split; auto. rewrite P, P1. apply Permutation_refl.
Qed.

(** The callbacks of a dispatcher after a replacement: it throws if and only if the
    allocation is refused or the callback cannot be moved; otherwise the action of
    that index has the new callback and nothing else changes. *)
Lemma replace_nth_map : forall ss i s, map callback (replace_nth ss i s)
  = firstn i (map callback ss) ++ match skipn i (map callback ss) with [] => [] | _ :: r => callback s :: r end.
Proof.
  induction ss as [|x ss IH]; intros [|i] s; cbn; auto. rewrite IH. reflexivity.
Qed.

Theorem C82_replaces : forall refuses moves os h o x i f,
  reachable refuses moves os h -> find_object os o = Some x -> o_features x = ANY -> i < length (o_slots x) ->
  let '(os1, _, t) := step refuses moves (Replace o i f) os h in
  (t = refuses (requests h) || fn_throws f)
  /\ (t = false ->
      (forall o', o' <> o -> find_object os1 o' = find_object os o')
      /\ exists cb rest, skipn i (map callback (o_slots x)) = cb :: rest
           /\ callbacks os1 o = Some (firstn i (map callback (o_slots x)) ++ Some (fn_id f) :: rest)).
Proof.
  intros refuses moves os h o x i f R Hf Ha Hi. cbn [step]. rewrite Hf, Ha. assert (L := Hi). apply Nat.ltb_lt in L.
  rewrite L. unfold new_action. destruct (refuses (requests h)) eqn:Er; [cbn; split; auto; discriminate|].
  destruct (fn_throws f) eqn:Et; [cbn; split; auto; discriminate|].
  cbn [put_slot move_assign move_from]. split; auto. intros _. split.
  - intros o' N. apply find_set_other. auto.
  - unfold callbacks. rewrite (find_set_same os o _ x Hf). cbn [option_map o_slots]. rewrite replace_nth_map.
    destruct (skipn i (map callback (o_slots x))) as [|cb rest] eqn:Es.
    + exfalso. assert (Z : length (skipn i (map callback (o_slots x))) = 0) by (rewrite Es; reflexivity).
      rewrite skipn_length, map_length in Z. lia.
    + exists cb, rest. auto.
Qed.

(** A dispatcher which may hold any callback makes as many allocations as it has
    actions, in their order.  It throws if and only if one of them is refused or one of
    the callbacks cannot be moved; then there is no dispatcher (and C82_throws
    applies). *)
Definition fails (refuses : nat -> bool) (first : nat) (fs : list functor) : bool :=
  existsb (fun kf => refuses (fst kf) || fn_throws (snd kf)) (combine (seq first (length fs)) fs).

Lemma make_content_fails : forall refuses moves fs acc h,
  match snd (make_content refuses moves ANY fs acc h) with Value _ => false | Throws => true end
  = fails refuses (requests h) fs.
Proof.
  induction fs as [|f fs IH]; intros acc h; [reflexivity|]. cbn [make_content make_action]. unfold new_action.
  unfold fails. cbn [length seq combine existsb fst snd].
  destruct (refuses (requests h)); [reflexivity|]. destruct (fn_throws f); [reflexivity|]. rewrite moved_same.
  rewrite IH. reflexivity.
Qed.

Theorem C82_constructs : forall refuses moves os h o fs,
  reachable refuses moves os h -> find_object os o = None ->
  let '(os1, h1, t) := step refuses moves (MakeDispatcher o ANY fs) os h in
  t = fails refuses (requests h) fs
  /\ (t = false -> callbacks os1 o = Some (map (fun f => Some (fn_id f)) fs) /\ allocations h1 = allocations h + length fs
        /\ forall o', o' <> o -> find_object os1 o' = find_object os o')
  /\ (t = true -> os1 = os).
Proof.
  intros refuses moves os h o fs R Hf. pose proof (reachable_good _ _ _ _ R) as [O _]. cbn [step]. rewrite Hf.
  pose proof (make_content_cases refuses moves ANY fs [] h _ O) as M. pose proof (make_content_fails refuses moves fs [] h) as F.
  destruct (make_content refuses moves ANY fs [] h) as [h1 [ss|]]; cbn [snd] in F; split; auto; split; try discriminate; auto.
  intros _. destruct M as (C & _ & d & -> & A). split; [|split; [rewrite allocations_app; lia|]].
  - unfold callbacks. cbn [find_object]. rewrite Nat.eqb_refl. cbn [option_map o_slots]. rewrite C. reflexivity.
  - intros o' N. cbn [find_object]. assert (E : (o =? o') = false) by (apply Nat.eqb_neq; auto). rewrite E. reflexivity.
Qed.

(** One action: the same. *)
Theorem C82_action : forall refuses moves os h o f, find_object os o = None ->
  let '(os1, h1, t) := step refuses moves (MakeAction o f) os h in
  t = refuses (requests h) || fn_throws f
  /\ (t = false -> callbacks os1 o = Some [Some (fn_id f)] /\ allocations h1 = allocations h + 1
        /\ forall o', o' <> o -> find_object os1 o' = find_object os o')
  /\ (t = true -> os1 = os).
Proof.
  intros refuses moves os h o f Hf. cbn [step]. rewrite Hf. unfold new_action.
  destruct (refuses (requests h)); [cbn; split; [reflexivity|split; [discriminate|auto]]|].
  destruct (fn_throws f); [cbn; split; [reflexivity|split; [discriminate|auto]]|]. cbn [orb].
  split; [reflexivity|]. split; [|discriminate]. intros _. unfold callbacks. cbn [find_object]. rewrite Nat.eqb_refl.
  split; [reflexivity|]. split; [unfold allocations; cbn; lia|].
  intros o' N. assert (E : (o =? o') = false) by (apply Nat.eqb_neq; auto). rewrite E. reflexivity.
Qed.

(** Moves never throw and never allocate: the destination has the callbacks of the
    source, which points to nothing any more. *)
Theorem C82_moves : forall refuses moves os h o from y,
  o <> from -> find_object os from = Some y ->
  forall c, (c = MoveConstruct o from /\ find_object os o = None)
    \/ (c = MoveAssign o from /\ exists x, find_object os o = Some x /\ o_features x = o_features y
         /\ length (o_slots x) = length (o_slots y)) ->
  let '(os1, h1, t) := step refuses moves c os h in
  t = false /\ allocations h1 = allocations h
  /\ callbacks os1 o = Some (map callback (o_slots y))
  /\ (exists z, find_object os1 from = Some z /\ flat_map block (o_slots z) = [])
  /\ forall o', o' <> o -> o' <> from -> find_object os1 o' = find_object os o'.
Proof.
  assert (Hmoved : forall ss, map callback (map (fun s => fst (move_from s)) ss) = map callback ss
                              /\ flat_map block (map (fun s => snd (move_from s)) ss) = []).
  { induction ss as [|s ss [IH1 IH2]]; [split; reflexivity|]. cbn [map flat_map]. rewrite IH1, IH2.
    destruct s; split; reflexivity. }
  assert (Hassign : forall ds ss h, length ds = length ss ->
    let '(ds1, ss1, h1) := assign_slots ds ss h in
    map callback ds1 = map callback ss /\ flat_map block ss1 = [] /\ allocations h1 = allocations h).
  { induction ds as [|d ds IH]; intros [|s ss] h Hl; try discriminate Hl; cbn [assign_slots]; [auto|].
    destruct (move_assign d s h) as [[d1 s1] h1] eqn:E.
    assert (H1 : callback d1 = callback s /\ block s1 = [] /\ allocations h1 = allocations h).
    { destruct s; cbn in E; injection E as <- <- <-; (split; [reflexivity|split; [reflexivity|destruct d; reflexivity]]). }
    destruct H1 as (H1 & H2 & H3). specialize (IH ss h1 ltac:(cbn in Hl; lia)).
    destruct (assign_slots ds ss h1) as [[ds1 ss1] h2]. destruct IH as (I1 & I2 & I3).
    cbn [map flat_map]. rewrite H1, H2, I1, I2. split; [reflexivity|]. split; [reflexivity|]. lia. }
  intros refuses moves os h o from y N Hy c [[-> Ho]|[-> (x & Hx & Hft & Hl)]]; cbn [step].
  - rewrite Ho, Hy. destruct (move_object y) as [z old] eqn:E. unfold move_object in E. injection E as <- <-.
    destruct (Hmoved (o_slots y)) as [M1 M2].
    split; [reflexivity|]. split; [reflexivity|]. unfold callbacks. cbn [find_object]. rewrite Nat.eqb_refl. cbn [option_map o_slots].
    rewrite M1. split; [reflexivity|]. assert (E : (o =? from) = false) by (apply Nat.eqb_neq; auto). rewrite E.
    rewrite (find_set_same os from _ y Hy). split; [eexists; split; [reflexivity|exact M2]|].
    intros o' N1 N2. assert (E' : (o =? o') = false) by (apply Nat.eqb_neq; auto). rewrite E'. apply find_set_other. auto.
  - assert (E : (o =? from) = false) by (apply Nat.eqb_neq; auto). rewrite E, Hx, Hy.
    assert (Hs : forall A (a b : A), match o_features x, o_features y with
                 | ANY, ANY | WEAK_REFERENCE, WEAK_REFERENCE => a | _, _ => b end = a)
      by (intros; rewrite Hft; destruct (o_features y); reflexivity).
    rewrite Hs. apply Nat.eqb_eq in Hl as Hl'. rewrite Hl'. specialize (Hassign (o_slots x) (o_slots y) h Hl).
    destruct (assign_slots (o_slots x) (o_slots y) h) as [[ds ss] h1]. destruct Hassign as (A1 & A2 & A3).
    split; [reflexivity|]. split; [exact A3|]. unfold callbacks. rewrite find_set_other by auto.
    rewrite (find_set_same os o _ x Hx). cbn [option_map o_slots]. rewrite A1. split; [reflexivity|].
    split.
    + rewrite (find_set_same _ from _ y); [|rewrite find_set_other; auto]. eexists. split; [reflexivity|]. exact A2.
    + intros o' N1 N2. rewrite !find_set_other; auto.
Qed.

(** At any moment of an operation, the blocks are at most those before it and those it
    needs: one for a replacement (the callback which is replaced is freed after the new
    one is made), the number of actions for the construction of a dispatcher. *)
Lemma outstanding_prefix : forall d h l, outstanding (d ++ h) = Some l ->
  exists l0, outstanding h = Some l0 /\ length l <= length l0 + allocations d.
Proof.
  induction d as [|ev d IH]; intros h l H; cbn [app outstanding] in H.
  - exists l. split; auto. lia.
  - destruct ev as [b| |b].
    + destruct (outstanding (d ++ h)) as [l1|] eqn:E; [|discriminate]. destruct (existsb (Nat.eqb b) l1); [discriminate|].
      injection H as <-. destruct (IH h l1 E) as (l0 & E0 & L). exists l0. split; auto. unfold allocations in *. cbn. lia.
    + destruct (IH h l H) as (l0 & E0 & L). exists l0. auto.
    + destruct (outstanding (d ++ h)) as [l1|] eqn:E; [|discriminate]. destruct (existsb (Nat.eqb b) l1); [|discriminate].
      injection H as <-. destruct (IH h l1 E) as (l0 & E0 & L). exists l0. split; auto.
      pose proof (remove_length_le Nat.eq_dec l1 b). unfold allocations in *. cbn. lia.
Qed.

Theorem C82_peak : forall refuses moves os h c,
  reachable refuses moves os h ->
  let '(_, h1, _) := step refuses moves c os h in
  exists d, h1 = d ++ h
  /\ forall later earlier, d = later ++ earlier ->
     exists l, outstanding (earlier ++ h) = Some l /\ length l <= length (held os) + needs c.
Proof.
  intros refuses moves os h c R. pose proof (reachable_good _ _ _ _ R) as G.
  pose proof (step_good refuses moves c os h G) as S. destruct (step refuses moves c os h) as [[os1 h1] t].
  destruct S as [[(l1 & H1 & _) _] [(d & E & A) _]]. exists d. split; auto. intros later earlier ->.
  subst h1. rewrite <- app_assoc in H1. destruct (outstanding_prefix later (earlier ++ h) l1 H1) as (l & El & _).
  exists l. split; auto. destruct (outstanding_prefix earlier h l El) as (l0 & E0 & L).
  destruct G as [(l0' & E0' & P & _) _]. rewrite E0 in E0'. injection E0' as <-. apply Permutation_length in P.
  rewrite allocations_app in A. lia.
Qed.

(** Programs whose dispatchers all have the policy [weak_reference], and which make no
    action themselves, allocate nothing. *)
Definition weak_only (c : op) : Prop :=
  match c with
  | MakeAction _ _ | MakeNull _ => False
  | MakeDispatcher _ ft _ => ft = WEAK_REFERENCE
  | _ => True
  end.

Definition weak_object (x : object) : Prop :=
  o_features x = WEAK_REFERENCE /\ Forall (fun s => match s with Static _ => True | _ => False end) (o_slots x).

Lemma weak_free_all : forall ss h, Forall (fun s => match s with Static _ => True | _ => False end) ss -> free_all ss h = h.
Proof. induction 1 as [|s ss Hs _ IH]; cbn; auto. rewrite IH. destruct s; cbn; tauto. Qed.

Lemma weak_find : forall os o x, Forall (fun y => weak_object (snd y)) os -> find_object os o = Some x -> weak_object x.
Proof.
  intros os o x H. induction H as [|[k y] os Hy _ IH]; cbn; [discriminate|]. destruct (k =? o); auto.
  intros E. injection E as <-. exact Hy.
Qed.

Lemma weak_set : forall os o x, Forall (fun y => weak_object (snd y)) os -> weak_object x ->
  Forall (fun y => weak_object (snd y)) (set_object os o x).
Proof. intros os o x H Hx. induction H as [|[k y] os Hy H IH]; cbn; auto. destruct (k =? o); constructor; auto. Qed.

Lemma weak_drop : forall os o, Forall (fun y => weak_object (snd y)) os -> Forall (fun y => weak_object (snd y)) (drop_object os o).
Proof. intros os o H. induction H as [|[k y] os Hy H IH]; cbn; auto. destruct (k =? o); auto. Qed.

Lemma weak_nth : forall ss i, Forall (fun s => match s with Static _ => True | _ => False end) ss -> i < length ss ->
  exists f, nth i ss Null = Static f.
Proof.
  induction ss as [|s ss IH]; intros i H L; cbn in L; [lia|]. inversion H; subst. destruct i as [|i]; cbn.
  - destruct s; try tauto. eauto.
  - apply IH; auto. lia.
Qed.

Lemma weak_replace : forall ss i f, Forall (fun s => match s with Static _ => True | _ => False end) ss ->
  Forall (fun s => match s with Static _ => True | _ => False end) (replace_nth ss i (Static f)).
Proof. induction ss as [|s ss IH]; intros [|i] f H; cbn; auto; inversion H; subst; constructor; auto. Qed.

Lemma weak_content : forall refuses moves fs acc h, Forall (fun s => match s with Static _ => True | _ => False end) acc ->
  exists ss, make_content refuses moves WEAK_REFERENCE fs acc h = (h, Value ss)
    /\ Forall (fun s => match s with Static _ => True | _ => False end) ss.
Proof.
  induction fs as [|f fs IH]; intros acc h H; cbn [make_content make_action]; eauto.
  apply IH. apply Forall_app. split; auto.
Qed.

Lemma weak_assign : forall ds ss h, Forall (fun s => match s with Static _ => True | _ => False end) ds ->
  Forall (fun s => match s with Static _ => True | _ => False end) ss ->
  exists ds1 ss1, assign_slots ds ss h = (ds1, ss1, h)
    /\ Forall (fun s => match s with Static _ => True | _ => False end) ds1
    /\ Forall (fun s => match s with Static _ => True | _ => False end) ss1.
Proof.
  induction ds as [|d ds IH]; intros [|s ss] h Hd Hs; cbn [assign_slots]; eauto.
  inversion Hd; subst. inversion Hs; subst. destruct d as [| |g]; try tauto. destruct s as [| |f]; try tauto.
  cbn [move_assign free]. destruct (IH ss h) as (ds1 & ss1 & E & A & B); auto. rewrite E.
  exists (Static f :: ds1), (Static f :: ss1). auto.
Qed.

Theorem C82_weak : forall refuses moves cs, Forall weak_only cs -> snd (exec refuses moves cs [] []) = [].
Proof.
  intros refuses moves cs H.
  assert (K : forall os, Forall (fun y => weak_object (snd y)) os -> snd (exec refuses moves cs os []) = []).
  2: { apply K. constructor. }
  induction H as [|c cs Hc H IH]; intros os W; [reflexivity|]. cbn [exec].
  assert (S : exists os1, step refuses moves c os [] = (os1, [], false) /\ Forall (fun y => weak_object (snd y)) os1).
  { assert (Skip : exists os1 : objects, (os, @nil heap_event, false) = (os1, [], false) /\ Forall (fun y => weak_object (snd y)) os1) by eauto.
    destruct c as [o f|o|o ft fs|o o'|o o'|o i f|o i f|o i o'|o]; cbn [weak_only] in Hc; try tauto; cbn [step].
    - subst ft. destruct (find_object os o); [exact Skip|].
      destruct (weak_content refuses moves fs [] []) as (ss & E & F); [constructor|]. rewrite E.
      eexists. split; [reflexivity|]. constructor; auto. split; auto.
    - destruct (find_object os o); [exact Skip|]. destruct (find_object os o') as [x|] eqn:E; [|exact Skip].
      destruct (weak_find _ _ _ W E) as [Fx Sx]. cbn [move_object]. eexists. split; [reflexivity|].
      constructor; [split; auto|apply weak_set; auto; split; auto]; cbn [snd o_slots]; rewrite Forall_map;
        (eapply Forall_impl; [|exact Sx]); intros [| |]; cbn; tauto.
    - destruct (o =? o'); [exact Skip|]. destruct (find_object os o) as [x|] eqn:E; [|exact Skip].
      destruct (find_object os o') as [y|] eqn:E'; [|exact Skip].
      destruct (weak_find _ _ _ W E) as [Fx Sx]. destruct (weak_find _ _ _ W E') as [Fy Sy]. rewrite Fx, Fy.
      destruct (length (o_slots x) =? length (o_slots y)); [|exact Skip].
      destruct (weak_assign _ _ [] Sx Sy) as (ds & ss & Ea & A & B). rewrite Ea. eexists. split; [reflexivity|].
      apply weak_set; [apply weak_set; auto; split; auto|split; auto].
    - destruct (find_object os o) as [x|] eqn:E; [|exact Skip]. destruct (i <? length (o_slots x)); [|exact Skip].
      destruct (weak_find _ _ _ W E) as [Fx Sx]. rewrite Fx. exact Skip.
    - destruct (find_object os o) as [x|] eqn:E; [|exact Skip]. destruct (i <? length (o_slots x)) eqn:L; [|exact Skip].
      apply Nat.ltb_lt in L. destruct (weak_find _ _ _ W E) as [Fx Sx]. rewrite Fx. cbn [make_action put_slot move_assign].
      destruct (weak_nth _ _ Sx L) as (g & Eg). rewrite Eg. cbn [free]. eexists. split; [reflexivity|].
      apply weak_set; auto. split; [exact Fx|]. apply weak_replace. exact Sx.
    - destruct (o =? o'); [exact Skip|]. destruct (find_object os o) as [x|] eqn:E; [|exact Skip].
      destruct (find_object os o') as [y|] eqn:E'; [|exact Skip].
      destruct (weak_find _ _ _ W E) as [Fx Sx]. rewrite Fx. exact Skip.
    - destruct (find_object os o) as [x|] eqn:E; [|exact Skip]. destruct (weak_find _ _ _ W E) as [Fx Sx].
      rewrite (weak_free_all _ _ Sx). eexists. split; [reflexivity|]. apply weak_drop. exact W. }
  destruct S as (os1 & -> & W1). apply IH. exact W1.
Qed.

(** ** Examples *)

Definition ex_f (n : nat) : functor := mk_functor n false.
Definition ex_bad (n : nat) : functor := mk_functor n true.

(** A dispatcher of three actions, a replacement which succeeds, one whose callback
    throws, a move, the end. *)
Definition ex_program : list op :=
  [MakeDispatcher 0 ANY [ex_f 10; ex_f 11; ex_f 12]; Replace 0 1 (ex_f 20); Replace 0 1 (ex_bad 21);
   MakeAction 5 (ex_f 30); AssignElement 0 0 5; MoveConstruct 1 0].

Example C82_example :
  exec (fun _ => false) 2 ex_program [] []
  = ([(1, mk_object ANY [Owned 5 30; Owned 3 20; Owned 2 12]);
      (5, mk_object ANY [Null]); (0, mk_object ANY [Null; Null; Null])],
     [Freed 0; Allocated 5; Freed 4; Allocated 4; Freed 1; Allocated 3; Allocated 2; Allocated 1; Allocated 0])
  /\ outstanding (snd (exec (fun _ => false) 2 ex_program [] [])) = Some [5; 3; 2]
  /\ fst (exec (fun _ => false) 2 (ex_program ++ [Destroy 0; Destroy 1; Destroy 5]) [] []) = [].
Proof. split; [|split]; vm_compute; reflexivity. Qed.

Example C82_moves_example :
  let '(os, h) := exec (fun _ => false) 0 [MakeDispatcher 0 ANY [ex_f 10; ex_f 11]; MakeDispatcher 1 ANY [ex_f 20; ex_f 21]] [] [] in
  find_object os 0 = Some (mk_object ANY [Owned 0 10; Owned 1 11])
  /\ step (fun _ => true) 0 (MoveAssign 1 0) os h
     = ([(1, mk_object ANY [Owned 0 10; Owned 1 11]); (0, mk_object ANY [Null; Null])],
        [Freed 3; Freed 2; Allocated 3; Allocated 2; Allocated 1; Allocated 0], false).
Proof. vm_compute. split; reflexivity. Qed.

(** The third allocation is refused: the first two are freed and there is no
    dispatcher. *)
Example C82_refused :
  step (fun b => b =? 2) 0 (MakeDispatcher 0 ANY [ex_f 10; ex_f 11; ex_f 12]) [] []
  = ([], [Freed 0; Freed 1; Refused; Allocated 1; Allocated 0], true).
Proof. vm_compute. reflexivity. Qed.

(** With room for exactly the actions of the dispatcher, no replacement succeeds,
    although the callback which would be replaced has the room it needs. *)
Example C82_no_room :
  let '(os, h, _) := step (fun b => 2 <=? b) 0 (MakeDispatcher 0 ANY [ex_f 10; ex_f 11]) [] [] in
  step (fun b => 2 <=? b) 0 (Replace 0 1 (ex_f 20)) os h
  = ([(0, mk_object ANY [Owned 0 10; Owned 1 11])], [Refused; Allocated 1; Allocated 0], true).
Proof. vm_compute. reflexivity. Qed.

Example C82_weak_example :
  Forall weak_only [MakeDispatcher 0 WEAK_REFERENCE [ex_f 10; ex_f 11]; ReplaceStatic 0 1 (ex_f 20); MoveConstruct 1 0; Destroy 0]
  /\ fst (exec (fun _ => true) 0 [MakeDispatcher 0 WEAK_REFERENCE [ex_f 10; ex_f 11]; ReplaceStatic 0 1 (ex_f 20); MoveConstruct 1 0; Destroy 0] [] [])
     = [(1, mk_object WEAK_REFERENCE [Static 10; Static 20])].
Proof. split; [repeat constructor|vm_compute; reflexivity]. Qed.

Print Assumptions C82_blocks.
Print Assumptions C82_no_leak.
Print Assumptions C82_throws.
Print Assumptions C82_replaces.
Print Assumptions C82_constructs.
Print Assumptions C82_action.
Print Assumptions C82_moves.
Print Assumptions C82_peak.
Print Assumptions C82_weak.
