(** Property C80: the casts from bases to derived classes. *)

From Coq Require Import List Bool Arith Lia.
From Verif Require Import Layout.
Import ListNotations.
Open Scope nat_scope.

Section ClassInd.
  Variable P : class -> Prop.
  Hypothesis Hplain : forall s a, P (Plain s a).
  Hypothesis Hclass : forall n v bs ms, Forall P bs -> Forall P ms -> P (Class n v bs ms).

  Fixpoint class_ind_nested (c : class) : P c :=
    match c with
    | Plain s a => Hplain s a
    | Class n v bs ms =>
        let go := fix go (l : list class) : Forall P l :=
                    match l with
                    | [] => Forall_nil _
                    | x :: r => Forall_cons x (class_ind_nested x) (go r)
                    end in
        Hclass n v bs ms (go bs) (go ms)
    end.
End ClassInd.

(** ** Terms of the statements, which do not depend on the ABI *)

(** [std::is_polymorphic] *)
Fixpoint polymorphic (c : class) : bool :=
  match c with
  | Plain _ _ => false
  | Class _ v bs _ => v || existsb polymorphic bs
  end.

(** [std::is_empty] *)
Fixpoint is_empty (c : class) : bool :=
  match c with
  | Plain _ _ => false
  | Class _ v bs ms => negb v && forallb is_empty bs && match ms with [] => true | _ => false end
  end.

(** The empty classes an object is made of. *)
Fixpoint empties_of (c : class) : list id :=
  match c with
  | Plain _ _ => []
  | Class n _ bs ms => (if is_empty c then [n] else []) ++ flat_map empties_of bs ++ flat_map empties_of ms
  end.

(** Objects take room and alignments are not 0. *)
Fixpoint wf_class (c : class) : Prop :=
  match c with
  | Plain s a => 1 <= s /\ 1 <= a
  | Class _ _ bs ms => fold_right (fun x Q => wf_class x /\ Q) True bs /\ fold_right (fun x Q => wf_class x /\ Q) True ms
  end.

(** No empty class is twice in the bases. *)
Definition disjoint_bases (bs : list class) : Prop :=
  ForallOrdPairs (fun b c => forall i, In i (empties_of b) -> ~ In i (empties_of c)) bs.

Lemma wf_all : forall l, fold_right (fun x Q => wf_class x /\ Q) True l <-> Forall wf_class l.
Proof.
  induction l as [|x l IH]; cbn; [split; auto|]. rewrite IH, Forall_cons_iff. tauto.
Qed.

(** ** The layout says what these terms say *)

Lemma layout_dynamic : forall a ptr c, l_dynamic (lay_out a ptr c) = polymorphic c.
Proof.
  intros a ptr. induction c using class_ind_nested; [reflexivity|]. cbn [lay_out polymorphic].
  assert (E : existsb l_dynamic (map (lay_out a ptr) bs) = existsb polymorphic bs).
  { clear H0. induction H as [|b bs Hb H IH]; cbn; auto. rewrite Hb, IH. reflexivity. }
  unfold layout_class. rewrite E.
  destruct (match a with Itanium => _ | Microsoft => _ end) as [os [ps f]]. reflexivity.
Qed.

Lemma is_empty_polymorphic : forall c, is_empty c = true -> polymorphic c = false.
Proof.
  induction c using class_ind_nested; cbn; [discriminate|]. rewrite !andb_true_iff. intros [[Hv Hb] _].
  destruct v; [discriminate|]. cbn. clear H0. induction H as [|b bs Hb' H IH]; cbn in *; auto.
  apply andb_prop in Hb. rewrite Hb', IH; tauto.
Qed.

Lemma layout_empty : forall a ptr c, l_empty (lay_out a ptr c) = is_empty c.
Proof.
  intros a ptr. induction c using class_ind_nested; [reflexivity|].
  assert (E : forallb l_empty (map (lay_out a ptr) bs) = forallb is_empty bs).
  { clear H0. induction H as [|b bs Hb H IH]; cbn; auto. rewrite Hb, IH. reflexivity. }
  assert (D : existsb l_dynamic (map (lay_out a ptr) bs) = existsb polymorphic bs).
  { clear. induction bs as [|b bs IH]; cbn; auto. rewrite layout_dynamic, IH. reflexivity. }
  cbn [lay_out is_empty]. unfold layout_class. rewrite E, D.
  destruct (match a with Itanium => _ | Microsoft => _ end) as [os [ps f]]. cbn [l_empty].
  assert (M : match map (lay_out a ptr) ms with [] => true | _ => false end = match ms with [] => true | _ => false end)
    by (destruct ms; reflexivity).
  rewrite M. destruct (forallb is_empty bs) eqn:F; [|rewrite !andb_false_r; reflexivity].
  assert (P : existsb polymorphic bs = false).
  { clear - F. induction bs as [|b bs IH]; cbn in *; auto. apply andb_prop in F.
    rewrite is_empty_polymorphic, IH; tauto. }
  rewrite P, orb_false_r. reflexivity.
Qed.

(** ** Itanium *)

Lemma round_up_ge : forall n a, 1 <= a -> n <= round_up n a.
Proof.
  intros n a Ha. unfold round_up. pose proof (Nat.div_mod (n + (a - 1)) a ltac:(lia)) as E.
  pose proof (Nat.mod_upper_bound (n + (a - 1)) a ltac:(lia)). nia.
Qed.

Lemma round_up_0 : forall a, 1 <= a -> round_up 0 a = 0.
Proof. intros a Ha. unfold round_up. rewrite Nat.div_small by lia. reflexivity. Qed.

Lemma search_ge : forall fuel placed es o step, o <= search fuel placed es o step.
Proof.
  induction fuel as [|fuel IH]; intros; cbn; [lia|]. destruct (conflict placed es o); [|lia].
  specialize (IH placed es (o + step) step). lia.
Qed.

Lemma place_ge : forall f l, 1 <= l_align l -> f_data f <= itanium_place f l.
Proof.
  intros f l Hl. unfold itanium_place. eapply Nat.le_trans; [|apply search_ge]. apply round_up_ge. exact Hl.
Qed.

Lemma id_eqb_eq : forall x y, id_eqb x y = true -> x = y.
Proof. intros [] []; cbn; intros H; try discriminate; apply Nat.eqb_eq in H; congruence. Qed.

Lemma no_conflict : forall placed es o,
  (forall i, In i (map fst placed) -> ~ In i (map fst es)) -> conflict placed es o = false.
Proof.
  intros placed es o H. destruct (conflict placed es o) eqn:E; [|reflexivity]. exfalso.
  unfold conflict, shift in E. apply existsb_exists in E. destruct E as (e & He & E).
  apply existsb_exists in E. destruct E as (q & Hq & E). apply andb_prop in E. destruct E as [E _].
  apply id_eqb_eq in E. apply in_map_iff in He. destruct He as (e' & <- & He). cbn [fst] in E.
  apply (H (fst q)); [apply in_map; exact Hq|]. rewrite <- E. apply in_map. exact He.
Qed.

Definition sound (l : layout) : Prop := 1 <= l_align l /\ 1 <= l_size l /\ (l_empty l = false -> 1 <= l_data l).

Lemma base_data : forall f l, sound l ->
  f_data f <= f_data (snd (itanium_base f l))
  /\ (l_empty l = false -> 1 <= f_data (snd (itanium_base f l)) /\ f_data f <= fst (itanium_base f l)).
Proof.
  intros f l (Ha & _ & Hd). unfold itanium_base. destruct (l_empty l) eqn:E; cbn [fst snd f_data put_at].
  - split; [lia|discriminate].
  - pose proof (place_ge f l Ha). specialize (Hd eq_refl). split; intros; lia.
Qed.

Lemma bases_data : forall ls primary f, Forall sound ls ->
  f_data f <= f_data (snd (itanium_bases primary f ls)).
Proof.
  induction ls as [|l ls IH]; intros primary f H; [cbn; lia|]. inversion H as [|? ? Hs Hr]; subst. cbn [itanium_bases].
  destruct (primary && l_dynamic l).
  - specialize (IH false f Hr). destruct (itanium_bases false f ls). exact IH.
  - destruct (base_data f l Hs) as [B _]. destruct (itanium_base f l) as [o f1]. cbn [snd] in B.
    specialize (IH primary f1 Hr). destruct (itanium_bases primary f1 ls). cbn [snd] in *. lia.
Qed.

Lemma bases_nonempty : forall ls primary f, Forall sound ls ->
  (exists l, In l ls /\ l_empty l = false /\ (primary = true -> l_dynamic l = false)) ->
  1 <= f_data (snd (itanium_bases primary f ls)).
Proof.
  induction ls as [|l ls IH]; intros primary f H (x & Hin & He & Hp); [contradiction|].
  inversion H as [|? ? Hs Hr]; subst. cbn [itanium_bases]. destruct (primary && l_dynamic l) eqn:Ep.
  - apply andb_prop in Ep. destruct Ep as [-> Ed]. specialize (IH false f Hr).
    destruct (itanium_bases false f ls). apply IH. destruct Hin as [-> | Hin]; [rewrite Hp in Ed by auto; discriminate|].
    exists x. repeat split; auto.
  - destruct (base_data f l Hs) as [B C]. pose proof (bases_data ls primary (snd (itanium_base f l)) Hr) as G.
    destruct (itanium_base f l) as [o f1]. cbn [fst snd] in *. specialize (IH primary f1 Hr).
    destruct (itanium_bases primary f1 ls) as [os f']. cbn [snd] in *. destruct Hin as [-> | Hin].
    + specialize (C He). lia.
    + apply IH. exists x. auto.
Qed.

Lemma members_data : forall ms f, Forall sound ms ->
  f_data f <= f_data (snd (itanium_members f ms))
  /\ (ms <> [] -> 1 <= f_data (snd (itanium_members f ms))).
Proof.
  induction ms as [|m ms IH]; intros f H; [cbn; split; [lia|contradiction]|]. inversion H as [|? ? (Ha & Hs & Hd) Hr]; subst.
  cbn [itanium_members]. pose proof (place_ge f m Ha). set (o := itanium_place f m) in *.
  destruct (IH (put_at o (o + l_size m) (o + l_size m) m f) Hr) as [I1 _]. cbn [f_data put_at] in I1.
  destruct (itanium_members _ ms). cbn [snd] in *. split; intros; lia.
Qed.

(** The size is at least that of the data. *)
Lemma bases_size : forall ls primary f, f_data f <= f_size f ->
  f_data (snd (itanium_bases primary f ls)) <= f_size (snd (itanium_bases primary f ls)).
Proof.
  induction ls as [|l ls IH]; intros primary f H; [exact H|]. cbn [itanium_bases]. destruct (primary && l_dynamic l).
  - specialize (IH false f H). destruct (itanium_bases false f ls). exact IH.
  - assert (A : f_data (snd (itanium_base f l)) <= f_size (snd (itanium_base f l)))
      by (unfold itanium_base; destruct (l_empty l); cbn; lia).
    destruct (itanium_base f l) as [o f1]. specialize (IH primary f1 A). destruct (itanium_bases primary f1 ls). exact IH.
Qed.

Lemma members_size : forall ms f, f_data f <= f_size f ->
  f_data (snd (itanium_members f ms)) <= f_size (snd (itanium_members f ms)).
Proof.
  induction ms as [|m ms IH]; intros f H; [exact H|]. cbn [itanium_members]. set (o := itanium_place f m).
  specialize (IH (put_at o (o + l_size m) (o + l_size m) m f)). destruct (itanium_members _ ms). apply IH. cbn. lia.
Qed.

Lemma start_size : forall ptr d bs, f_data (itanium_start ptr d bs) <= f_size (itanium_start ptr d bs).
Proof. intros ptr d bs. unfold itanium_start. destruct (find l_dynamic bs); [cbn; lia|]. destruct d; cbn; lia. Qed.

Lemma bases_align : forall ls primary f, f_align f <= f_align (snd (itanium_bases primary f ls)).
Proof.
  induction ls as [|l ls IH]; intros primary f; [cbn; lia|]. cbn [itanium_bases]. destruct (primary && l_dynamic l).
  - specialize (IH false f). destruct (itanium_bases false f ls). exact IH.
  - assert (A : f_align f <= f_align (snd (itanium_base f l))) by (unfold itanium_base; destruct (l_empty l); cbn; lia).
    destruct (itanium_base f l) as [o f1]. specialize (IH primary f1). destruct (itanium_bases primary f1 ls). cbn [snd] in *. lia.
Qed.

Lemma members_align : forall ms f, f_align f <= f_align (snd (itanium_members f ms)).
Proof.
  induction ms as [|m ms IH]; intros f; cbn [itanium_members]; [cbn; lia|]. set (o := itanium_place f m).
  specialize (IH (put_at o (o + l_size m) (o + l_size m) m f)). destruct (itanium_members _ ms).
  cbn [put_at f_align snd] in *. lia.
Qed.

Lemma start_align : forall ptr d bs, 1 <= ptr -> 1 <= f_align (itanium_start ptr d bs).
Proof. intros ptr d bs Hp. unfold itanium_start. destruct (find l_dynamic bs); [cbn [f_align put_at]; lia|]. destruct d; cbn [f_align]; lia. Qed.

Lemma start_data : forall ptr d bs, 1 <= ptr -> Forall sound bs -> (forall l, In l bs -> l_dynamic l = true -> l_empty l = false) ->
  d || existsb l_dynamic bs = true -> 1 <= f_data (itanium_start ptr (d || existsb l_dynamic bs) bs).
Proof.
  intros ptr d bs Hp Hs Hd H. rewrite H. unfold itanium_start. destruct (find l_dynamic bs) as [l|] eqn:E; [|cbn; lia].
  apply find_some in E. destruct E as [E1 E2]. rewrite Forall_forall in Hs. destruct (Hs l E1) as (_ & _ & G). cbn. apply G. auto.
Qed.

Lemma layout_sound : forall ptr c, 1 <= ptr -> wf_class c -> sound (lay_out Itanium ptr c).
Proof.
  intros ptr c Hp. induction c using class_ind_nested; intros Hw.
  - cbn in Hw. unfold sound. cbn. intuition lia.
  - destruct Hw as [Hb Hm]. rewrite wf_all in Hb, Hm.
    assert (Sb : Forall sound (map (lay_out Itanium ptr) bs)).
    { rewrite Forall_forall in *. intros l Hl. apply in_map_iff in Hl. destruct Hl as (c & <- & Hc). auto. }
    assert (Sm : Forall sound (map (lay_out Itanium ptr) ms)).
    { rewrite Forall_forall in *. intros l Hl. apply in_map_iff in Hl. destruct Hl as (c & <- & Hc). auto. }
    assert (Dd : forall l, In l (map (lay_out Itanium ptr) bs) -> l_dynamic l = true -> l_empty l = false).
    { intros l Hl. apply in_map_iff in Hl. destruct Hl as (c & <- & Hc). rewrite layout_dynamic, layout_empty.
      destruct (is_empty c) eqn:E; auto. rewrite is_empty_polymorphic by auto. discriminate. }
    cbn [lay_out]. set (lb := map (lay_out Itanium ptr) bs) in *. set (lm := map (lay_out Itanium ptr) ms) in *.
    unfold layout_class. set (dyn := v || existsb l_dynamic lb).
    pose proof (bases_align lb (existsb l_dynamic lb) (itanium_start ptr dyn lb)) as A1.
    pose proof (bases_data lb (existsb l_dynamic lb) (itanium_start ptr dyn lb) Sb) as B1.
    pose proof (bases_nonempty lb (existsb l_dynamic lb) (itanium_start ptr dyn lb) Sb) as B2.
    pose proof (start_align ptr dyn lb Hp) as A0.
    pose proof (start_data ptr v lb Hp Sb Dd) as D0. fold dyn in D0.
    pose proof (bases_size lb (existsb l_dynamic lb) _ (start_size ptr dyn lb)) as C1.
    destruct (itanium_bases (existsb l_dynamic lb) (itanium_start ptr dyn lb) lb) as [os f1]. cbn [snd] in *.
    pose proof (members_align lm f1) as A2. destruct (members_data lm f1 Sm) as [M1 M2].
    pose proof (members_size lm f1 C1) as C2.
    assert (M3 : lm = [] -> itanium_members f1 lm = ([], f1)) by (intros ->; reflexivity).
    destruct (itanium_members f1 lm) as [ps f2]. cbn [snd] in *.
    unfold sound. cbn [l_align l_size l_empty l_data]. repeat split; [lia|lia|].
    intros He. rewrite He. enough (1 <= f_data f2) by lia. destruct dyn eqn:Ed; [specialize (D0 eq_refl); lia|].
    destruct lm as [|m lm']; [|specialize (M2 ltac:(discriminate)); lia].
    cbn [negb andb] in He. rewrite andb_true_r in He. specialize (M3 eq_refl). injection M3 as -> ->. apply B2.
    destruct (forallb l_empty lb) eqn:F; [discriminate|].
    assert (X : exists l, In l lb /\ l_empty l = false).
    { clear - F. induction lb as [|l lb IH]; [discriminate|]. cbn in F. destruct (l_empty l) eqn:E.
      - destruct (IH F) as (x & Hx & Ex). exists x. split; [right; auto|auto].
      - exists l. split; [left; auto|auto]. }
    destruct X as (l & Hl & El). exists l. repeat split; auto. intros Q.
    unfold dyn in Ed. apply orb_false_iff in Ed. rewrite Q in Ed. destruct Ed; discriminate.
Qed.

(** Where the empty classes come from. *)
Lemma shift_fst : forall o es, map fst (shift o es) = map fst es.
Proof. intros o es. unfold shift. rewrite map_map. reflexivity. Qed.

Lemma bases_empties : forall ls primary f i, In i (map fst (f_empties (snd (itanium_bases primary f ls)))) ->
  In i (map fst (f_empties f)) \/ exists l, In l ls /\ In i (map fst (l_empties l)).
Proof.
  induction ls as [|l ls IH]; intros primary f i H; [left; exact H|]. cbn [itanium_bases] in H.
  destruct (primary && l_dynamic l).
  - specialize (IH false f i). destruct (itanium_bases false f ls). destruct (IH H) as [A|(x & A & B)]; auto.
    right. exists x. split; [right|]; auto.
  - assert (E : forall i, In i (map fst (f_empties (snd (itanium_base f l)))) -> In i (map fst (f_empties f)) \/ In i (map fst (l_empties l))).
    { intros j. unfold itanium_base. destruct (l_empty l); cbn; rewrite map_app, shift_fst; apply in_app_or. }
    destruct (itanium_base f l) as [o f1]. cbn [snd] in E. specialize (IH primary f1 i).
    destruct (itanium_bases primary f1 ls). cbn [snd] in *. destruct (IH H) as [A|(x & A & B)].
    + destruct (E i A); auto. right. exists l. split; [left|]; auto.
    + right. exists x. split; [right|]; auto.
Qed.

Lemma members_empties : forall ms f i, In i (map fst (f_empties (snd (itanium_members f ms)))) ->
  In i (map fst (f_empties f)) \/ exists l, In l ms /\ In i (map fst (l_empties l)).
Proof.
  induction ms as [|m ms IH]; intros f i H; [left; exact H|]. cbn [itanium_members] in H. set (o := itanium_place f m) in *.
  specialize (IH (put_at o (o + l_size m) (o + l_size m) m f) i). destruct (itanium_members _ ms).
  destruct (IH H) as [A|(x & A & B)].
  - cbn in A. rewrite map_app, shift_fst in A. apply in_app_or in A. destruct A; auto.
    right. exists m. split; [left|]; auto.
  - right. exists x. split; [right|]; auto.
Qed.

Lemma layout_empties : forall ptr c i, In i (map fst (l_empties (lay_out Itanium ptr c))) -> In i (empties_of c).
Proof.
  intros ptr. induction c using class_ind_nested; intros i; [intros []|].
  pose proof (layout_empty Itanium ptr (Class n v bs ms)) as E. cbn [lay_out empties_of] in *.
  unfold layout_class in *. set (lb := map (lay_out Itanium ptr) bs) in *. set (lm := map (lay_out Itanium ptr) ms) in *.
  set (dyn := v || existsb l_dynamic lb) in *.
  pose proof (bases_empties lb (existsb l_dynamic lb) (itanium_start ptr dyn lb)) as B.
  destruct (itanium_bases (existsb l_dynamic lb) (itanium_start ptr dyn lb) lb) as [os f1]. cbn [snd] in B.
  pose proof (members_empties lm f1) as M. destruct (itanium_members f1 lm) as [ps f2].
  cbn [snd l_empty l_empties] in *.
  assert (Fb : forall l, In l lb -> In i (map fst (l_empties l)) -> In i (flat_map empties_of bs)).
  { intros l Hl Hi. unfold lb in Hl. apply in_map_iff in Hl. destruct Hl as (c & <- & Hc). apply in_flat_map. exists c.
    rewrite Forall_forall in H. auto. }
  assert (Fm : forall l, In l lm -> In i (map fst (l_empties l)) -> In i (flat_map empties_of ms)).
  { intros l Hl Hi. unfold lm in Hl. apply in_map_iff in Hl. destruct Hl as (c & <- & Hc). apply in_flat_map. exists c.
    rewrite Forall_forall in H0. auto. }
  rewrite map_app. intros Hi. apply in_app_or in Hi. rewrite E in Hi. destruct Hi as [Hi|Hi].
  - apply in_or_app. left. destruct (is_empty (Class n v bs ms)); exact Hi.
  - apply in_or_app. right. apply in_or_app. destruct (M i Hi) as [A|(l & A & A')]; [|right; eapply Fm; eauto].
    left. destruct (B i A) as [C|(l & C & C')]; [|eapply Fb; eauto]. unfold itanium_start in C.
    destruct (find l_dynamic lb) as [l|] eqn:F.
    + apply find_some in F. destruct F as [F _]. cbn in C. rewrite shift_fst in C. eapply Fb; eauto.
    + destruct dyn; contradiction.
Qed.

(** ** The place of a base *)

Lemma bases_app : forall pre primary f ls, existsb l_dynamic pre = false ->
  itanium_bases primary f (pre ++ ls) =
  (fst (itanium_bases primary f pre) ++ fst (itanium_bases primary (snd (itanium_bases primary f pre)) ls),
   snd (itanium_bases primary (snd (itanium_bases primary f pre)) ls)).
Proof.
  induction pre as [|l pre IH]; intros primary f ls H.
  - cbn. destruct (itanium_bases primary f ls). reflexivity.
  - cbn in H. apply orb_false_iff in H. destruct H as [Hl Hp]. cbn [app itanium_bases]. rewrite Hl, andb_false_r.
    destruct (itanium_base f l) as [o f1]. rewrite IH by auto. destruct (itanium_bases primary f1 pre) as [os f2]. reflexivity.
Qed.

Lemma bases_length : forall ls primary f, length (fst (itanium_bases primary f ls)) = length ls.
Proof.
  induction ls as [|l ls IH]; intros primary f; [reflexivity|]. cbn [itanium_bases]. destruct (primary && l_dynamic l).
  - specialize (IH false f). destruct (itanium_bases false f ls). cbn in *. congruence.
  - destruct (itanium_base f l) as [o f1]. specialize (IH primary f1). destruct (itanium_bases primary f1 ls). cbn in *. congruence.
Qed.

(** The place of base number [length pre] is at least the data placed before, if
    it is not empty nor dynamic. *)
Lemma nth_base_ge : forall pre primary f l ls, Forall sound pre -> sound l -> l_empty l = false -> l_dynamic l = false ->
  exists f', f_data f <= f_data f'
    /\ ((exists x, In x pre /\ l_empty x = false /\ l_dynamic x = false) -> 1 <= f_data f')
    /\ f_data f' <= nth (length pre) (fst (itanium_bases primary f (pre ++ l :: ls))) 0.
Proof.
  induction pre as [|x pre IH]; intros primary f l ls Hs Hl He Hd.
  - exists f. split; [lia|]. split; [intros (x & [] & _)|]. cbn [app itanium_bases length]. rewrite Hd, andb_false_r.
    destruct (base_data f l Hl) as [_ B]. specialize (B He). destruct (itanium_base f l) as [o f1].
    destruct (itanium_bases primary f1 ls). cbn [fst snd nth] in *. lia.
  - inversion Hs as [|? ? Hx Hr]; subst. cbn [app itanium_bases length]. destruct (primary && l_dynamic x) eqn:E.
    + destruct (IH false f l ls Hr Hl He Hd) as (f' & A & B & C). destruct (itanium_bases false f (pre ++ l :: ls)).
      exists f'. split; auto. split; auto. intros (y & [-> | Hy] & Ey & Dy).
      * rewrite Dy, andb_false_r in E. discriminate.
      * apply B. exists y. auto.
    + destruct (base_data f x Hx) as [B1 B2]. destruct (itanium_base f x) as [o f1]. cbn [fst snd] in *.
      destruct (IH primary f1 l ls Hr Hl He Hd) as (f' & A & B & C). destruct (itanium_bases primary f1 (pre ++ l :: ls)).
      exists f'. split; [lia|]. split; auto. intros (y & [-> | Hy] & Ey & Dy).
      * specialize (B2 Ey). lia.
      * apply B. exists y. auto.
Qed.

(** Empty bases without common types are all at 0. *)
Lemma empty_bases : forall ls f, Forall (fun l => l_empty l = true /\ l_dynamic l = false) ls ->
  ForallOrdPairs (fun l m => forall i, In i (map fst (l_empties l)) -> ~ In i (map fst (l_empties m))) ls ->
  (forall i l, In l ls -> In i (map fst (f_empties f)) -> ~ In i (map fst (l_empties l))) ->
  fst (itanium_bases false f ls) = repeat 0 (length ls)
  /\ f_data (snd (itanium_bases false f ls)) = f_data f.
Proof.
  induction ls as [|l ls IH]; intros f H Hd Hf; [split; reflexivity|]. inversion H as [|? ? [He Hl] Hr]; subst.
  inversion Hd as [|? ? Hdl Hdr]; subst. cbn [itanium_bases andb]. unfold itanium_base. rewrite He.
  rewrite no_conflict by (intros i Hi; apply Hf; [left; reflexivity|exact Hi]).
  edestruct (IH (put_at 0 (0 + l_size l) (f_data f) l f)) as [A B]; auto.
  - intros i m Hm Hi. cbn in Hi. rewrite map_app, shift_fst in Hi. apply in_app_or in Hi. destruct Hi as [Hi|Hi].
    + apply Hf; [right|]; auto.
    + rewrite Forall_forall in Hdl. apply (Hdl m Hm i Hi).
  - destruct (itanium_bases false (put_at 0 (0 + l_size l) (f_data f) l f) ls). cbn in *. split; congruence.
Qed.

(** ** C80 *)

Lemma existsb_dynamic : forall ptr bs, existsb l_dynamic (map (lay_out Itanium ptr) bs) = existsb polymorphic bs.
Proof. intros ptr. induction bs as [|b bs IH]; cbn; auto. rewrite layout_dynamic, IH. reflexivity. Qed.

Lemma class_bases : forall ptr n v bs ms,
  l_bases (lay_out Itanium ptr (Class n v bs ms)) =
  fst (itanium_bases (existsb polymorphic bs) (itanium_start ptr (v || existsb polymorphic bs) (map (lay_out Itanium ptr) bs)) (map (lay_out Itanium ptr) bs)).
Proof.
  intros ptr n v bs ms. cbn [lay_out]. unfold layout_class. rewrite existsb_dynamic.
  destruct (itanium_bases (existsb polymorphic bs) _ (map (lay_out Itanium ptr) bs)) as [os f1].
  destruct (itanium_members f1 _) as [ps f2]. reflexivity.
Qed.

Lemma disjoint_layouts : forall ptr bs, disjoint_bases bs ->
  ForallOrdPairs (fun l m => forall i, In i (map fst (l_empties l)) -> ~ In i (map fst (l_empties m))) (map (lay_out Itanium ptr) bs).
Proof.
  intros ptr bs H. induction H as [|b bs Hb H IH]; cbn; constructor; auto.
  rewrite Forall_forall in *. intros l Hl i Hi Hj. apply in_map_iff in Hl. destruct Hl as (c & <- & Hc).
  apply (Hb c Hc i); eapply layout_empties; eauto.
Qed.

(** In a class without virtual functions, the bases before the first one which is
    not empty and that one are at the address of the object, if no empty class
    is twice among them. *)
Lemma leading_bases : forall ptr n pre post ms, disjoint_bases pre -> forallb is_empty pre = true ->
  existsb polymorphic (pre ++ post) = false ->
  forall i x, i < length pre -> derived Itanium ptr (Class n false (pre ++ post) ms) i x = x.
Proof.
  intros ptr n pre post ms Hd He Hp i x Hi. unfold derived. rewrite class_bases, Hp. cbn [orb].
  assert (S : itanium_start ptr false (map (lay_out Itanium ptr) (pre ++ post)) = mk_frame 0 0 1 [] false).
  { unfold itanium_start. destruct (find l_dynamic (map (lay_out Itanium ptr) (pre ++ post))) as [l|] eqn:F; [|reflexivity].
    apply find_some in F. destruct F as [F1 F2]. exfalso. rewrite <- existsb_dynamic with (ptr := ptr) in Hp.
    assert (existsb l_dynamic (map (lay_out Itanium ptr) (pre ++ post)) = true) by (apply existsb_exists; eauto). congruence. }
  rewrite S, map_app, bases_app.
  - cbn [fst]. rewrite app_nth1 by (rewrite bases_length, map_length; exact Hi).
    destruct (empty_bases (map (lay_out Itanium ptr) pre) (mk_frame 0 0 1 [] false)) as [E _].
    + rewrite forallb_forall in He. apply Forall_forall. intros l Hl. apply in_map_iff in Hl. destruct Hl as (c & <- & Hc).
      rewrite layout_empty, layout_dynamic. split; [auto|]. apply is_empty_polymorphic. auto.
    + apply disjoint_layouts. exact Hd.
    + intros j l _ [].
    + rewrite E, nth_repeat. lia.
  - rewrite existsb_dynamic. rewrite existsb_app in Hp. apply orb_false_iff in Hp. tauto.
Qed.

(** The base [b] of a class, neither empty nor polymorphic, is at the address of
    the object if and only if the class has no virtual functions and no base
    comes before [b] but empty ones. *)
Theorem C80_user : forall ptr n v pre b post ms x,
  1 <= ptr -> Forall wf_class (pre ++ b :: post) -> disjoint_bases (pre ++ [b]) ->
  is_empty b = false -> polymorphic b = false ->
  (derived Itanium ptr (Class n v (pre ++ b :: post) ms) (length pre) x = x
   <-> v = false /\ existsb polymorphic (pre ++ post) = false /\ forallb is_empty pre = true).
Proof.
  intros ptr n v pre b post ms x Hp Hw Hd He Hb.
  assert (Hs : Forall sound (map (lay_out Itanium ptr) (pre ++ b :: post))).
  { rewrite Forall_forall in *. intros l Hl. apply in_map_iff in Hl. destruct Hl as (c & <- & Hc). apply layout_sound; auto. }
  assert (Hpoly : existsb polymorphic (pre ++ b :: post) = existsb polymorphic (pre ++ post)).
  { rewrite !existsb_app. cbn. rewrite Hb. reflexivity. }
  unfold derived. rewrite class_bases, Hpoly. rewrite map_app in *. cbn [map] in *.
  set (lp := map (lay_out Itanium ptr) pre) in *. set (lb := lay_out Itanium ptr b) in *.
  set (lq := map (lay_out Itanium ptr) post) in *.
  assert (Elen : length pre = length lp) by (unfold lp; rewrite map_length; reflexivity).
  assert (Heb : l_empty lb = false) by (unfold lb; rewrite layout_empty; exact He).
  assert (Hdb : l_dynamic lb = false) by (unfold lb; rewrite layout_dynamic; exact Hb).
  assert (Sp : Forall sound lp) by (apply Forall_app in Hs; tauto).
  assert (Sb : sound lb) by (apply Forall_app in Hs; destruct Hs as [_ Hs]; inversion Hs; auto).
  split.
  - intros H. set (f := itanium_start ptr (v || existsb polymorphic (pre ++ post)) (lp ++ lb :: lq)) in *.
    destruct (nth_base_ge lp (existsb polymorphic (pre ++ post)) f lb lq Sp Sb Heb Hdb) as (f' & A & B & C).
    rewrite Elen in H.
    assert (Z : f_data f' = 0) by lia. clear C H.
    destruct (v || existsb polymorphic (pre ++ post)) eqn:D.
    + exfalso. assert (1 <= f_data f); [|lia]. unfold f.
      assert (Ed : existsb l_dynamic (lp ++ lb :: lq) = existsb polymorphic (pre ++ post)).
      { rewrite existsb_app. cbn. rewrite Hdb. unfold lp, lq. rewrite !existsb_dynamic, existsb_app. reflexivity. }
      rewrite <- D, <- Ed. apply start_data; auto.
      * intros l Hl. apply in_app_or in Hl.
        assert (exists c, l = lay_out Itanium ptr c) as [c ->].
        { destruct Hl as [Hl | [<- | Hl]]; [|exists b; reflexivity|]; apply in_map_iff in Hl; destruct Hl as (c & <- & _); exists c; reflexivity. }
        rewrite layout_dynamic, layout_empty. destruct (is_empty c) eqn:E; auto. rewrite is_empty_polymorphic by auto. discriminate.
      * rewrite Ed. exact D.
    + apply orb_false_iff in D. destruct D as [-> D]. rewrite D. repeat split.
      destruct (forallb is_empty pre) eqn:F; auto. exfalso.
      assert (1 <= f_data f'); [|lia]. apply B.
      rewrite existsb_app in D. apply orb_false_iff in D. destruct D as [D _]. clear - F D.
      unfold lp. induction pre as [|c pre IH]; [discriminate|]. cbn in F, D. apply orb_false_iff in D. destruct D as [D1 D2].
      destruct (is_empty c) eqn:E.
      * destruct (IH D2 F) as (y & Hy & Hy2). exists y. split; [right; exact Hy|exact Hy2].
      * exists (lay_out Itanium ptr c). split; [left; reflexivity|]. rewrite layout_empty, layout_dynamic. auto.
  - intros (-> & D & F). rewrite D. cbn [orb].
    assert (S : itanium_start ptr false (lp ++ lb :: lq) = mk_frame 0 0 1 [] false).
    { unfold itanium_start. destruct (find l_dynamic (lp ++ lb :: lq)) as [l|] eqn:G; [|reflexivity].
      apply find_some in G. destruct G as [G1 G2]. exfalso.
      assert (X : existsb l_dynamic (lp ++ lb :: lq) = true) by (apply existsb_exists; eauto).
      rewrite existsb_app in X. cbn [existsb] in X. rewrite Hdb in X. unfold lp, lq in X. rewrite !existsb_dynamic in X.
      rewrite existsb_app in D. cbn [orb] in X. congruence. }
    rewrite existsb_app in D. apply orb_false_iff in D. destruct D as [D _].
    rewrite S, bases_app by (unfold lp; rewrite existsb_dynamic; exact D). cbn [fst].
    rewrite app_nth2 by (rewrite bases_length; lia). rewrite bases_length, <- Elen, Nat.sub_diag.
    assert (Dp : disjoint_bases pre).
    { clear - Hd. unfold disjoint_bases in *. induction pre as [|c pre IH]; [constructor|]. cbn in Hd. inversion Hd as [|? ? H1 H2]; subst.
      constructor; auto. apply Forall_app in H1. tauto. }
    destruct (empty_bases lp (mk_frame 0 0 1 [] false)) as [_ E].
    + rewrite forallb_forall in F. apply Forall_forall. intros l Hl. apply in_map_iff in Hl. destruct Hl as (c & <- & Hc).
      rewrite layout_empty, layout_dynamic. split; [auto|]. apply is_empty_polymorphic. auto.
    + apply disjoint_layouts. exact Dp.
    + intros j l _ [].
    + cbn [itanium_bases andb]. unfold itanium_base. rewrite Heb. destruct Sb as (Ha & _ & _).
      assert (P : itanium_place (snd (itanium_bases false (mk_frame 0 0 1 [] false) lp)) lb = 0).
      { unfold itanium_place. rewrite E. cbn [f_data]. rewrite round_up_0 by auto. cbn [search]. rewrite no_conflict; [reflexivity|].
        intros i Hi Hj. destruct (bases_empties _ _ _ _ Hi) as [[]|(l & Hl & Hli)].
        unfold lp in Hl. apply in_map_iff in Hl. destruct Hl as (c & <- & Hc).
        apply layout_empties in Hli. apply layout_empties in Hj. clear - Hd Hc Hli Hj. unfold disjoint_bases in Hd.
        induction pre as [|c' pre IH]; [contradiction|]. cbn in Hd. inversion Hd as [|? ? H1 H2]; subst. destruct Hc as [-> | Hc]; auto.
        rewrite Forall_forall in H1. apply (H1 b) with (i := i); auto. apply in_or_app. right. left. reflexivity. }
      rewrite P. destruct (itanium_bases false _ lq). cbn [fst nth]. lia.
Qed.

(** With the Itanium ABI the casts of the library are right, whatever the members
    of the classes. *)
Theorem C80_library : forall ptr d ms bs x, 1 <= ptr -> Forall wf_class ms -> ms <> [] ->
  derived Itanium ptr (key_class d) 0 x = x
  /\ derived Itanium ptr (process_class d bs) 0 x = x
  /\ derived Itanium ptr (message_class d bs) 0 x = x
  /\ (forall i, i < 3 -> derived Itanium ptr (buffered_class d bs) i x = x)
  /\ derived Itanium ptr (final_class d ms bs) 0 x = x.
Proof.
  intros ptr d ms bs x Hp Hm Hn. repeat split.
  - apply (leading_bases ptr (Other d) [mixin (Reader d)] [] []); auto. repeat constructor.
  - apply (leading_bases ptr (Other d) [mixin (Process d)] [] bs); auto. repeat constructor.
  - apply (leading_bases ptr (Other d) [mixin (Writer d)] [] bs); auto. repeat constructor.
  - intros i Hi. apply (leading_bases ptr (Buffered d) [mixin (Reader d); mixin (Writer d); mixin (Process d)] [] bs); auto.
    unfold disjoint_bases. repeat constructor; cbn; intros i' [<- | []] [E | []]; discriminate.
  - apply (C80_user ptr (Other d) false [] (buffered_class d ms) [] bs); auto.
    + repeat constructor. apply wf_all. exact Hm.
    + repeat constructor.
    + cbn. destruct ms; [contradiction|reflexivity].
Qed.

Lemma microsoft_class_bases : forall ptr n v bs ms,
  l_bases (lay_out Microsoft ptr (Class n v bs ms))
  = fst (microsoft_bases None (mk_frame 0 0 1 [] false) (map (lay_out Microsoft ptr) bs)).
Proof.
  intros ptr n v bs ms. cbn [lay_out]. unfold layout_class.
  destruct (microsoft_bases None _ (map (lay_out Microsoft ptr) bs)) as [os f1].
  destruct (microsoft_members f1 _) as [ps f2]. reflexivity.
Qed.

(** With the Microsoft ABI the second and third bases of buffered dispatchers are
    not at the address of the object: [>>], [write_to(iterator)] and
    [operator()] with iterators use another address.  The other casts are right. *)
Theorem C80_microsoft : forall ptr d ms bs x,
  (forall i, i < 3 -> derived Microsoft ptr (buffered_class d ms) i x = x + i)
  /\ derived Microsoft ptr (key_class d) 0 x = x
  /\ derived Microsoft ptr (process_class d bs) 0 x = x
  /\ derived Microsoft ptr (message_class d bs) 0 x = x
  /\ derived Microsoft ptr (final_class d ms bs) 0 x = x.
Proof.
  intros ptr d ms bs x. unfold derived, buffered_class, key_class, process_class, message_class, final_class.
  assert (R : forall a, round_up 0 a = 0).
  { intros a. unfold round_up. destruct a; [reflexivity|]. rewrite Nat.div_small by lia. reflexivity. }
  rewrite !microsoft_class_bases. repeat split; try (cbn; lia).
  - intros i Hi. assert (E : i = 0 \/ i = 1 \/ i = 2) by lia.
    destruct E as [-> | [-> | ->]]; reflexivity.
  - cbn [map microsoft_bases microsoft_base f_data fst nth]. rewrite R. lia.
Qed.

(** A buffered dispatcher of two actions, on a 64 bit host. *)
Definition ex_buffered : class :=
  buffered_class 0 [process_class 1 [process_class 2 [Plain 8 8]; process_class 2 [Plain 8 8]];
                    Plain 1 1; Plain 8 8; Plain 8 8; Plain 8 8; Plain 8 8].

(** What is expected of the user's classes, that any class can be derived from
    [buffered_dispatcher], is false: not if it has a virtual destructor, nor if it
    has data in a base before.  An empty base before does no harm, nor do bases
    after it. *)
Theorem C80_refuted :
  derived Itanium 8 (Class (Other 0) true [ex_buffered] [Plain 16 1]) 0 1000 = 1008
  /\ derived Itanium 8 (Class (Other 0) false [Class (Other 3) false [] [Plain 4 4]; ex_buffered] [Plain 16 1]) 1 1000 = 1008
  /\ derived Itanium 8 (Class (Other 0) false [ex_buffered; Class (Other 3) true [] []] [Plain 16 1]) 0 1000 = 1008
  /\ derived Itanium 8 (Class (Other 0) false [mixin (Other 3); ex_buffered; Class (Other 4) false [] [Plain 4 4]] [Plain 16 1]) 1 1000 = 1000
  /\ derived Microsoft 8 ex_buffered 1 1000 = 1001.
Proof. vm_compute. repeat split. Qed.

(** Two bases which have an empty class in common: the second one is moved. *)
Example C80_conflict :
  let e := mixin (Other 3) in
  let c := Class (Other 0) false [Class (Other 1) false [e] []; Class (Other 2) false [e] []] [Plain 4 4] in
  l_bases (lay_out Itanium 8 c) = [0; 1] /\ ~ disjoint_bases [Class (Other 1) false [e] []; Class (Other 2) false [e] []].
Proof.
  cbn zeta. split; [vm_compute; reflexivity|]. intros H. inversion H as [|? ? H1 _]; subst. inversion H1 as [|? ? H2 _]; subst.
  apply (H2 (Other 3)); cbn; auto.
Qed.

Example C80_example :
  (forall i x, i < 3 -> derived Itanium 8 ex_buffered i x = x)
  /\ is_empty ex_buffered = false /\ polymorphic ex_buffered = false /\ wf_class ex_buffered
  /\ l_size (lay_out Itanium 8 ex_buffered) = 56 /\ l_size (lay_out Microsoft 8 ex_buffered) = 64.
Proof.
  repeat split; try (cbn; lia); try (vm_compute; reflexivity).
  intros i x Hi. assert (E : i = 0 \/ i = 1 \/ i = 2) by lia. unfold derived.
  destruct E as [-> | [-> | ->]]; apply Nat.add_0_r.
Qed.

Print Assumptions C80_user.
Print Assumptions C80_library.
Print Assumptions C80_microsoft.
Print Assumptions C80_refuted.
