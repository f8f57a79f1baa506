(** Property C80, continued: what the layouts of Layout.v satisfy with the Itanium
    ABI, for any class.  The parts of an object do not overlap, are inside it and
    are aligned, and two parts which are of the same empty class have different
    addresses. *)

From Coq Require Import List Bool Arith Lia Permutation.
From Verif Require Import Layout PropertiesLayout.
Import ListNotations.
Open Scope nat_scope.

(** ** Terms of the statements *)

(** The parts of an object of class [c] at the address [o], itself first: their
    classes and addresses.  The places of the bases and of the members of each are
    those of its class. *)
Fixpoint parts (a : abi) (ptr : nat) (c : class) (o : nat) : list (class * nat) :=
  (c, o) ::
  match c with
  | Plain _ _ => []
  | Class _ _ bs ms =>
      let go := fix go (cs : list class) (ps : list nat) : list (class * nat) :=
                  match cs, ps with
                  | d :: cs', p :: ps' => parts a ptr d (o + p) ++ go cs' ps'
                  | _, _ => []
                  end in
      go bs (l_bases (lay_out a ptr c)) ++ go ms (l_members (lay_out a ptr c))
  end.

(** The bytes which are the class's own, at its beginning: those of a type which is
    not a class, or the pointer to virtual functions unless a base has one. *)
Definition own (ptr : nat) (c : class) : nat :=
  match c with
  | Plain s _ => s
  | Class _ v bs _ => if v && negb (existsb polymorphic bs) then ptr else 0
  end.

Definition owns (ptr x : nat) (part : class * nat) : bool :=
  (snd part <=? x) && (x <? snd part + own ptr (fst part)).

(** [alignof] *)
Fixpoint align_of (ptr : nat) (c : class) : nat :=
  match c with
  | Plain _ a => a
  | Class _ v bs ms =>
      fold_right Nat.max
        (fold_right Nat.max (if v && negb (existsb polymorphic bs) then ptr else 1) (map (align_of ptr) bs))
        (map (align_of ptr) ms)
  end.

Definition size_of (ptr : nat) (c : class) : nat := l_size (lay_out Itanium ptr c).

Definition power2 (a : nat) : Prop := exists k, a = 2 ^ k.

(** Alignments are powers of two, sizes are multiples of them, and a class is not
    among its own bases. *)
Fixpoint regular (c : class) : Prop :=
  match c with
  | Plain s a => 1 <= s /\ power2 a /\ Nat.divide a s
  | Class n _ bs ms =>
      ~ In n (flat_map empties_of bs)
      /\ fold_right (fun x Q => regular x /\ Q) True bs /\ fold_right (fun x Q => regular x /\ Q) True ms
  end.

Lemma regular_all : forall l, fold_right (fun x Q => regular x /\ Q) True l <-> Forall regular l.
Proof. induction l as [|x l IH]; cbn; [split; auto|]. rewrite IH, Forall_cons_iff. tauto. Qed.

Lemma power2_pos : forall a, power2 a -> 1 <= a.
Proof. intros a [k ->]. pose proof (Nat.pow_nonzero 2 k). lia. Qed.

Lemma power2_divide : forall a b, power2 a -> power2 b -> a <= b -> Nat.divide a b.
Proof.
  intros a b [i ->] [j ->] H. apply Nat.pow_le_mono_r_iff in H; [|lia]. exists (2 ^ (j - i)).
  rewrite <- Nat.pow_add_r. f_equal. lia.
Qed.

Lemma power2_max : forall a b, power2 a -> power2 b -> power2 (Nat.max a b).
Proof. intros a b Ha Hb. destruct (Nat.max_spec a b) as [[_ ->]|[_ ->]]; auto. Qed.

Lemma regular_wf : forall c, regular c -> wf_class c.
Proof.
  induction c using class_ind_nested; cbn [regular wf_class].
  - intros (Hs & Ha & _). split; [exact Hs|apply power2_pos; exact Ha].
  - intros (_ & Hb & Hm). rewrite regular_all in Hb, Hm. rewrite !wf_all.
    rewrite Forall_forall in H, H0, Hb, Hm. split; apply Forall_forall; auto.
Qed.

(** ** The first place without conflict *)

Lemma id_eqb_refl : forall x, id_eqb x x = true.
Proof. intros []; cbn; apply Nat.eqb_refl. Qed.

Lemma conflict_spec : forall placed es o, conflict placed es o = true <->
  exists i a, In (i, a) es /\ In (i, a + o) placed.
Proof.
  intros placed es o. unfold conflict, shift. rewrite existsb_exists. split.
  - intros (e & He & E). apply in_map_iff in He. destruct He as ([i a] & <- & He). apply existsb_exists in E.
    destruct E as ([j b] & Hq & E). cbn [fst snd] in E. apply andb_prop in E. destruct E as [E1 E2].
    apply id_eqb_eq in E1. apply Nat.eqb_eq in E2. subst. eauto.
  - intros (i & a & He & Hq). exists (i, a + o). split.
    + apply in_map_iff. exists (i, a). auto.
    + apply existsb_exists. exists (i, a + o). split; [exact Hq|]. cbn. rewrite id_eqb_refl, Nat.eqb_refl. reflexivity.
Qed.

(** The places which conflict are differences of places. *)
Definition excluded (placed es : list (id * nat)) : list nat :=
  map (fun pq => snd (snd pq) - snd (fst pq)) (list_prod es placed).

Lemma excluded_length : forall placed es, length (excluded placed es) = length es * length placed.
Proof. intros. unfold excluded. rewrite map_length. apply prod_length. Qed.

Lemma conflict_excluded : forall placed es o, conflict placed es o = true -> In o (excluded placed es).
Proof.
  intros placed es o H. apply conflict_spec in H. destruct H as (i & a & He & Hq). unfold excluded. apply in_map_iff.
  exists ((i, a), (i, a + o)). split; [cbn; lia|]. apply in_prod; auto.
Qed.

Lemma search_steps : forall fuel placed es o step, exists k, k <= fuel /\ search fuel placed es o step = o + k * step
  /\ (forall j, j < k -> conflict placed es (o + j * step) = true)
  /\ (k < fuel -> conflict placed es (o + k * step) = false).
Proof.
  induction fuel as [|fuel IH]; intros placed es o step; cbn [search].
  - exists 0. repeat split; lia.
  - destruct (conflict placed es o) eqn:E.
    + destruct (IH placed es (o + step) step) as (k & Hk & Es & Hb & Ha). exists (S k). repeat split; [lia|lia| |].
      * intros [|j] Hj; [rewrite Nat.add_0_r; exact E|]. specialize (Hb j ltac:(lia)).
        replace (o + S j * step) with (o + step + j * step) by lia. exact Hb.
      * intros H. specialize (Ha ltac:(lia)). replace (o + S k * step) with (o + step + k * step) by lia. exact Ha.
    + exists 0. repeat split; [lia|lia|lia|]. intros _. rewrite Nat.add_0_r. exact E.
Qed.

Lemma search_free : forall placed es o step, 1 <= step ->
  let p := search (S (length placed * length es)) placed es o step in
  conflict placed es p = false /\ exists k, p = o + k * step.
Proof.
  intros placed es o step Hs. cbn zeta.
  destruct (search_steps (S (length placed * length es)) placed es o step) as (k & Hk & E & Hb & Ha).
  split; [|exists k; exact E]. rewrite E. apply Ha.
  enough (k <= length (excluded placed es)) by (rewrite excluded_length, Nat.mul_comm in H; lia).
  replace k with (length (map (fun j => o + j * step) (seq 0 k))) by (rewrite map_length, seq_length; reflexivity).
  apply NoDup_incl_length.
  - apply FinFun.Injective_map_NoDup; [|apply seq_NoDup]. intros i j Hij. nia.
  - intros p Hp. apply in_map_iff in Hp. destruct Hp as (j & <- & Hj). apply in_seq in Hj.
    apply conflict_excluded. apply Hb. lia.
Qed.

Lemma round_up_divide : forall n a, Nat.divide a (round_up n a).
Proof. intros n a. exists ((n + (a - 1)) / a). reflexivity. Qed.

Lemma place_free : forall f l, 1 <= l_align l ->
  conflict (f_empties f) (l_empties l) (itanium_place f l) = false
  /\ f_data f <= itanium_place f l /\ Nat.divide (l_align l) (itanium_place f l).
Proof.
  intros f l Hl. split; [|split].
  - apply search_free. exact Hl.
  - apply place_ge. exact Hl.
  - unfold itanium_place.
    destruct (search_free (f_empties f) (l_empties l) (round_up (f_data f) (l_align l)) (l_align l) Hl) as [_ [k ->]].
    apply Nat.divide_add_r; [apply round_up_divide|]. exists k. reflexivity.
Qed.

(** ** Parts *)

Section Parts.
  Variable ptr : nat.
  Hypothesis Hptr : power2 ptr.

  Fixpoint parts_all (a : abi) (cs : list class) (ps : list nat) (o : nat) : list (class * nat) :=
    match cs, ps with
    | d :: cs', p :: ps' => parts a ptr d (o + p) ++ parts_all a cs' ps' o
    | _, _ => []
    end.

  Lemma parts_class : forall a n v bs ms o, parts a ptr (Class n v bs ms) o
    = (Class n v bs ms, o)
      :: parts_all a bs (l_bases (lay_out a ptr (Class n v bs ms))) o
      ++ parts_all a ms (l_members (lay_out a ptr (Class n v bs ms))) o.
  Proof.
    intros a n v bs ms o.
    assert (G : forall cs ps,
      (fix go (cs : list class) (ps : list nat) : list (class * nat) :=
         match cs, ps with
         | d :: cs', p :: ps' => parts a ptr d (o + p) ++ go cs' ps'
         | _, _ => []
         end) cs ps = parts_all a cs ps o).
    { induction cs as [|d cs IH]; intros [|p ps]; cbn [parts_all]; auto. rewrite <- IH. reflexivity. }
    rewrite <- !G. reflexivity.
  Qed.

  Definition moved (o : nat) (part : class * nat) : class * nat := (fst part, snd part + o).

  Lemma parts_all_moved : forall a cs, Forall (fun d => forall o q, parts a ptr d (q + o) = map (moved o) (parts a ptr d q)) cs ->
    forall ps o q, parts_all a cs ps (q + o) = map (moved o) (parts_all a cs ps q).
  Proof.
    intros a cs H. induction H as [|d cs Hd H IH]; intros [|p ps] o q; cbn [parts_all]; auto.
    rewrite map_app, <- IH, <- Hd. do 2 f_equal. lia.
  Qed.

  Lemma parts_moved : forall a c o q, parts a ptr c (q + o) = map (moved o) (parts a ptr c q).
  Proof.
    intros a. induction c using class_ind_nested; intros o q; [reflexivity|].
    rewrite !parts_class. cbn [map]. rewrite map_app, <- !parts_all_moved by auto. reflexivity.
  Qed.

  Lemma parts_at : forall a c o, parts a ptr c o = map (moved o) (parts a ptr c 0).
  Proof. intros a c o. rewrite <- parts_moved. reflexivity. Qed.

  Lemma parts_head : forall a c o, exists r, parts a ptr c o = (c, o) :: r.
  Proof. intros a [] o; eexists; reflexivity. Qed.

  Definition owners (x : nat) (S : list (class * nat)) : nat := length (filter (owns ptr x) S).

  Lemma owners_app : forall x S T, owners x (S ++ T) = owners x S + owners x T.
  Proof. intros. unfold owners. rewrite filter_app, app_length. reflexivity. Qed.

  Lemma owners_perm : forall x S T, Permutation S T -> owners x S = owners x T.
  Proof.
    intros x S T H. unfold owners. induction H; cbn; auto.
    - destruct (owns ptr x x0); cbn; congruence.
    - destruct (owns ptr x x0), (owns ptr x y); reflexivity.
    - congruence.
  Qed.

  Lemma owners_moved : forall x o S, owners x (map (moved o) S) = if o <=? x then owners (x - o) S else 0.
  Proof.
    intros x o S. unfold owners. induction S as [|[c q] S IH]; [destruct (o <=? x); reflexivity|]. cbn [map filter].
    assert (E : owns ptr x (moved o (c, q)) = if o <=? x then owns ptr (x - o) (c, q) else false).
    { unfold owns, moved. cbn [fst snd].
      destruct (Nat.leb_spec o x).
      - f_equal; apply eq_true_iff_eq; rewrite ?Nat.leb_le, ?Nat.ltb_lt; lia.
      - rewrite (proj2 (Nat.leb_gt (q + o) x)) by lia. reflexivity. }
    rewrite E. destruct (o <=? x); [|exact IH]. destruct (owns ptr (x - o) (c, q)); cbn [length]; rewrite IH; reflexivity.
  Qed.

  (** The empty classes among the parts. *)
  Definition name_of (c : class) : id := match c with Plain _ _ => Other 0 | Class n _ _ _ => n end.
  Definition empty_parts (S : list (class * nat)) : list (id * nat) :=
    map (fun part => (name_of (fst part), snd part)) (filter (fun part => is_empty (fst part)) S).

  Lemma empty_parts_app : forall S T, empty_parts (S ++ T) = empty_parts S ++ empty_parts T.
  Proof. intros. unfold empty_parts. rewrite filter_app, map_app. reflexivity. Qed.

  Lemma empty_parts_moved : forall o S, empty_parts (map (moved o) S) = shift o (empty_parts S).
  Proof.
    intros o S. unfold empty_parts, shift. induction S as [|[c q] S IH]; [reflexivity|]. cbn [map filter moved fst].
    destruct (is_empty c); cbn [map fst snd]; rewrite IH; reflexivity.
  Qed.

  Lemma empty_parts_perm : forall S T, Permutation S T -> Permutation (empty_parts S) (empty_parts T).
  Proof.
    intros S T H. unfold empty_parts. apply Permutation_map. induction H; cbn.
    - constructor.
    - destruct (is_empty (fst x)); auto.
    - destruct (is_empty (fst x)), (is_empty (fst y)); auto. apply perm_swap.
    - eapply perm_trans; eauto.
  Qed.

  Definition aligned (part : class * nat) : Prop := Nat.divide (align_of ptr (fst part)) (snd part).
  Definition within (n : nat) (part : class * nat) : Prop := snd part + Nat.max 1 (own ptr (fst part)) <= n.

  (** ** Objects under construction *)

  (** [v]: size of the pointer to virtual functions put at 0, if any. *)
  Record inv (v : nat) (f : frame) (S : list (class * nat)) : Prop := {
    i_bytes : forall x, owners x S + (if x <? v then 1 else 0) <= if x <? f_data f then 1 else 0;
    i_empties : Permutation (empty_parts S) (f_empties f);
    i_distinct : NoDup (f_empties f);
    i_aligned : Forall aligned S;
    i_power : power2 (f_align f);
    i_divides : Forall (fun part => Nat.divide (align_of ptr (fst part)) (f_align f)) S;
    i_within : Forall (within (f_size f)) S;
    i_data : f_data f <= f_size f
  }.

  Lemma inv_perm : forall v f S T, Permutation S T -> inv v f S -> inv v f T.
  Proof.
    intros v f S T H [I1 I2 I3 I4 I5 I6 I7 I8]. constructor; auto.
    - intros x. rewrite <- (owners_perm x S T H). apply I1.
    - eapply perm_trans; [apply Permutation_sym, empty_parts_perm; exact H|exact I2].
    - eapply Permutation_Forall; eauto.
    - eapply Permutation_Forall; eauto.
    - eapply Permutation_Forall; eauto.
  Qed.

  (** What is known of the layout of a class: [extent] is what is reserved for it
      as a base. *)
  Definition extent (l : layout) : nat := if l_empty l then l_size l else l_data l.
  Record good (c : class) : Prop := {
    g_bytes : forall x, owners x (parts Itanium ptr c 0) <= if x <? l_data (lay_out Itanium ptr c) then 1 else 0;
    g_empties : Permutation (empty_parts (parts Itanium ptr c 0)) (l_empties (lay_out Itanium ptr c));
    g_distinct : NoDup (l_empties (lay_out Itanium ptr c));
    g_aligned : Forall aligned (parts Itanium ptr c 0);
    g_align : l_align (lay_out Itanium ptr c) = align_of ptr c;
    g_power : power2 (align_of ptr c);
    g_divides : Forall (fun part => Nat.divide (align_of ptr (fst part)) (align_of ptr c)) (parts Itanium ptr c 0);
    g_within : Forall (within (extent (lay_out Itanium ptr c))) (parts Itanium ptr c 0);
    g_extent : l_data (lay_out Itanium ptr c) <= extent (lay_out Itanium ptr c) <= l_size (lay_out Itanium ptr c);
    g_nodata : l_empty (lay_out Itanium ptr c) = true -> l_data (lay_out Itanium ptr c) = 0;
    g_size : Nat.divide (align_of ptr c) (l_size (lay_out Itanium ptr c))
  }.

  Lemma NoDup_append : forall (A : Type) (l l' : list A), NoDup l -> NoDup l' -> (forall x, In x l -> ~ In x l') -> NoDup (l ++ l').
  Proof.
    intros A l l' H. induction H as [|x l Hx H IH]; intros H' Hd; cbn; auto. constructor.
    - intros Hin. apply in_app_or in Hin. destruct Hin; [contradiction|]. apply (Hd x); [left|]; auto.
    - apply IH; auto. intros y Hy. apply Hd. right. exact Hy.
  Qed.

  Lemma inv_put : forall v f S c o size data, good c -> inv v f S ->
    let l := lay_out Itanium ptr c in
    conflict (f_empties f) (l_empties l) o = false -> Nat.divide (l_align l) o ->
    (l_data l = 0 \/ (f_data f <= o /\ o + l_data l <= data)) -> f_data f <= data -> data <= Nat.max (f_size f) size ->
    o + extent l <= size ->
    inv v (put_at o size data l f) (S ++ parts Itanium ptr c o).
  Proof.
    intros v f S c o size data G I l Hc Ha Hd D1 D3 Hs.
    destruct G as [G1 G2 G3 G4 G5 G6 G7 G8 G9 G10 G11]. destruct I as [I1 I2 I3 I4 I5 I6 I7 I8]. fold l in G1, G2, G3, G5, G8, G9.
    constructor; cbn [f_data f_empties f_align f_size put_at].
    - intros x. rewrite owners_app, (parts_at Itanium c o), owners_moved. specialize (I1 x). specialize (G1 (x - o)).
      destruct (Nat.leb_spec o x).
      + destruct (Nat.ltb_spec (x - o) (l_data l)).
        * destruct (Nat.ltb_spec x (f_data f)); [destruct Hd; lia|]. destruct (Nat.ltb_spec x data); lia.
        * destruct (Nat.ltb_spec x (f_data f)); destruct (Nat.ltb_spec x data); lia.
      + destruct (Nat.ltb_spec x (f_data f)); destruct (Nat.ltb_spec x data); lia.
    - rewrite empty_parts_app, (parts_at Itanium c o), empty_parts_moved. apply Permutation_app; auto.
      unfold shift. apply Permutation_map. exact G2.
    - apply NoDup_append; auto.
      + unfold shift. apply FinFun.Injective_map_NoDup; auto. intros [i a] [j b]. cbn. intros E. injection E as -> E.
        f_equal. lia.
      + intros [i a] H1 H2. unfold shift in H2. apply in_map_iff in H2. destruct H2 as ([j b] & E & H2). cbn in E.
        injection E as -> <-. assert (conflict (f_empties f) (l_empties l) o = true); [|congruence].
        apply conflict_spec. exists i, b. auto.
    - apply Forall_app. split; auto. rewrite (parts_at Itanium c o). apply Forall_map. rewrite Forall_forall in *. intros p Hp.
      unfold aligned, moved. cbn [fst snd]. apply Nat.divide_add_r; [apply (G4 p Hp)|].
      apply Nat.divide_trans with (align_of ptr c); [apply (G7 p Hp)|]. rewrite <- G5. exact Ha.
    - apply power2_max; auto. rewrite G5. exact G6.
    - assert (P2 : power2 (l_align l)) by (rewrite G5; exact G6). apply Forall_app. split.
      + rewrite Forall_forall in *. intros p Hp. apply Nat.divide_trans with (f_align f); auto.
        apply power2_divide; auto; [apply power2_max; auto|lia].
      + rewrite (parts_at Itanium c o). apply Forall_map. rewrite Forall_forall in *. intros p Hp. cbn [fst moved].
        apply Nat.divide_trans with (align_of ptr c); auto. rewrite <- G5. apply power2_divide; auto; [apply power2_max; auto|lia].
    - apply Forall_app. split.
      + rewrite Forall_forall in *. intros p Hp. specialize (I7 p Hp). unfold within in *. lia.
      + rewrite (parts_at Itanium c o). apply Forall_map. rewrite Forall_forall in *. intros p Hp. specialize (G8 p Hp).
        unfold within, moved in *. cbn [fst snd]. lia.
    - exact D3.
  Qed.

  Lemma inv_base : forall v f S c, good c -> inv v f S ->
    let l := lay_out Itanium ptr c in
    inv v (snd (itanium_base f l)) (S ++ parts Itanium ptr c (fst (itanium_base f l))).
  Proof.
    intros v f S c G I l. assert (Ha : 1 <= l_align l) by (unfold l; rewrite g_align; auto; apply power2_pos, g_power; auto).
    destruct (place_free f l Ha) as (P1 & P2 & P3). pose proof (g_extent c G) as X. pose proof (g_nodata c G) as N.
    pose proof (i_data _ _ _ I) as Q. fold l in X, N. unfold itanium_base. unfold extent in X. destruct (l_empty l) eqn:E.
    - specialize (N eq_refl). cbn [fst snd]. destruct (conflict (f_empties f) (l_empties l) 0) eqn:C; cbn [fst snd].
      + apply inv_put; fold l; auto; try lia. unfold extent. rewrite E. lia.
      + apply inv_put; fold l; auto; try lia; [apply Nat.divide_0_r|]. unfold extent. rewrite E. lia.
    - cbn [fst snd]. apply inv_put; fold l; auto; try lia. unfold extent. rewrite E. lia.
  Qed.

  Lemma inv_bases : forall cs, Forall good cs -> forall (primary : bool) v f S (T : list (class * nat)),
    (if primary then exists b, find polymorphic cs = Some b /\ T = parts Itanium ptr b 0 else T = []) ->
    inv v f (T ++ S) ->
    let r := itanium_bases primary f (map (lay_out Itanium ptr) cs) in
    inv v (snd r) (S ++ parts_all Itanium cs (fst r) 0).
  Proof.
    intros cs H. induction H as [|c cs G H IH]; intros primary v f S T Hp I; cbn zeta.
    - destruct primary; [destruct Hp as (b & Hb & _); discriminate|]. subst T. cbn. rewrite app_nil_r. exact I.
    - cbn [map itanium_bases]. rewrite layout_dynamic. destruct primary; cbn [andb].
      + destruct Hp as (b & Hb & ->). cbn [find] in Hb. destruct (polymorphic c).
        * injection Hb as <-. specialize (IH false v f (parts Itanium ptr c 0 ++ S) [] eq_refl I). cbn zeta in IH.
          destruct (itanium_bases false f _) as [os f']. cbn [fst snd parts_all] in *. cbn [Nat.add].
          eapply inv_perm; [|exact IH]. rewrite !app_assoc. apply Permutation_app_tail, Permutation_app_comm.
        * pose proof (inv_base v f _ c G I) as J. cbn zeta in J. destruct (itanium_base f (lay_out Itanium ptr c)) as [o f1].
          cbn [fst snd] in J. rewrite <- app_assoc in J.
          specialize (IH true v f1 (S ++ parts Itanium ptr c o) (parts Itanium ptr b 0) (ex_intro _ b (conj Hb eq_refl)) J). cbn zeta in IH.
          destruct (itanium_bases true f1 _) as [os f']. cbn [fst snd parts_all] in *. cbn [Nat.add]. rewrite app_assoc. exact IH.
      + subst T. pose proof (inv_base v f _ c G I) as J. cbn zeta in J. destruct (itanium_base f (lay_out Itanium ptr c)) as [o f1].
        cbn [fst snd app] in J.
        specialize (IH false v f1 (S ++ parts Itanium ptr c o) [] eq_refl J). cbn zeta in IH.
        destruct (itanium_bases false f1 _) as [os f']. cbn [fst snd parts_all] in *. cbn [Nat.add]. rewrite app_assoc. exact IH.
  Qed.

  Lemma inv_members : forall cs, Forall good cs -> forall v f S, inv v f S ->
    let r := itanium_members f (map (lay_out Itanium ptr) cs) in
    inv v (snd r) (S ++ parts_all Itanium cs (fst r) 0).
  Proof.
    intros cs H. induction H as [|c cs G H IH]; intros v f S I; cbn zeta.
    - cbn. rewrite app_nil_r. exact I.
    - cbn [map itanium_members]. set (l := lay_out Itanium ptr c). set (o := itanium_place f l).
      assert (Ha : 1 <= l_align l) by (unfold l; rewrite g_align; auto; apply power2_pos, g_power; auto).
      destruct (place_free f l Ha) as (P1 & P2 & P3). fold o in P1, P2, P3. pose proof (g_extent c G) as X. fold l in X.
      assert (J : inv v (put_at o (o + l_size l) (o + l_size l) l f) (S ++ parts Itanium ptr c o)).
      { apply inv_put; fold l; auto; lia. }
      specialize (IH v _ _ J). cbn zeta in IH. destruct (itanium_members _ _) as [os f'].
      cbn [fst snd parts_all] in *. cbn [Nat.add]. rewrite app_assoc. exact IH.
  Qed.

  (** ** Alignments *)

  Lemma bases_aligns : forall ls primary f,
    (primary = true -> forall l, find l_dynamic ls = Some l -> l_align l <= f_align f) ->
    f_align (snd (itanium_bases primary f ls)) = fold_right Nat.max (f_align f) (map l_align ls).
  Proof.
    assert (M : forall l m n, fold_right Nat.max (Nat.max m n) l = Nat.max n (fold_right Nat.max m l)).
    { induction l as [|a l IH]; intros m n; cbn; [lia|]. rewrite IH. lia. }
    assert (GE : forall l m, m <= fold_right Nat.max m l) by (induction l as [|a l IH]; intros m; cbn; [lia|specialize (IH m); lia]).
    induction ls as [|l ls IH]; intros primary f Hp; [reflexivity|]. cbn [itanium_bases map fold_right].
    destruct (primary && l_dynamic l) eqn:E.
    - apply andb_prop in E. destruct E as [-> E]. specialize (Hp eq_refl l). cbn [find] in Hp. rewrite E in Hp. specialize (Hp eq_refl).
      specialize (IH false f ltac:(discriminate)). destruct (itanium_bases false f ls). cbn [snd] in *.
      specialize (GE (map l_align ls) (f_align f)). lia.
    - assert (A : f_align (snd (itanium_base f l)) = Nat.max (f_align f) (l_align l))
        by (unfold itanium_base; destruct (l_empty l); reflexivity).
      destruct (itanium_base f l) as [o f1]. cbn [snd] in A. specialize (IH primary f1). 
      rewrite A, M in IH. destruct (itanium_bases primary f1 ls). cbn [snd] in *. apply IH.
      intros -> k Hk. specialize (Hp eq_refl k). cbn [find andb] in *. rewrite E in Hp. specialize (Hp Hk). lia.
  Qed.

  Lemma members_aligns : forall ls f,
    f_align (snd (itanium_members f ls)) = fold_right Nat.max (f_align f) (map l_align ls).
  Proof.
    assert (M : forall l m n, fold_right Nat.max (Nat.max m n) l = Nat.max n (fold_right Nat.max m l)).
    { induction l as [|a l IH]; intros m n; cbn; [lia|]. rewrite IH. lia. }
    induction ls as [|l ls IH]; intros f; [reflexivity|]. cbn [itanium_members map fold_right]. set (o := itanium_place f l).
    specialize (IH (put_at o (o + l_size l) (o + l_size l) l f)). destruct (itanium_members _ ls).
    cbn [snd f_align put_at] in *. rewrite M in IH. exact IH.
  Qed.

  Lemma max_absorbed : forall l a m, In a l -> fold_right Nat.max (Nat.max m a) l = fold_right Nat.max m l.
  Proof.
    assert (M : forall l m n, fold_right Nat.max (Nat.max m n) l = Nat.max n (fold_right Nat.max m l)).
    { induction l as [|a l IH]; intros m n; cbn; [lia|]. rewrite IH. lia. }
    intros l a m H. rewrite M. induction l as [|b l IH]; [contradiction|]. cbn. destruct H as [->|H]; [|specialize (IH H)]; lia.
  Qed.

  (** ** Any class *)

  Lemma parts_all_forall : forall a (P : class * nat -> Prop) cs ps o, (forall d q, In d cs -> Forall P (parts a ptr d q)) ->
    Forall P (parts_all a cs ps o).
  Proof.
    intros a P cs. induction cs as [|d cs IH]; intros ps o H; [constructor|]. destruct ps as [|p ps]; [constructor|].
    cbn [parts_all]. apply Forall_app. split; [apply H; left; reflexivity|]. apply IH. intros e q He. apply H. right. exact He.
  Qed.

  Lemma empty_owns : forall c, is_empty c = true -> forall o, Forall (fun part => own ptr (fst part) = 0) (parts Itanium ptr c o).
  Proof.
    induction c using class_ind_nested; [discriminate|]. intros He o. rewrite parts_class. cbn [is_empty] in He.
    rewrite !andb_true_iff in He. destruct He as [[Hv Hb] Hm]. destruct ms; [|discriminate]. destruct v; [discriminate|].
    constructor; [reflexivity|]. rewrite app_nil_r. apply parts_all_forall. intros d q Hd.
    rewrite Forall_forall in H. rewrite forallb_forall in Hb. apply H; auto.
  Qed.

  Lemma empty_owners : forall c o x, is_empty c = true -> owners x (parts Itanium ptr c o) = 0.
  Proof.
    intros c o x H. unfold owners. pose proof (empty_owns c H o) as F. induction F as [|[d q] S Hd F IH]; [reflexivity|].
    cbn [filter]. unfold owns at 1. cbn [fst snd] in *. rewrite Hd, Nat.add_0_r.
    destruct (Nat.leb_spec q x), (Nat.ltb_spec x q); cbn; auto; lia.
  Qed.

  Lemma empty_names : forall c o, Forall (fun part => is_empty (fst part) = true -> In (name_of (fst part)) (empties_of c)) (parts Itanium ptr c o).
  Proof.
    induction c using class_ind_nested; intros o.
    - constructor; [discriminate|constructor].
    - rewrite parts_class. constructor.
      + cbn [fst name_of]. intros He. cbn [empties_of]. rewrite He. left. reflexivity.
      + rewrite Forall_forall in H, H0. apply Forall_app. split; apply parts_all_forall; intros d q Hd.
        * eapply Forall_impl; [|apply (H d Hd)]. cbn beta. intros p Hp He. cbn [empties_of]. apply in_or_app. right.
          apply in_or_app. left. apply in_flat_map. exists d. auto.
        * eapply Forall_impl; [|apply (H0 d Hd)]. cbn beta. intros p Hp He. cbn [empties_of]. apply in_or_app. right.
          apply in_or_app. right. apply in_flat_map. exists d. auto.
  Qed.

  Lemma find_dynamic : forall bs, find l_dynamic (map (lay_out Itanium ptr) bs)
    = match find polymorphic bs with Some b => Some (lay_out Itanium ptr b) | None => None end.
  Proof.
    induction bs as [|b bs IH]; [reflexivity|]. cbn [map find]. rewrite layout_dynamic. destruct (polymorphic b); auto.
  Qed.

  Lemma find_polymorphic : forall bs, existsb polymorphic bs = match find polymorphic bs with Some _ => true | None => false end.
  Proof. induction bs as [|b bs IH]; [reflexivity|]. cbn. destruct (polymorphic b); auto. Qed.

  Lemma inv_start : forall v bs, Forall good bs ->
    exists T, (if existsb polymorphic bs then exists b, find polymorphic bs = Some b /\ T = parts Itanium ptr b 0 else T = [])
    /\ inv (if v && negb (existsb polymorphic bs) then ptr else 0)
         (itanium_start ptr (v || existsb polymorphic bs) (map (lay_out Itanium ptr) bs)) (T ++ []).
  Proof.
    intros v bs H. unfold itanium_start. rewrite find_dynamic, find_polymorphic.
    assert (E0 : inv 0 (mk_frame 0 0 1 [] false) []).
    { constructor; cbn; auto; try constructor. exists 0. reflexivity. }
    destruct (find polymorphic bs) as [b|] eqn:F.
    - exists (parts Itanium ptr b 0). split; [eauto|]. rewrite andb_false_r, app_nil_r.
      apply find_some in F. destruct F as [F1 F2]. rewrite Forall_forall in H. pose proof (H b F1) as G.
      pose proof (inv_put 0 _ [] b 0 (l_data (lay_out Itanium ptr b)) (l_data (lay_out Itanium ptr b)) G E0) as P.
      cbn zeta in P. cbn [f_data f_size f_empties app] in P. apply P; try lia.
      + unfold conflict. destruct (existsb _ _) eqn:X; auto. apply existsb_exists in X. destruct X as (e & _ & X). discriminate X.
      + apply Nat.divide_0_r.
      + unfold extent. rewrite layout_empty. destruct (is_empty b) eqn:Eb; [|lia].
        apply is_empty_polymorphic in Eb. congruence.
    - exists []. split; [reflexivity|]. cbn [app negb]. rewrite andb_true_r, orb_false_r. destruct v; [|exact E0].
      constructor; cbn; auto; try constructor.
  Qed.

  Lemma bases_none : forall primary f, itanium_bases primary f [] = ([], f).
  Proof. reflexivity. Qed.

  Lemma parts_all_nil : forall cs ps o, length ps = length cs -> parts_all Itanium cs ps o = [] -> cs = [].
  Proof.
    intros [|c cs] [|p ps] o H E; try discriminate; auto. cbn [parts_all] in E. destruct (parts_head Itanium c (o + p)) as [r Hr].
    rewrite Hr in E. discriminate.
  Qed.

  Lemma members_length : forall ls f, length (fst (itanium_members f ls)) = length ls.
  Proof.
    induction ls as [|l ls IH]; intros f; [reflexivity|]. cbn [itanium_members]. set (o := itanium_place f l).
    specialize (IH (put_at o (o + l_size l) (o + l_size l) l f)). destruct (itanium_members _ ls). cbn in *. congruence.
  Qed.

  Lemma aligns : forall cs, Forall good cs -> map l_align (map (lay_out Itanium ptr) cs) = map (align_of ptr) cs.
  Proof. intros cs H. induction H as [|c cs G H IH]; [reflexivity|]. cbn [map]. rewrite IH, (g_align c G). reflexivity. Qed.

  Lemma all_good : forall c, regular c -> good c.
  Proof.
    induction c using class_ind_nested; intros Rc; pose proof Rc as R.
    - destruct R as (Hs & Ha & Hd). assert (P : parts Itanium ptr (Plain s a) 0 = [(Plain s a, 0)]) by reflexivity.
      constructor; rewrite ?P; cbn [lay_out l_data l_empties l_align l_size l_empty]; auto; try discriminate.
      + intros x. unfold owners, owns. cbn [filter fst snd own]. rewrite Nat.add_0_l. destruct (x <? s); cbn; lia.
      + constructor.
      + constructor; [apply Nat.divide_0_r|constructor].
      + constructor; [apply Nat.divide_refl|constructor].
      + constructor; [|constructor]. unfold within, extent. cbn [fst snd own lay_out l_empty l_data]. lia.
    - destruct R as (Hn & Hb & Hm). rewrite regular_all in Hb, Hm.
      assert (Gb : Forall good bs) by (rewrite Forall_forall in *; auto).
      assert (Gm : Forall good ms) by (rewrite Forall_forall in *; auto). clear H H0.
      destruct (inv_start v bs Gb) as (T & HT & I0).
      pose proof (inv_bases bs Gb _ _ _ _ _ HT I0) as I1. cbn zeta in I1. cbn [app] in I1.
      set (c := Class n v bs ms). pose proof (layout_empty Itanium ptr c) as Le.
      pose proof (parts_class Itanium n v bs ms 0) as Pc. fold c in Pc.
      set (f0 := itanium_start ptr (v || existsb polymorphic bs) (map (lay_out Itanium ptr) bs)) in *.
      assert (A0 : fold_right Nat.max (f_align f0) (map (align_of ptr) bs)
                   = fold_right Nat.max (if v && negb (existsb polymorphic bs) then ptr else 1) (map (align_of ptr) bs)).
      { unfold f0, itanium_start. rewrite find_dynamic, find_polymorphic. destruct (find polymorphic bs) as [b|] eqn:F.
        - rewrite andb_false_r. cbn [f_align put_at]. apply find_some in F. destruct F as [F1 _].
          rewrite (g_align b) by (rewrite Forall_forall in Gb; auto). apply max_absorbed. apply in_map. exact F1.
        - rewrite orb_false_r, andb_true_r. destruct v; reflexivity. }
      assert (A1 : f_align (snd (itanium_bases (existsb polymorphic bs) f0 (map (lay_out Itanium ptr) bs)))
                   = fold_right Nat.max (if v && negb (existsb polymorphic bs) then ptr else 1) (map (align_of ptr) bs)).
      { rewrite bases_aligns, aligns by
          (auto; intros _ l Hl; unfold f0, itanium_start; rewrite Hl; cbn [f_align put_at]; lia). exact A0. }
      pose proof (bases_length (map (lay_out Itanium ptr) bs) (existsb polymorphic bs) f0) as Lb. rewrite map_length in Lb.
      assert (Lay : lay_out Itanium ptr c = layout_class Itanium ptr n v (map (lay_out Itanium ptr) bs) (map (lay_out Itanium ptr) ms)) by reflexivity.
      unfold layout_class in Lay. rewrite existsb_dynamic in Lay. fold f0 in Lay.
      destruct (itanium_bases (existsb polymorphic bs) f0 (map (lay_out Itanium ptr) bs)) as [os f1]. cbn [fst snd] in *.
      pose proof (inv_members ms Gm _ _ _ I1) as I2. cbn zeta in I2.
      pose proof (members_aligns (map (lay_out Itanium ptr) ms) f1) as A2. rewrite aligns, A1 in A2 by auto.
      change (f_align (snd (itanium_members f1 (map (lay_out Itanium ptr) ms))) = align_of ptr c) in A2.
      pose proof (members_length (map (lay_out Itanium ptr) ms) f1) as Lm. rewrite map_length in Lm.
      destruct (itanium_members f1 (map (lay_out Itanium ptr) ms)) as [ps f2]. cbn [fst snd] in *.
      set (empty := _ && _) in Lay.
      assert (Ee : empty = is_empty c) by (rewrite <- Le, Lay; reflexivity). clearbody empty. subst empty.
      rewrite Lay in Pc. cbn [l_bases l_members] in Pc.
      set (S := parts_all Itanium bs os 0 ++ parts_all Itanium ms ps 0) in *.
      destruct I2 as [J1 J2 J3 J4 J5 J6 J7 J8].
      assert (Ru : f_size f2 <= round_up (f_size f2) (f_align f2)) by (apply round_up_ge, power2_pos; auto).
      assert (Oc : forall x, owns ptr x (c, 0) = (x <? if v && negb (existsb polymorphic bs) then ptr else 0)) by reflexivity.
      assert (Zd : is_empty c = true -> (if v && negb (existsb polymorphic bs) then ptr else 0) = 0).
      { intros He. pose proof (empty_owns c He 0) as F. rewrite Pc in F. inversion F; auto. }
      constructor; rewrite ?Pc, ?Lay; cbn [l_data l_empties l_align l_size l_empty].
      + intros x. destruct (is_empty c) eqn:He.
        * rewrite <- Pc, empty_owners by auto. lia.
        * specialize (J1 x). unfold owners in *. cbn [filter]. rewrite Oc.
          destruct (x <? if v && negb (existsb polymorphic bs) then ptr else 0); cbn [length];
            destruct (Nat.ltb_spec x (f_data f2)), (Nat.ltb_spec x (f_size f2)); lia.
      + unfold empty_parts. cbn [filter fst]. destruct (is_empty c); cbn [map app]; [constructor|]; exact J2.
      + destruct (is_empty c) eqn:He; [|exact J3]. cbn [app]. constructor; [|exact J3]. intros Hin.
        apply (Permutation_in _ (Permutation_sym J2)) in Hin. unfold empty_parts in Hin. apply in_map_iff in Hin.
        destruct Hin as (part & E & Hin). apply filter_In in Hin. destruct Hin as [Hin Hp].
        assert (ms = []) as -> by (cbn in He; destruct ms; [reflexivity|rewrite andb_false_r in He; discriminate]).
        unfold S in Hin. cbn [parts_all] in Hin. rewrite app_nil_r in Hin. apply Hn.
        assert (F : Forall (fun part => is_empty (fst part) = true -> In (name_of (fst part)) (flat_map empties_of bs)) (parts_all Itanium bs os 0)).
        { apply parts_all_forall. intros d q Hd. eapply Forall_impl; [|apply empty_names]. cbn beta. intros p H He'.
          apply in_flat_map. exists d. auto. }
        rewrite Forall_forall in F. specialize (F part Hin Hp). injection E as E _. rewrite E in F. exact F.
      + constructor; [apply Nat.divide_0_r|exact J4].
      + exact A2.
      + rewrite <- A2. exact J5.
      + constructor; [apply Nat.divide_refl|]. rewrite <- A2. exact J6.
      + assert (X : f_size f2 <= extent (lay_out Itanium ptr c) /\ (extent (lay_out Itanium ptr c) = 0 -> f_size f2 = 0 /\ is_empty c = false)).
        { unfold extent. rewrite Lay. cbn [l_empty l_size l_data]. destruct (is_empty c); lia. }
        unfold extent in X |- *. rewrite Lay in X. cbn [l_empty l_size l_data] in *. destruct X as [X1 X2]. constructor.
        * unfold within. cbn [fst snd]. change (own ptr c) with (if v && negb (existsb polymorphic bs) then ptr else 0).
          destruct (is_empty c) eqn:He.
          -- rewrite Zd by auto. lia.
          -- pose proof (layout_sound ptr c (power2_pos ptr Hptr) (regular_wf c Rc)) as (_ & _ & Sd).
             rewrite Lay in Sd. cbn [l_empty l_data] in Sd. specialize (Sd eq_refl).
             set (w := if v && negb (existsb polymorphic bs) then ptr else 0) in *.
             specialize (J1 (w - 1)). destruct (Nat.ltb_spec (w - 1) w), (Nat.ltb_spec (w - 1) (f_data f2)); lia.
        * eapply Forall_impl; [|exact J7]. unfold within. intros. lia.
      + unfold extent. cbn [l_empty l_size l_data]. destruct (is_empty c); lia.
      + intros ->. reflexivity.
      + destruct (Nat.eq_dec (f_size f2) 0) as [Z|Z].
        * assert (ES : S = []) by (destruct S as [|part S']; auto; inversion J7 as [|? ? W _]; unfold within in W; lia).
          unfold S in ES. apply app_eq_nil in ES. destruct ES as [E1 E2]. apply parts_all_nil in E1; auto. apply parts_all_nil in E2; auto.
          assert (W : (if v && negb (existsb polymorphic bs) then ptr else 0) = 0).
          { specialize (J1 0). destruct (Nat.ltb_spec 0 (f_data f2)); [lia|].
            destruct (Nat.ltb_spec 0 (if v && negb (existsb polymorphic bs) then ptr else 0)); lia. }
          subst bs ms. unfold c. cbn [align_of map fold_right existsb negb] in *. pose proof (power2_pos ptr Hptr).
          destruct v; cbn [andb] in *; [lia|]. apply Nat.divide_1_l.
        * rewrite Nat.max_r by lia. rewrite <- A2. apply round_up_divide.
  Qed.
End Parts.

(** ** Theorems *)

(** Each byte of an object belongs to one of its parts at most, and the bytes
    which belong to a part are inside the object. *)
Theorem C80_bytes : forall ptr c x, power2 ptr -> regular c ->
  length (filter (owns ptr x) (parts Itanium ptr c 0)) <= if x <? size_of ptr c then 1 else 0.
Proof.
  intros ptr c x Hp R. pose proof (all_good ptr Hp c R) as G. pose proof (g_bytes ptr c G x) as B.
  pose proof (g_extent ptr c G) as E. unfold owners, size_of in *.
  destruct (Nat.ltb_spec x (l_data (lay_out Itanium ptr c))), (Nat.ltb_spec x (l_size (lay_out Itanium ptr c))); lia.
Qed.

(** Each part, even empty, is inside the object and is aligned, and the size of an
    object is a multiple of its alignment. *)
Theorem C80_aligned : forall ptr c, power2 ptr -> regular c ->
  Forall (fun part => snd part + Nat.max 1 (own ptr (fst part)) <= size_of ptr c
                      /\ Nat.divide (align_of ptr (fst part)) (snd part)) (parts Itanium ptr c 0)
  /\ Nat.divide (align_of ptr c) (size_of ptr c).
Proof.
  intros ptr c Hp R. pose proof (all_good ptr Hp c R) as G. split; [|apply (g_size ptr c G)].
  pose proof (g_within ptr c G) as W. pose proof (g_aligned ptr c G) as A. pose proof (g_extent ptr c G) as E.
  unfold size_of. rewrite Forall_forall in *. intros p Hp'. specialize (W p Hp'). specialize (A p Hp'). unfold within in W.
  split; [lia|exact A].
Qed.

Lemma NoDup_positions : forall (A B : Type) (f : A -> B) (p : A -> bool) l, NoDup (map f (filter p l)) ->
  forall i j a b, nth_error l i = Some a -> nth_error l j = Some b -> p a = true -> p b = true -> f a = f b -> i = j.
Proof.
  intros A B f p l. induction l as [|x l IH]; intros H i j a b Hi Hj Pa Pb E; [destruct i; discriminate|].
  assert (X : forall k y, nth_error l k = Some y -> p y = true -> In (f y) (map f (filter p l))).
  { intros k y Hk Py. apply in_map. apply filter_In. split; [eapply nth_error_In; eauto|exact Py]. }
  cbn [filter] in H. destruct i as [|i], j as [|j]; cbn [nth_error] in *; auto.
  - injection Hi as ->. rewrite Pa in H. cbn [map] in H. inversion H as [|? ? Hn _]; subst. rewrite E in Hn.
    exfalso. apply Hn. eapply X; eauto.
  - injection Hj as ->. rewrite Pb in H. cbn [map] in H. inversion H as [|? ? Hn _]; subst. rewrite <- E in Hn.
    exfalso. apply Hn. eapply X; eauto.
  - f_equal. apply (IH) with (a := a) (b := b); auto. destruct (p x); auto. cbn [map] in H. inversion H; auto.
Qed.

(** Two parts of an object which are of the same empty class are at different
    addresses. *)
Theorem C80_empties : forall ptr c i j n v bs n' v' bs' o, power2 ptr -> regular c ->
  nth_error (parts Itanium ptr c 0) i = Some (Class n v bs [], o) -> nth_error (parts Itanium ptr c 0) j = Some (Class n' v' bs' [], o) ->
  is_empty (Class n v bs []) = true -> is_empty (Class n' v' bs' []) = true -> n = n' -> i = j.
Proof.
  intros ptr c i j n v bs n' v' bs' o Hp R Hi Hj E E' <-. pose proof (all_good ptr Hp c R) as G.
  assert (N : NoDup (empty_parts (parts Itanium ptr c 0))).
  { eapply Permutation_NoDup; [apply Permutation_sym, (g_empties ptr c G)|apply (g_distinct ptr c G)]. }
  eapply (NoDup_positions _ _ _ _ _ N); eauto.
Qed.

(** Members one after the other, with no more padding than their alignments
    require. *)
Fixpoint packed (ptr : nat) (cs : list class) (ps : list nat) (start finish : nat) : Prop :=
  match cs, ps with
  | [], [] => finish = start
  | c :: cs', p :: ps' =>
      start <= p < start + align_of ptr c /\ Nat.divide (align_of ptr c) p
      /\ packed ptr cs' ps' (p + size_of ptr c) finish
  | _, _ => False
  end.

Lemma round_up_lt : forall n a, 1 <= a -> round_up n a < n + a.
Proof.
  intros n a Ha. unfold round_up. pose proof (Nat.div_mod (n + (a - 1)) a ltac:(lia)) as E. nia.
Qed.

Lemma members_packed : forall ptr, power2 ptr -> forall ms f, Forall regular ms ->
  (forall i c, In c ms -> In i (map fst (f_empties f)) -> ~ In i (empties_of c)) -> disjoint_bases ms ->
  let r := itanium_members f (map (lay_out Itanium ptr) ms) in
  packed ptr ms (fst r) (f_data f) (f_data (snd r))
  /\ f_size (snd r) = Nat.max (f_size f) (if ms then 0 else f_data (snd r)).
Proof.
  intros ptr Hp. induction ms as [|m ms IH]; intros f R Hf Hd; cbn zeta.
  - cbn. split; [reflexivity|lia].
  - inversion R as [|? ? Rm Rs]; subst. inversion Hd as [|? ? Hm Hs]; subst.
    pose proof (all_good ptr Hp m Rm) as G. pose proof (power2_pos _ (g_power ptr m G)) as Pa.
    assert (P : itanium_place f (lay_out Itanium ptr m) = round_up (f_data f) (align_of ptr m)).
    { unfold itanium_place. rewrite (g_align ptr m G). cbn [search]. rewrite no_conflict; [reflexivity|].
      intros i Hi Hj. apply layout_empties in Hj. apply (Hf i m); auto. left. reflexivity. }
    cbn [map itanium_members]. rewrite P. set (o := round_up (f_data f) (align_of ptr m)).
    specialize (IH (put_at o (o + l_size (lay_out Itanium ptr m)) (o + l_size (lay_out Itanium ptr m)) (lay_out Itanium ptr m) f) Rs).
    cbn zeta in IH. cbn [f_data f_size put_at] in IH. fold (put_at o (o + l_size (lay_out Itanium ptr m)) (o + l_size (lay_out Itanium ptr m)) (lay_out Itanium ptr m) f) in IH.
    destruct IH as [I1 I2].
    + intros i c Hc Hi. cbn [f_empties put_at] in Hi. rewrite map_app, shift_fst in Hi. apply in_app_or in Hi. destruct Hi as [Hi|Hi].
      * apply Hf; auto. right. exact Hc.
      * rewrite Forall_forall in Hm. apply (Hm c Hc). eapply layout_empties; eauto.
    + exact Hs.
    + destruct (itanium_members _ _) as [ps f']. cbn [fst snd packed] in *. split; [split; [|split]|].
      * split; [apply round_up_ge; auto|apply round_up_lt; auto].
      * apply round_up_divide.
      * exact I1.
      * rewrite I2. pose proof I1 as J. revert J. clear. unfold size_of. revert ps.
        set (e := o + l_size (lay_out Itanium ptr m)). clearbody e. intros ps J.
        assert (e <= f_data f').
        { revert e ps J. induction ms as [|c ms IH]; intros e [|p ps] J; cbn [packed] in J; try contradiction; [lia|].
          destruct J as (A & _ & B). apply IH in B. lia. }
        destruct ms; [|lia]. cbn [packed] in J. destruct ps; [|contradiction]. lia.
Qed.

(** The classes of the library have empty bases and members: the bases are at the
    address of the object, the members follow each other, and the size is the
    least there can be. *)
Theorem C80_packed : forall ptr n bs ms, power2 ptr -> regular (Class n false bs ms) ->
  forallb is_empty bs = true -> disjoint_bases (bs ++ ms) -> ms <> [] ->
  let c := Class n false bs ms in
  l_bases (lay_out Itanium ptr c) = repeat 0 (length bs)
  /\ exists finish, packed ptr ms (l_members (lay_out Itanium ptr c)) 0 finish
     /\ let needed := fold_right Nat.max finish (map (size_of ptr) bs) in
        needed <= size_of ptr c < needed + align_of ptr c.
Proof.
  intros ptr n bs ms Hp R He Hd Hm c. destruct R as (Hn & Rb & Rm). rewrite regular_all in Rb, Rm.
  assert (Gc : good ptr c) by (apply all_good; auto; repeat split; auto; apply regular_all; auto).
  assert (Po : existsb polymorphic bs = false).
  { clear - He. induction bs as [|b bs IH]; cbn in *; auto. apply andb_prop in He. rewrite is_empty_polymorphic, IH; tauto. }
  assert (Db : disjoint_bases bs).
  { clear - Hd. unfold disjoint_bases in *. induction bs as [|b bs IH]; [constructor|]. cbn in Hd. inversion Hd as [|? ? H1 H2]; subst.
    constructor; auto. apply Forall_app in H1. tauto. }
  assert (Dm : disjoint_bases ms).
  { clear - Hd. unfold disjoint_bases in *. induction bs as [|b bs IH]; [exact Hd|]. cbn in Hd. inversion Hd; auto. }
  set (f0 := mk_frame 0 0 1 [] false).
  assert (Hall : Forall (fun l => l_empty l = true /\ l_dynamic l = false) (map (lay_out Itanium ptr) bs)).
  { rewrite forallb_forall in He. apply Forall_forall. intros l Hl. apply in_map_iff in Hl. destruct Hl as (d & <- & Hl).
    rewrite layout_empty, layout_dynamic. split; [auto|]. apply is_empty_polymorphic. auto. }
  destruct (empty_bases (map (lay_out Itanium ptr) bs) f0 Hall (disjoint_layouts ptr bs Db)) as [E1 E2]; [intros i l _ []|].
  rewrite map_length in E1.
  assert (Sz : f_size (snd (itanium_bases false f0 (map (lay_out Itanium ptr) bs))) = fold_right Nat.max 0 (map (size_of ptr) bs)).
  { assert (Q : forall ls f, Forall (fun l => l_empty l = true /\ l_dynamic l = false) ls ->
      fst (itanium_bases false f ls) = repeat 0 (length ls) ->
      f_size (snd (itanium_bases false f ls)) = fold_right Nat.max (f_size f) (map l_size ls)).
    { assert (M : forall l m k, fold_right Nat.max (Nat.max m k) l = Nat.max k (fold_right Nat.max m l)).
      { induction l as [|a l IH]; intros m k; cbn; [lia|]. rewrite IH. lia. }
      induction ls as [|l ls IH]; intros f H0 Z; [reflexivity|]. inversion H0 as [|? ? [Hl _] Hr]; subst.
      cbn [itanium_bases andb] in *. unfold itanium_base in *. rewrite Hl in *. cbn zeta in *.
      set (o := if conflict (f_empties f) (l_empties l) 0 then itanium_place f l else 0) in *.
      specialize (IH (put_at o (o + l_size l) (f_data f) l f) Hr).
      destruct (itanium_bases false (put_at o (o + l_size l) (f_data f) l f) ls) as [os f']. cbn [fst snd length repeat map fold_right] in *.
      injection Z as Zo Zs. rewrite Zo in IH. cbn [f_size put_at Nat.add] in IH. rewrite M in IH. apply IH. exact Zs. }
    rewrite Q; auto; [|rewrite map_length; exact E1]. unfold size_of. rewrite map_map. reflexivity. }
  assert (Lay : lay_out Itanium ptr c = layout_class Itanium ptr n false (map (lay_out Itanium ptr) bs) (map (lay_out Itanium ptr) ms)) by reflexivity.
  assert (S0 : itanium_start ptr false (map (lay_out Itanium ptr) bs) = f0).
  { unfold itanium_start. rewrite find_dynamic. pose proof (find_polymorphic bs) as F. rewrite Po in F.
    destruct (find polymorphic bs); [discriminate|reflexivity]. }
  pose proof (g_align ptr c Gc) as Al.
  unfold layout_class in Lay. rewrite existsb_dynamic, Po in Lay. cbn [orb] in Lay. rewrite S0 in Lay.
  pose proof (bases_empties (map (lay_out Itanium ptr) bs) false f0) as Be.
  pose proof (members_packed ptr Hp ms (snd (itanium_bases false f0 (map (lay_out Itanium ptr) bs))) Rm) as MP. cbn zeta in MP.
  destruct (itanium_bases false f0 (map (lay_out Itanium ptr) bs)) as [os f1]. cbn [fst snd] in *.
  destruct MP as [P1 P2]; auto.
  { intros i d Hdm Hi Hj. destruct (Be i Hi) as [[]|(l & Hl & Hli)]. apply in_map_iff in Hl. destruct Hl as (b & <- & Hb).
    apply layout_empties in Hli. clear - Hd Hb Hdm Hli Hj. unfold disjoint_bases in Hd.
    induction bs as [|b' bs IH]; [contradiction|]. cbn in Hd. inversion Hd as [|? ? H1 H2]; subst. destruct Hb as [->|Hb]; auto.
    rewrite Forall_forall in H1. apply (H1 d) with (i := i); auto. apply in_or_app. right. exact Hdm. }
  destruct (itanium_members f1 (map (lay_out Itanium ptr) ms)) as [ps f2]. cbn [fst snd] in *.
  rewrite Lay in Al. cbn [l_align] in Al. unfold size_of at 2 3. rewrite Lay. cbn [l_bases l_members l_size]. split; [exact E1|].
  exists (f_data f2). rewrite E2 in P1. cbn [f_data f0] in P1. split; [exact P1|]. cbn zeta. rewrite <- Al.
  destruct ms as [|m ms]; [contradiction|]. rewrite P2, Sz.
  assert (M : forall l k, fold_right Nat.max k l = Nat.max (fold_right Nat.max 0 l) k).
  { induction l as [|a l IH]; intros k; cbn; [lia|]. rewrite IH. lia. }
  rewrite (M (map (size_of ptr) bs)). set (needed := Nat.max (fold_right Nat.max 0 (map (size_of ptr) bs)) (f_data f2)).
  assert (1 <= needed).
  { cbn [packed] in P1. destruct ps as [|p ps]; [contradiction|]. destruct P1 as (_ & _ & P1).
    inversion Rm as [|? ? R1 _]; subst. pose proof (layout_sound ptr m (power2_pos ptr Hp) (regular_wf m R1)) as (_ & L1 & _).
    assert (forall cs qs a b, packed ptr cs qs a b -> a <= b).
    { induction cs as [|d cs IH]; intros [|q qs] a b J; cbn [packed] in J; try contradiction; [lia|].
      destruct J as (A & _ & B). apply IH in B. lia. }
    apply H in P1. unfold size_of in P1. unfold needed. lia. }
  assert (1 <= f_align f2) by (rewrite Al; apply power2_pos, (g_power ptr c Gc)).
  pose proof (round_up_ge needed (f_align f2) ltac:(lia)). pose proof (round_up_lt needed (f_align f2) ltac:(lia)). lia.
Qed.

(** ** Microsoft *)

(** Neither the class nor its parts have virtual functions. *)
Fixpoint no_virtuals (c : class) : bool :=
  match c with
  | Plain _ _ => true
  | Class _ v bs ms => negb v && forallb no_virtuals bs && forallb no_virtuals ms
  end.

Section Microsoft.
  Variable ptr : nat.

  Record m_inv (f : frame) (S : list (class * nat)) : Prop := {
    mi_bytes : forall x, owners ptr x S <= if x <? f_data f then 1 else 0;
    mi_aligned : Forall (aligned ptr) S;
    mi_power : power2 (f_align f);
    mi_divides : Forall (fun part => Nat.divide (align_of ptr (fst part)) (f_align f)) S;
    mi_data : f_data f <= f_size f
  }.

  Record m_good (c : class) : Prop := {
    mg_bytes : forall x, owners ptr x (parts Microsoft ptr c 0) <= if x <? l_data (lay_out Microsoft ptr c) then 1 else 0;
    mg_aligned : Forall (aligned ptr) (parts Microsoft ptr c 0);
    mg_align : l_align (lay_out Microsoft ptr c) = align_of ptr c;
    mg_power : power2 (align_of ptr c);
    mg_divides : Forall (fun part => Nat.divide (align_of ptr (fst part)) (align_of ptr c)) (parts Microsoft ptr c 0);
    mg_data : l_data (lay_out Microsoft ptr c) <= l_size (lay_out Microsoft ptr c)
  }.

  Lemma m_put : forall f S c o size, m_good c -> m_inv f S ->
    let l := lay_out Microsoft ptr c in
    Nat.divide (l_align l) o -> f_data f <= o -> l_data l <= size ->
    m_inv (put_at o (o + size) (o + size) l f) (S ++ parts Microsoft ptr c o)
    /\ f_align (put_at o (o + size) (o + size) l f) = Nat.max (f_align f) (align_of ptr c).
  Proof.
    intros f S c o size G I l Ha Hd Hs. destruct G as [G1 G2 G3 G4 G5 G6]. destruct I as [I1 I2 I3 I4 I5].
    fold l in G1, G3. split; [|cbn [f_align put_at]; rewrite G3; reflexivity].
    constructor; cbn [f_data f_align f_size put_at].
    - intros x. rewrite owners_app, (parts_at ptr Microsoft c o), owners_moved. specialize (I1 x). specialize (G1 (x - o)).
      destruct (Nat.leb_spec o x).
      + destruct (Nat.ltb_spec x (f_data f)), (Nat.ltb_spec (x - o) (l_data l)), (Nat.ltb_spec x (o + size)); lia.
      + destruct (Nat.ltb_spec x (f_data f)), (Nat.ltb_spec x (o + size)); lia.
    - apply Forall_app. split; auto. rewrite (parts_at ptr Microsoft c o). apply Forall_map. rewrite Forall_forall in *. intros p Hp.
      unfold aligned, moved. cbn [fst snd]. apply Nat.divide_add_r; [apply (G2 p Hp)|].
      apply Nat.divide_trans with (align_of ptr c); [apply (G5 p Hp)|]. rewrite <- G3. exact Ha.
    - apply power2_max; auto. rewrite G3. exact G4.
    - assert (P2 : power2 (l_align l)) by (rewrite G3; exact G4). apply Forall_app. split.
      + rewrite Forall_forall in *. intros p Hp. apply Nat.divide_trans with (f_align f); auto.
        apply power2_divide; auto; [apply power2_max; auto|lia].
      + rewrite (parts_at ptr Microsoft c o). apply Forall_map. rewrite Forall_forall in *. intros p Hp. cbn [fst moved].
        apply Nat.divide_trans with (align_of ptr c); auto. rewrite <- G3. apply power2_divide; auto; [apply power2_max; auto|lia].
    - lia.
  Qed.

  Lemma max_comm_fold : forall l m n, fold_right Nat.max (Nat.max m n) l = Nat.max n (fold_right Nat.max m l).
  Proof. induction l as [|a l IH]; intros m n; cbn; [lia|]. rewrite IH. lia. Qed.

  Lemma m_bases : forall cs, Forall m_good cs -> forall previous f S, m_inv f S ->
    let r := microsoft_bases previous f (map (lay_out Microsoft ptr) cs) in
    m_inv (snd r) (S ++ parts_all ptr Microsoft cs (fst r) 0)
    /\ f_align (snd r) = fold_right Nat.max (f_align f) (map (align_of ptr) cs).
  Proof.
    intros cs H. induction H as [|c cs G H IH]; intros previous f S I; cbn zeta.
    - cbn. rewrite app_nil_r. auto.
    - cbn [map microsoft_bases]. unfold microsoft_base. set (l := lay_out Microsoft ptr c).
      set (o := round_up _ _).
      assert (Ha : 1 <= l_align l) by (unfold l; rewrite mg_align; auto; apply power2_pos, mg_power; auto).
      assert (Ho : f_data f <= o).
      { unfold o. eapply Nat.le_trans; [|apply round_up_ge; exact Ha]. destruct (match previous with Some _ => _ | None => _ end); lia. }
      destruct (m_put f S c o (l_data l) G I) as [J A]; auto; [apply round_up_divide|]. fold l in J, A.
      specialize (IH (Some l) _ _ J). cbn zeta in IH. rewrite A, max_comm_fold in IH.
      destruct (microsoft_bases (Some l) _ _) as [os f']. cbn [fst snd parts_all fold_right] in *. cbn [Nat.add].
      rewrite app_assoc. exact IH.
  Qed.

  Lemma m_members : forall cs, Forall m_good cs -> forall f S, m_inv f S ->
    let r := microsoft_members f (map (lay_out Microsoft ptr) cs) in
    m_inv (snd r) (S ++ parts_all ptr Microsoft cs (fst r) 0)
    /\ f_align (snd r) = fold_right Nat.max (f_align f) (map (align_of ptr) cs).
  Proof.
    intros cs H. induction H as [|c cs G H IH]; intros f S I; cbn zeta.
    - cbn. rewrite app_nil_r. auto.
    - cbn [map microsoft_members]. set (l := lay_out Microsoft ptr c). set (o := round_up _ _).
      assert (Ha : 1 <= l_align l) by (unfold l; rewrite mg_align; auto; apply power2_pos, mg_power; auto).
      assert (Ho : f_data f <= o) by (apply round_up_ge; exact Ha).
      destruct (m_put f S c o (l_size l) G I) as [J A]; auto; [apply round_up_divide|apply (mg_data c G)|]. fold l in J, A.
      specialize (IH _ _ J). cbn zeta in IH. rewrite A, max_comm_fold in IH.
      destruct (microsoft_members _ _) as [os f']. cbn [fst snd parts_all fold_right] in *. cbn [Nat.add].
      rewrite app_assoc. exact IH.
  Qed.

  Lemma m_all_good : forall c, regular c -> no_virtuals c = true -> m_good c.
  Proof.
    induction c using class_ind_nested; intros R V.
    - destruct R as (Hs & Ha & Hd). assert (P : parts Microsoft ptr (Plain s a) 0 = [(Plain s a, 0)]) by reflexivity.
      constructor; rewrite ?P; cbn [lay_out l_data l_align l_size]; auto.
      + intros x. unfold owners, owns. cbn [filter fst snd own]. rewrite Nat.add_0_l. destruct (x <? s); cbn; lia.
      + constructor; [apply Nat.divide_0_r|constructor].
      + constructor; [apply Nat.divide_refl|constructor].
    - destruct R as (_ & Hb & Hm). rewrite regular_all in Hb, Hm. cbn [no_virtuals] in V. rewrite !andb_true_iff in V.
      destruct V as [[V1 V2] V3]. destruct v; [discriminate|]. rewrite forallb_forall in V2, V3. rewrite Forall_forall in *.
      assert (Gb : Forall m_good bs) by (apply Forall_forall; intros d Hd; auto).
      assert (Gm : Forall m_good ms) by (apply Forall_forall; intros d Hd; auto). clear H H0.
      assert (I0 : m_inv (mk_frame 0 0 1 [] false) []).
      { constructor; cbn; auto. exists 0. reflexivity. }
      destruct (m_bases bs Gb None _ _ I0) as [I1 A1].
      set (c := Class n false bs ms). pose proof (parts_class ptr Microsoft n false bs ms 0) as Pc. fold c in Pc.
      assert (Lay : lay_out Microsoft ptr c = layout_class Microsoft ptr n false (map (lay_out Microsoft ptr) bs) (map (lay_out Microsoft ptr) ms)) by reflexivity.
      unfold layout_class in Lay.
      destruct (microsoft_bases None (mk_frame 0 0 1 [] false) (map (lay_out Microsoft ptr) bs)) as [os f1]. cbn [fst snd app] in *.
      destruct (m_members ms Gm _ _ I1) as [I2 A2]. rewrite A1 in A2.
      change (f_align (snd (microsoft_members f1 (map (lay_out Microsoft ptr) ms))) = align_of ptr c) in A2.
      destruct (microsoft_members f1 (map (lay_out Microsoft ptr) ms)) as [ps f2]. cbn [fst snd] in *.
      rewrite Lay in Pc. cbn [l_bases l_members] in Pc. destruct I2 as [J1 J2 J3 J4 J5].
      pose proof (power2_pos _ J3) as Ja.
      assert (Ru : f_data f2 <= round_up (f_data f2) (f_align f2)) by (apply round_up_ge; auto).
      assert (Rv : round_up (f_data f2) (f_align f2) <= round_up (f_size f2) (f_align f2)).
      { unfold round_up. apply Nat.mul_le_mono_r. apply Nat.div_le_mono; lia. }
      constructor; rewrite ?Pc, ?Lay; cbn [l_data l_align l_size].
      + intros x. specialize (J1 x). unfold owners in *. cbn [filter].
        replace (owns ptr x (c, 0)) with false by (unfold owns; cbn; destruct x; reflexivity).
        destruct (Nat.ltb_spec x (f_data f2)), (Nat.ltb_spec x (round_up (f_data f2) (f_align f2))); lia.
      + constructor; [apply Nat.divide_0_r|exact J2].
      + exact A2.
      + rewrite <- A2. exact J3.
      + constructor; [apply Nat.divide_refl|]. rewrite <- A2. exact J4.
      + lia.
  Qed.
End Microsoft.

(** With the Microsoft ABI, for classes without virtual functions.  (Empty parts may
    be at the end of the object.) *)
Theorem C80_microsoft_bytes : forall ptr c, regular c -> no_virtuals c = true ->
  (forall x, length (filter (owns ptr x) (parts Microsoft ptr c 0)) <= if x <? l_size (lay_out Microsoft ptr c) then 1 else 0)
  /\ Forall (fun part => Nat.divide (align_of ptr (fst part)) (snd part)) (parts Microsoft ptr c 0).
Proof.
  intros ptr c R V. pose proof (m_all_good ptr c R V) as G. split; [|apply (mg_aligned ptr c G)].
  intros x. pose proof (mg_bytes ptr c G x) as B. pose proof (mg_data ptr c G) as D. unfold owners in B.
  destruct (Nat.ltb_spec x (l_data (lay_out Microsoft ptr c))), (Nat.ltb_spec x (l_size (lay_out Microsoft ptr c))); lia.
Qed.

(** ** Examples *)

Lemma power2_8 : power2 8.
Proof. exists 3. reflexivity. Qed.

(** The buffered dispatcher of PropertiesLayout.v on a 64 bit host. *)
(** A key takes one byte, whatever the host: it has no members and no virtual
    functions. *)
Theorem C80_key : forall a ptr d, l_size (lay_out a ptr (key_class d)) = 1 /\ l_align (lay_out a ptr (key_class d)) = 1
  /\ l_dynamic (lay_out a ptr (key_class d)) = false.
Proof. intros [] ptr d; cbn; auto. Qed.

Example C80_parts_example :
  regular ex_buffered /\ no_virtuals ex_buffered = true
  /\ length (parts Itanium 8 ex_buffered 0) = 17
  /\ forallb is_empty [mixin (Reader 0); mixin (Writer 0); mixin (Process 0)] = true
  /\ l_members (lay_out Itanium 8 ex_buffered) = [0; 16; 24; 32; 40; 48]
  /\ l_members (lay_out Microsoft 8 ex_buffered) = [8; 24; 32; 40; 48; 56].
Proof.
  assert (P1 : power2 1) by (exists 0; reflexivity). pose proof power2_8 as P8.
  assert (D1 : Nat.divide 1 1) by (exists 1; reflexivity). assert (D8 : Nat.divide 8 8) by (exists 1; reflexivity).
  split; [|repeat split; vm_compute; reflexivity].
  cbn. intuition (try discriminate; try lia).
Qed.

(** Members without empty classes in common. *)
Example C80_packed_example :
  let c := Class (Other 0) false [mixin (Process 0)] [Plain 1 1; Plain 8 8; Plain 2 2] in
  disjoint_bases ([mixin (Process 0)] ++ [Plain 1 1; Plain 8 8; Plain 2 2])
  /\ l_members (lay_out Itanium 8 c) = [0; 8; 16] /\ size_of 8 c = 24 /\ align_of 8 c = 8.
Proof.
  cbn zeta. split; [|vm_compute; auto]. unfold disjoint_bases. cbn. repeat constructor; auto; cbn; intros ? [] [].
Qed.

(** Two parts of the same empty class: the second one is moved.  A class with
    virtual functions, whose base with virtual functions comes second. *)
Example C80_moved_example :
  let e := mixin (Other 3) in
  let c := Class (Other 0) false [Class (Other 1) false [e] []] [e; e; Plain 4 4] in
  let d := Class (Other 0) true [Class (Other 4) false [] [Plain 4 4]; Class (Other 5) true [] [Plain 4 4]] [Plain 1 1] in
  map snd (filter (fun part => id_eqb (name_of (fst part)) (Other 3)) (parts Itanium 8 c 0)) = [0; 1; 2]
  /\ map snd (parts Itanium 8 d 0) = [0; 12; 12; 0; 8; 16] /\ size_of 8 d = 24.
Proof. vm_compute. auto. Qed.

Print Assumptions C80_bytes.
Print Assumptions C80_aligned.
Print Assumptions C80_empties.
Print Assumptions C80_packed.
Print Assumptions C80_key.
Print Assumptions C80_microsoft_bytes.
