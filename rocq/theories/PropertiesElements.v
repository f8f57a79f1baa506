(** Properties C78 and C79: the types which can be put in a tuple, and those
    which a callback can take and return. *)

From Coq Require Import List Bool Arith Lia.
From Verif Require Import Base Serial Elements.
Import ListNotations.
Open Scope nat_scope.

Section ElementInd.
  Variable P : element -> Prop.
  Hypothesis Harith : forall a, P (Arith a).
  Hypothesis Hc : forall t n, P t -> P (CArray t n).
  Hypothesis Hstd : forall t n, P t -> P (StdArray t n).
  Hypothesis Hclass : forall d, P (Class d).
  Hypothesis Hext : forall t fs, P t -> Forall (fun f => P (snd f)) fs -> P (Extended t fs).

  Fixpoint element_ind_nested (t : element) : P t :=
    match t with
    | Arith a => Harith a
    | CArray u n => Hc u n (element_ind_nested u)
    | StdArray u n => Hstd u n (element_ind_nested u)
    | Class d => Hclass d
    | Extended u fs =>
        Hext u fs (element_ind_nested u)
          ((fix go (fs : list (bool * element)) : Forall (fun f => P (snd f)) fs :=
              match fs with
              | [] => Forall_nil _
              | f :: fs' => Forall_cons f (element_ind_nested (snd f)) (go fs')
              end) fs)
    end.
End ElementInd.

(** Of every field. *)
Definition each (P : element -> Prop) (fs : list (bool * element)) : Prop :=
  fold_right (fun f Q => (fst f = true /\ P (snd f)) /\ Q) True fs.

Lemma each_forall : forall P fs, each P fs <-> Forall (fun f => fst f = true /\ P (snd f)) fs.
Proof.
  intros P. induction fs as [|f fs IH]; cbn; split; intros H; auto.
  - constructor; [tauto|]. apply IH. tauto.
  - inversion H; subst. split; [auto|]. apply IH. auto.
Qed.

(** Types of C++: what an extension extends is not itself extended. *)
Fixpoint wf_element (t : element) : Prop :=
  match t with
  | Arith _ | Class _ => True
  | CArray u _ | StdArray u _ => wf_element u
  | Extended u fs =>
      match u with Extended _ _ => False | _ => wf_element u end
      /\ fold_right (fun f Q => wf_element (snd f) /\ Q) True fs
  end.

Lemma wf_fields : forall u fs, wf_element (Extended u fs) -> Forall (fun f => wf_element (snd f)) fs.
Proof.
  intros u fs [_ H]. induction fs as [|f fs IH]; cbn in H; constructor; [tauto|]. apply IH. tauto.
Qed.

Lemma forallb_fields : forall (b : element -> bool) (P : element -> Prop) (fs : list (bool * element)),
  Forall (fun f => fst f = true -> (b (snd f) = true <-> P (snd f))) fs ->
  (forallb (fun f => fst f && b (snd f)) fs = true <-> each P fs).
Proof.
  intros b P fs H. rewrite each_forall. induction H as [|f fs Hf H IH]; cbn [forallb]; [split; auto|].
  rewrite !andb_true_iff, IH. split.
  - intros [[A B] C]. constructor; auto. split; auto. apply Hf; auto.
  - intros D. inversion D as [|? ? [A B] C]; subst. repeat split; auto. apply Hf; auto.
Qed.

(** ** C78 *)

(** The types accepted by the assertion of the tuples: arithmetic types and
    arrays which have no extension, whatever their elements, and extended types
    which are neither. *)
Theorem C78_accepted : forall t, wf_element t ->
  (is_serializable t = true <->
   match t with
   | Arith _ | CArray _ _ | StdArray _ _ => True
   | Class _ => False
   | Extended u _ => exists d, u = Class d
   end).
Proof.
  intros t Hw. destruct t as [[| | |]| | |d|[[| | |]| | |d|] fs]; cbn; split; intros H; auto; try discriminate;
    try (destruct H; discriminate).
  - exists d. reflexivity.
  - cbn in Hw. tauto.
Qed.

(** The documentation (tuple.hpp 92-93): "integer types, types with user-defined
    extension and array types of any of these"; the fields of an extension are
    such types as well, and are taken by value. *)
Fixpoint documented (t : element) : Prop :=
  match t with
  | Arith _ => True
  | CArray u _ | StdArray u _ => documented u
  | Class _ => False
  | Extended u fs =>
      match u with Class _ => True | _ => False end
      /\ fold_right (fun f Q => (fst f = true /\ documented (snd f)) /\ Q) True fs
  end.

(** What the standard lookup rules leave: the elements of arrays are arithmetic
    types or arrays, whether they are extended or not. *)
Fixpoint plain_leaf (t : element) : Prop :=
  match t with
  | Arith _ => True
  | CArray u _ | StdArray u _ => plain_leaf u
  | Class _ => False
  | Extended u _ => plain_leaf u
  end.
Fixpoint standard (t : element) : Prop :=
  match t with
  | Arith _ => True
  | CArray u _ | StdArray u _ => plain_leaf u
  | Class _ => False
  | Extended u fs =>
      match u with Class _ => True | _ => False end
      /\ fold_right (fun f Q => (fst f = true /\ standard (snd f)) /\ Q) True fs
  end.

Lemma select_all : forall t, wf_element t ->
  select all_overloads t =
  match t with
  | Arith Abool | Arith (Auns _) => Some OUnsigned
  | Arith _ => Some OSigned
  | CArray _ _ | StdArray _ _ => Some OArray
  | Extended (Class _) _ => Some OUser
  | _ => None
  end.
Proof. intros t Hw. destruct t as [[| | |]| | |d|[[| | |]| | |d|] fs]; try reflexivity. cbn in Hw. tauto. Qed.

Lemma select_plain : forall t, wf_element t ->
  select [OUnsigned; OSigned; OArray] t =
  match base t with
  | Arith Abool | Arith (Auns _) => Some OUnsigned
  | Arith _ => Some OSigned
  | CArray _ _ | StdArray _ _ => Some OArray
  | _ => None
  end.
Proof. intros t Hw. destruct t as [[| | |]| | |d|[[| | |]| | |d|] fs]; try reflexivity. Qed.

Lemma declares_eq : forall t, declares t =
  is_serializable t && match t with Extended _ fs => forallb (fun f => fst f && declares (snd f)) fs | _ => true end.
Proof. destruct t; reflexivity. Qed.

Lemma is_serializable_select : forall t, is_serializable t = match select all_overloads t with Some _ => true | None => false end.
Proof. reflexivity. Qed.

Lemma documented_declares : forall t, wf_element t -> documented t -> declares t = true.
Proof.
  induction t using element_ind_nested; intros Hw Hd; try reflexivity.
  - destruct a; reflexivity.
  - contradiction.
  - destruct Hd as [Hu Hf]. destruct t; try contradiction. rewrite declares_eq, is_serializable_select, select_all by auto.
    cbn [andb]. apply (forallb_fields _ documented); auto. pose proof (wf_fields _ _ Hw) as Hwf.
    rewrite Forall_forall in *. intros f Hin _.
    assert (Hf' : Forall (fun f => fst f = true /\ documented (snd f)) fs) by (apply each_forall; exact Hf).
    rewrite Forall_forall in Hf'. split; intros; [apply Hf'; auto|]. apply H; auto.
Qed.

(** [set] and the constructors compile for the documented types exactly, if names
    are looked up at the instantiation of templates. *)
Theorem C78_set : forall t, wf_element t -> (set_compiles AtInstantiation t = true <-> documented t).
Proof.
  assert (G : forall t, wf_element t -> (write_ok AtInstantiation all_overloads t = true <-> documented t)).
  { induction t using element_ind_nested; intros Hw.
    - cbn [write_ok documented]. rewrite select_all by auto. destruct a; split; auto.
    - cbn [write_ok documented in_array]. rewrite select_all by auto. apply IHt. exact Hw.
    - cbn [write_ok documented in_array]. rewrite select_all by auto. apply IHt. exact Hw.
    - cbn. split; [discriminate|contradiction].
    - cbn [write_ok]. rewrite select_all by auto.
      assert (E : documented (Extended t fs) <-> match t with Class _ => True | _ => False end /\ each documented fs) by reflexivity.
      rewrite E. destruct t; try (split; [discriminate|tauto]).
      rewrite <- (forallb_fields (fun u => declares u && write_ok AtInstantiation all_overloads u) documented).
      + assert (Ef : forall gs : list (bool * element),
          forallb (fun f => fst f && declares (snd f) && write_ok AtInstantiation all_overloads (snd f)) gs
          = forallb (fun f => fst f && (declares (snd f) && write_ok AtInstantiation all_overloads (snd f))) gs).
        { intros gs. induction gs as [|g gs IHg]; cbn [forallb]; auto. rewrite IHg, <- !andb_assoc. reflexivity. }
        rewrite Ef. tauto.
      + pose proof (wf_fields _ _ Hw) as Hwf. rewrite Forall_forall in *. intros f Hin _.
        rewrite andb_true_iff, (H f Hin (Hwf f Hin)). split; [tauto|]. intros Hd. split; auto.
        apply documented_declares; auto. }
  intros t Hw. unfold set_compiles. rewrite andb_true_iff, G by auto. split; [tauto|].
  intros Hd. split; auto. apply documented_declares; auto.
Qed.

Lemma andb_fields : forall (a b : element -> bool) (fs : list (bool * element)),
  forallb (fun f => fst f && a (snd f) && b (snd f)) fs = forallb (fun f => fst f && (a (snd f) && b (snd f))) fs.
Proof. induction fs as [|f fs IH]; cbn [forallb]; auto. rewrite IH, <- !andb_assoc. reflexivity. Qed.

Lemma plain_leaf_write : forall t, wf_element t ->
  (write_ok AtDefinition [OUnsigned; OSigned; OArray] t = true <-> plain_leaf t).
Proof.
  induction t using element_ind_nested; intros Hw.
  - cbn [write_ok plain_leaf]. rewrite select_plain by auto. destruct a; split; auto.
  - cbn [write_ok plain_leaf in_array]. rewrite select_plain by auto. apply IHt. exact Hw.
  - cbn [write_ok plain_leaf in_array]. rewrite select_plain by auto. apply IHt. exact Hw.
  - cbn. split; [discriminate|contradiction].
  - cbn [write_ok plain_leaf]. rewrite select_plain by auto.
    assert (Hwt : wf_element t) by (destruct t; try exact I; try apply Hw; destruct Hw as [[] _]).
    cbn [base]. destruct t as [[| | |]| | | |]; try (apply IHt; exact Hwt).
    destruct Hw as [[] _].
Qed.

Lemma standard_declares : forall t, wf_element t -> standard t -> declares t = true.
Proof.
  induction t using element_ind_nested; intros Hw Hd; try reflexivity.
  - destruct a; reflexivity.
  - contradiction.
  - destruct Hd as [Hu Hf]. destruct t; try contradiction. rewrite declares_eq, is_serializable_select, select_all by auto.
    cbn [andb]. apply (forallb_fields _ standard); auto. pose proof (wf_fields _ _ Hw) as Hwf.
    assert (Hf' : Forall (fun f => fst f = true /\ standard (snd f)) fs) by (apply each_forall; exact Hf).
    rewrite Forall_forall in *. intros f Hin _. split; intros; [apply Hf'; auto|]. apply H; auto.
Qed.

(** By the rules of the standard, the elements of arrays must be arithmetic types
    or arrays; their extensions are ignored. *)
Theorem C78_set_standard : forall t, wf_element t -> (set_compiles AtDefinition t = true <-> standard t).
Proof.
  assert (G : forall t, wf_element t -> (write_ok AtDefinition all_overloads t = true <-> standard t)).
  { induction t using element_ind_nested; intros Hw.
    - cbn [write_ok standard]. rewrite select_all by auto. destruct a; split; auto.
    - cbn [write_ok standard in_array]. rewrite select_all by auto. apply plain_leaf_write. exact Hw.
    - cbn [write_ok standard in_array]. rewrite select_all by auto. apply plain_leaf_write. exact Hw.
    - cbn. split; [discriminate|contradiction].
    - cbn [write_ok]. rewrite select_all by auto.
      assert (E : standard (Extended t fs) <-> match t with Class _ => True | _ => False end /\ each standard fs) by reflexivity.
      rewrite E. destruct t; try (split; [discriminate|tauto]). rewrite andb_fields.
      rewrite <- (forallb_fields (fun u => declares u && write_ok AtDefinition all_overloads u) standard); [tauto|].
      pose proof (wf_fields _ _ Hw) as Hwf. rewrite Forall_forall in *. intros f Hin _.
      rewrite andb_true_iff, (H f Hin (Hwf f Hin)). split; [tauto|]. intros Hd. split; auto.
      apply standard_declares; auto. }
  intros t Hw. unfold set_compiles. rewrite andb_true_iff, G by auto. split; [tauto|].
  intros Hd. split; auto. apply standard_declares; auto.
Qed.

(** Arrays which can be assigned element by element. *)
Fixpoint assignable (t : element) : Prop :=
  match t with
  | Arith _ | Class _ => True
  | CArray u _ | StdArray u _ => default_ok u = true /\ is_c_array u = false /\ assignable u
  | Extended u fs =>
      match u with
      | Class _ => fold_right (fun f Q => assignable (snd f) /\ Q) True fs
      | _ => assignable u
      end
  end.

Lemma assignable_fields : forall d fs, assignable (Extended (Class d) fs) <-> Forall (fun f => assignable (snd f)) fs.
Proof.
  intros d fs. cbn [assignable]. induction fs as [|f fs IH]; cbn; split; intros H; auto.
  - constructor; [tauto|]. apply IH. tauto.
  - inversion H; subst. split; auto. apply IH. auto.
Qed.

(** [get] compiles for the types [set] compiles for, but for arrays of plain
    arrays and arrays whose elements cannot be default initialised. *)
Theorem C78_get : forall lk t, wf_element t ->
  (get_compiles lk t = true <-> set_compiles lk t = true /\ assignable t).
Proof.
  intros lk.
  assert (G : forall t vis, wf_element t -> vis = all_overloads \/ vis = [OUnsigned; OSigned; OArray] ->
    (read_ok lk vis t = true <-> write_ok lk vis t = true /\ assignable t)).
  { induction t using element_ind_nested; intros vis Hw Hv.
    - cbn [read_ok write_ok assignable]. tauto.
    - cbn [read_ok write_ok assignable]. destruct (select vis (CArray t n)); [|split; [discriminate|intros [? _]; discriminate]].
      rewrite !andb_true_iff, negb_true_iff, IHt by (auto; destruct lk; auto). tauto.
    - cbn [read_ok write_ok assignable]. destruct (select vis (StdArray t n)); [|split; [discriminate|intros [? _]; discriminate]].
      rewrite !andb_true_iff, negb_true_iff, IHt by (auto; destruct lk; auto). tauto.
    - cbn. split; [discriminate|tauto].
    - cbn [read_ok write_ok].
      assert (Hwt : wf_element t) by (destruct t; try exact I; try apply Hw; destruct Hw as [[] _]).
      assert (Es : match select vis (Extended t fs) with
                   | Some OUser => exists d, t = Class d
                   | Some _ => assignable (Extended t fs) = assignable t
                   | None => True
                   end).
      { destruct Hv as [-> | ->]; [rewrite select_all by auto|rewrite select_plain by auto; cbn [base]];
          destruct t as [[| | |]| | |d|]; auto; try (exists d; reflexivity); destruct Hw as [[] _]. }
      destruct (select vis (Extended t fs)) as [o|]; [|split; [discriminate|intros [? _]; discriminate]].
      destruct o; try (rewrite Es; apply IHt; auto).
      destruct Es as [d ->]. rewrite assignable_fields, !andb_fields. pose proof (wf_fields _ _ Hw) as Hwf. clear Hw IHt Hwt.
      induction H as [|f fs Hf H IH]; cbn [forallb]; [split; auto|].
      inversion Hwf; subst. rewrite !andb_true_iff, IH, Hf by auto. rewrite Forall_cons_iff. tauto. }
  intros t Hw. unfold get_compiles, set_compiles. rewrite !andb_true_iff, G by auto. tauto.
Qed.

(** ** invoke *)

Lemma element_eqb_refl : forall t, element_eqb t t = true.
Proof.
  induction t using element_ind_nested; cbn [element_eqb].
  - destruct a; cbn; auto using Nat.eqb_refl.
  - rewrite IHt, Nat.eqb_refl. reflexivity.
  - rewrite IHt, Nat.eqb_refl. reflexivity.
  - apply eqb_reflx.
  - rewrite IHt. cbn [andb]. induction H as [|[b f] fs Hf H IH]; auto. cbn [snd] in Hf. rewrite Hf, eqb_reflx, IH. reflexivity.
Qed.

(** A functor can be invoked on every element which can be read. *)
Theorem C78_invoke : forall lk t, wf_element t -> invoke_compiles lk t = get_compiles lk t.
Proof.
  intros lk t Hw. unfold invoke_compiles. destruct (get_compiles lk t) eqn:E; [|reflexivity]. cbn [andb].
  unfold get_compiles in E. apply andb_prop in E. destruct E as [E _]. rewrite declares_eq in E.
  apply andb_prop in E. destruct E as [Es _]. unfold normalizes, normalize_array, normalize_other.
  destruct t as [a|u n|u n|d|u fs]; cbn [got] in *.
  - rewrite Es, element_eqb_refl. reflexivity.
  - rewrite element_eqb_refl. cbn. reflexivity.
  - rewrite Es, element_eqb_refl. reflexivity.
  - discriminate.
  - rewrite Es, element_eqb_refl. reflexivity.
Qed.

(** The assertion accepts a tuple of arrays of pointers, whose elements cannot be
    set; arrays of plain arrays can be set but not read; a type extended by the
    user is refused if it is arithmetic, but the arrays of it are accepted, and
    serialized without the extension. *)
Theorem C78_refuted :
  (let t := CArray (Class true) 2 in
   declares t = true /\ forall lk, set_compiles lk t = false /\ get_compiles lk t = false)
  /\ (let t := CArray (CArray (Arith (Asig 4)) 2) 2 in
      documented t /\ forall lk, set_compiles lk t = true /\ get_compiles lk t = false)
  /\ (let t := Extended (Arith (Auns 1)) [(true, Arith (Auns 2))] in
      declares t = false /\ set_compiles AtDefinition (CArray t 3) = true
      /\ select (in_array AtDefinition) t = Some OUnsigned).
Proof. cbn. repeat split; destruct lk; reflexivity. Qed.

(** ** The model of the serialization

    The type of Base.v for a type of C++; [sz] gives the sizes of classes.  (A
    floating point type has the type of the integers of the same width: the
    overloads are the same.) *)
Fixpoint model_of (sz : element -> nat) (t : element) : ty :=
  match t with
  | Arith Abool => TBool
  | Arith (Auns w) => TUns w
  | Arith (Asig w) | Arith (Afloat w) => TSig w
  | CArray u n | StdArray u n => TArr (model_of sz u) n
  | Class _ => TUser (sz t) []
  | Extended _ fs => TUser (sz t) (map (fun f => model_of sz (snd f)) fs)
  end.

(** [instantiates] of Serial.v, which the properties of serialization rely on, is
    what overload resolution gives. *)
Theorem C78_instantiates : forall sz t, wf_element t -> documented t ->
  instantiates (model_of sz t) = set_compiles AtDefinition t.
Proof.
  intros sz.
  assert (L : forall t, documented t -> (array_element_visible (model_of sz t) = true <-> plain_leaf t)).
  { induction t using element_ind_nested; intros Hd; cbn [documented] in Hd.
    - destruct a; split; cbn; auto.
    - apply IHt. exact Hd.
    - apply IHt. exact Hd.
    - contradiction.
    - destruct Hd as [Hu _]. destruct t; try contradiction. cbn. split; [discriminate|contradiction]. }
  assert (G : forall t, documented t -> (instantiates (model_of sz t) = true <-> standard t)).
  { induction t using element_ind_nested; intros Hd; cbn [documented] in Hd.
    - destruct a; split; cbn; auto.
    - apply L. exact Hd.
    - apply L. exact Hd.
    - contradiction.
    - destruct Hd as [Hu Hf].
      assert (Hf' : Forall (fun f => fst f = true /\ documented (snd f)) fs) by (apply each_forall; exact Hf).
      assert (E : standard (Extended t fs) <-> each standard fs) by (cbn [standard]; unfold each; tauto).
      rewrite E, each_forall. cbn [model_of instantiates]. clear Hf Hu E IHt.
      induction H as [|f fs Hf H IH]; cbn [map forallb]; [split; auto|]. inversion Hf' as [|? ? [Hb Hd] Hr]; subst.
      rewrite andb_true_iff, Forall_cons_iff, (Hf Hd), (IH Hr). tauto. }
  intros t Hw Hd. apply eq_true_iff_eq. rewrite G by auto. symmetry. apply C78_set_standard. exact Hw.
Qed.

(** [get] never returns a C array, which no function can, but a type with the same
    elements; a functor is given back an object of the very type of the element. *)
Theorem C78_passed : forall lk t, wf_element t -> invoke_compiles lk t = true ->
  (forall u n, got t <> CArray u n) /\ (forall sz, model_of sz (got t) = model_of sz t) /\ handed t = Some t.
Proof.
  intros lk t Hw H. rewrite C78_invoke in H by auto.
  unfold get_compiles in H. apply andb_prop in H. destruct H as [E _]. rewrite declares_eq in E.
  apply andb_prop in E. destruct E as [Es _]. unfold handed, normalize_array, normalize_other.
  destruct t as [a|u n|u n|d|u fs]; cbn [got] in *; (split; [intros; discriminate|split; [reflexivity|]]).
  - rewrite Es, element_eqb_refl. reflexivity.
  - rewrite element_eqb_refl. cbn. reflexivity.
  - rewrite Es, element_eqb_refl. reflexivity.
  - discriminate.
  - rewrite Es, element_eqb_refl. reflexivity.
Qed.

(** A class of two fields: [struct { uint8_t x; int32_t y[2]; }], with an
    extension which takes a [std::array]. *)
Definition ex_class : element := Extended (Class true) [(true, Arith (Auns 1)); (true, StdArray (Arith (Asig 4)) 2)].

Example C78_example :
  wf_element ex_class /\ documented ex_class /\ standard ex_class /\ assignable ex_class
  /\ (forall lk, set_compiles lk ex_class = true /\ get_compiles lk ex_class = true /\ invoke_compiles lk ex_class = true)
  /\ (let a := CArray ex_class 3 in
      wf_element a /\ documented a /\ ~ standard a /\ assignable a
      /\ get_compiles AtInstantiation a = true /\ invoke_compiles AtInstantiation a = true
      /\ declares a = true /\ set_compiles AtDefinition a = false
      /\ instantiates (model_of (fun _ => 12) a) = false)
  /\ (let a := CArray (Arith (Asig 2)) 3 in
      invoke_compiles AtDefinition a = true /\ got a = StdArray (Arith (Asig 2)) 3 /\ handed a = Some a)
  /\ set_compiles AtDefinition (Extended (Class true) [(false, Arith (Auns 1))]) = false
  /\ (let a := StdArray (Extended (Class false) [(true, Arith (Auns 1))]) 2 in
      set_compiles AtInstantiation a = true /\ get_compiles AtInstantiation a = false).
Proof. cbn. repeat split; try (destruct lk; reflexivity); tauto. Qed.

(** ** C79 *)

(** What a parameter or a result can be made of. *)
Definition fits (lk : lookup) (t : element) : Prop :=
  match lk with AtInstantiation => documented t | AtDefinition => standard t end
  /\ assignable t /\ default_ok t = true.

Definition wf_callback (c : callback) : Prop :=
  Forall (fun q => wf_element (snd q) /\ expressible q = true) (cb_params c)
  /\ match cb_ret c with Some q => wf_element (snd q) /\ expressible q = true | None => True end.

Lemma set_standard_or_documented : forall lk t, wf_element t ->
  (set_compiles lk t = true <-> match lk with AtInstantiation => documented t | AtDefinition => standard t end).
Proof. intros [|] t Hw; [apply C78_set_standard|apply C78_set]; auto. Qed.

Lemma fits_compiles : forall lk t, wf_element t ->
  (default_compiles lk t && get_compiles lk t = true <-> fits lk t).
Proof.
  intros lk t Hw. unfold default_compiles, fits. rewrite !andb_true_iff, C78_get, set_standard_or_documented by auto. tauto.
Qed.

Lemma set_declares : forall lk t, set_compiles lk t = true -> declares t = true.
Proof. intros lk t H. apply andb_prop in H. tauto. Qed.

(** The callbacks an action can be made from: [no_storage_action] is less
    demanding about the result than [action]. *)
Theorem C79_actions : forall lk c, wf_callback c ->
  (no_storage_action_compiles lk c = true <->
   Forall (fun q => fits lk (snd q) /\ fst q <> ByRef) (cb_params c)
   /\ match cb_ret c with Some q => set_compiles lk (snd q) = true | None => True end)
  /\ (action_compiles lk c = true <->
      no_storage_action_compiles lk c = true
      /\ match cb_ret c with Some q => fst q = ByValue | None => True end).
Proof.
  intros lk c [Hp Hr].
  assert (P : params_compile lk c = true <-> Forall (fun q => fits lk (snd q) /\ fst q <> ByRef) (cb_params c)).
  { unfold params_compile. induction Hp as [|q qs [Hq _] Hp IH]; cbn [forallb]; [split; auto|].
    rewrite andb_true_iff, Forall_cons_iff, IH, andb_true_iff, C78_invoke, fits_compiles by auto.
    destruct (fst q); cbn; split; intros; intuition discriminate. }
  unfold no_storage_action_compiles, action_compiles. rewrite !andb_true_iff, P. split.
  - destruct (cb_ret c) as [[q t]|]; cbn [snd]; tauto.
  - destruct (cb_ret c) as [[q t]|]; cbn [fst]; [|tauto]. rewrite !andb_true_iff. split.
    + intros (A & (B & _) & D). destruct q; try discriminate. tauto.
    + intros ((A & B) & ->). repeat split; auto. apply (set_declares lk). exact B.
Qed.

(** The callbacks which work on both sides: a key can be called on any kind of
    argument and can read the response, and an action can be made. *)
Theorem C79_callbacks : forall lk c, wf_callback c ->
  ((forall args, length args = length (cb_params c) -> key_call_compiles lk c args = true)
   /\ key_read_compiles lk c = true /\ action_compiles lk c = true
   <->
   Forall (fun q => fits lk (snd q) /\ (fst q = ByValue \/ fst q = ByConst \/ fst q = ByConstRef)) (cb_params c)
   /\ match cb_ret c with Some q => fits lk (snd q) /\ fst q = ByValue | None => True end).
Proof.
  intros lk c Hc. destruct (C79_actions lk c Hc) as [N A]. rewrite A, N. destruct Hc as [Hp Hr]. split.
  - intros (K & R & (P & S) & V). split.
    + assert (K1 : key_call_compiles lk c (map (fun _ => Temporary) (cb_params c)) = true) by (apply K, map_length).
      unfold key_call_compiles in K1. rewrite !andb_true_iff in K1. destruct K1 as [_ K1]. clear - P K1.
      induction P as [|q qs [Hq Hn] P IH]; constructor.
      * cbn in K1. rewrite !andb_true_iff in K1. destruct K1 as [[_ K1] _]. split; auto.
        destruct (fst q); try discriminate; auto.
      * apply IH. cbn in K1. rewrite !andb_true_iff in K1. apply K1.
    + unfold key_read_compiles in R. destruct (cb_ret c) as [[q t]|]; auto. cbn [fst snd] in *. split; auto.
      apply andb_prop in R. apply fits_compiles; tauto.
  - intros (P & R).
    assert (D : key_declares c = true).
    { unfold key_declares. destruct (cb_ret c) as [[q t]|]; auto. cbn [fst snd] in *. destruct R as [_ ->].
      destruct Hr as [_ Hr]. exact Hr. }
    assert (S : forall t, wf_element t -> fits lk t -> set_compiles lk t = true).
    { intros t Hw [Hf _]. apply set_standard_or_documented; auto. }
    repeat split.
    + intros args Hl. unfold key_call_compiles. rewrite D, Hl, Nat.eqb_refl. cbn [andb]. clear - P S Hp.
      revert args. induction P as [|q qs [Hq Hn] P IH]; intros args; [reflexivity|]. inversion Hp as [|? ? [Hw _] Hp']; subst.
      destruct args as [|a args]; [reflexivity|]. cbn [combine forallb fst snd]. rewrite S, IH by auto.
      destruct Hn as [-> | [-> | ->]]; destruct a; reflexivity.
    + unfold key_read_compiles. rewrite D. destruct (cb_ret c) as [[q t]|]; [|reflexivity]. cbn [fst snd andb] in *.
      apply fits_compiles; tauto.
    + eapply Forall_impl; [|exact P]. cbn. intros q [Hq [H | [H | H]]]; rewrite H; split; auto; discriminate.
    + destruct (cb_ret c) as [[q t]|]; auto. apply S; tauto.
    + destruct (cb_ret c); tauto.
Qed.

(** A callback which takes and returns documented types may still be refused, by
    one side or by the other:
    - it returns [const T &]: the key can be used and the callback can be called
      by a [no_storage_action], but not by an [action];
    - it takes a [T &&]: actions can be made, but the key only accepts variables;
    - it takes a [T &]: the key accepts variables, but no action can be made;
    - it returns [const T (&)[n]]: [no_storage_action] can be made, but the key
      cannot be instantiated. *)
Theorem C79_refuted : forall lk,
  let i := Arith (Asig 4) in
  (let c := mk_callback [(ByValue, i)] (Some (ByConstRef, i)) in
   wf_callback c /\ key_call_compiles lk c [Temporary] = true /\ key_read_compiles lk c = true
   /\ no_storage_action_compiles lk c = true /\ action_compiles lk c = false)
  /\ (let c := mk_callback [(ByRvalueRef, i)] None in
      wf_callback c /\ action_compiles lk c = true /\ key_call_compiles lk c [Temporary] = false
      /\ key_call_compiles lk c [Constant] = false /\ key_call_compiles lk c [Modifiable] = true)
  /\ (let c := mk_callback [(ByRef, i)] None in
      wf_callback c /\ key_call_compiles lk c [Modifiable] = true
      /\ action_compiles lk c = false /\ no_storage_action_compiles lk c = false)
  /\ (let c := mk_callback [] (Some (ByConstRef, CArray i 2)) in
      wf_callback c /\ no_storage_action_compiles lk c = true /\ action_compiles lk c = false
      /\ key_call_compiles lk c [] = false /\ key_read_compiles lk c = false).
Proof. unfold wf_callback. cbn. intros [|]; repeat split; repeat constructor. Qed.

(** A callback which takes a class, an array by reference and a boolean. *)
Example C79_example : forall lk,
  let c := mk_callback [(ByConstRef, ex_class); (ByConstRef, CArray (Arith (Auns 2)) 4); (ByConst, Arith Abool)] (Some (ByValue, ex_class)) in
  wf_callback c
  /\ (forall args, length args = 3 -> key_call_compiles lk c args = true)
  /\ key_read_compiles lk c = true /\ action_compiles lk c = true.
Proof.
  intros lk c. assert (W : wf_callback c) by (unfold wf_callback; cbn; repeat split; repeat constructor). split; auto.
  apply (C79_callbacks lk c W). unfold fits. destruct lk; cbn; repeat (constructor; cbn; intuition).
Qed.

Print Assumptions C78_accepted.
Print Assumptions C78_set.
Print Assumptions C78_set_standard.
Print Assumptions C78_get.
Print Assumptions C78_invoke.
Print Assumptions C78_passed.
Print Assumptions C78_refuted.
Print Assumptions C78_instantiates.
Print Assumptions C79_actions.
Print Assumptions C79_callbacks.
Print Assumptions C79_refuted.
