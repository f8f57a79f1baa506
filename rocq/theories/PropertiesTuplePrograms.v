(** Property C106: programs of tuples, views and structured bindings, statement by
    statement. *)

From Coq Require Import List ZArith Lia Bool Arith String ZifyBool ZifyNat.
From Verif Require Import Base CInt Spec IntModel Conditions MemFacts TypeLevel Serial TupleModel
  TypeLevelProofs IntProofs SignedProofs SerialProofs CodecFacts Bounds TupleProofs Hosts Closed PropertiesTuple
  SpecRpc Rpc RpcProofs Functors Views PropertiesViews.
From Verif Require Import Templates Library LibraryProofs TuplePrograms.
From Verif Require Cpp PropertiesSource.
Import ListNotations.
Open Scope string_scope.
Open Scope list_scope.
Open Scope nat_scope.

(** ** Names *)

Lemma ticks_eqb : forall a b, String.eqb (ticks a) (ticks b) = (a =? b).
Proof. induction a as [|a IH]; intros [|b]; cbn; auto. Qed.

Lemma storage_eqb : forall a b, String.eqb (storage_name a) (storage_name b) = (a =? b).
Proof. exact ticks_eqb. Qed.
Lemma begin_eqb : forall a b, String.eqb (begin_name a) (begin_name b) = (a =? b).
Proof. exact ticks_eqb. Qed.
Lemma end_eqb : forall a b, String.eqb (end_name a) (end_name b) = (a =? b).
Proof. exact ticks_eqb. Qed.
Lemma binding_eqb : forall a b, String.eqb (binding_name a) (binding_name b) = (a =? b).
Proof. exact ticks_eqb. Qed.

Lemma lookup_cons : forall (A : Type) x y (a : A) l,
  Cpp.lookup x ((y, a) :: l) = if String.eqb x y then Some a else Cpp.lookup x l.
Proof. reflexivity. Qed.

Lemma lookup_update : forall (A : Type) (l : list (string * A)) x y a b, Cpp.lookup x l = Some b ->
  Cpp.lookup y (Cpp.update x a l) = if String.eqb y x then Some a else Cpp.lookup y l.
Proof.
  induction l as [|[z c] l IH]; intros x y a b H; cbn [Cpp.lookup Cpp.update] in *; [discriminate|].
  destruct (String.eqb_spec x z) as [->|Hne]; cbn [Cpp.lookup].
  - destruct (String.eqb_spec y z); auto.
  - destruct (String.eqb_spec y z) as [->|Hne'].
    + destruct (String.eqb_spec z x); [congruence|auto].
    + eapply IH; eauto.
Qed.

(** ** The local variables and the storages *)

Definition rel (reg : nat -> nat) (d : nat -> option shape) (st : pstate) (l : list (string * value)) (mem : list (list Z)) : Prop :=
  (forall o t, ps_tuples st o = Some t -> tv_ts t <> [] ->
     Cpp.lookup (storage_name o) l = Some (Address (reg o) 0) /\ nth_error mem (reg o) = Some (tv_bytes t))
  /\ (forall o o' t t', ps_tuples st o = Some t -> ps_tuples st o' = Some t' -> tv_ts t <> [] -> tv_ts t' <> [] ->
        reg o = reg o' -> o = o')
  /\ (forall v w, ps_views st v = Some w ->
        Cpp.lookup (begin_name v) l = Some (Address (reg (vv_on w)) (v_begin (vv_view w)))
        /\ Cpp.lookup (end_name v) l
           = Some (Address (reg (vv_on w)) (v_begin (vv_view w) + tuple_size (v_types (vv_view w))))
        /\ exists e m ts, d (vv_on w) = Some (e, m, ts) /\ ts <> [])
  /\ (forall x y, ps_names st x = Some y -> Cpp.lookup (binding_name x) l = Some (Object y)).

Lemma rel_locals : forall reg d st l l' mem, rel reg d st l mem ->
  (forall n, Cpp.lookup (storage_name n) l' = Cpp.lookup (storage_name n) l
             /\ Cpp.lookup (begin_name n) l' = Cpp.lookup (begin_name n) l
             /\ Cpp.lookup (end_name n) l' = Cpp.lookup (end_name n) l
             /\ Cpp.lookup (binding_name n) l' = Cpp.lookup (binding_name n) l) ->
  rel reg d st l' mem.
Proof.
  intros reg d st l l' mem (R1 & R2 & R3 & R4) H. split; [|split; [|split]]; auto.
  - intros o t Ho Ht. destruct (H o) as (-> & _). auto.
  - intros v w Hv. destruct (H v) as (_ & -> & -> & _). auto.
  - intros x y Hx. destruct (H x) as (_ & _ & _ & ->). auto.
Qed.

Lemma rel_more : forall reg d st l mem more, rel reg d st l mem -> rel reg d st l (mem ++ more).
Proof.
  intros reg d st l mem more (R1 & R2 & R3 & R4). split; [|split; [|split]]; auto.
  intros o t Ho Ht. destruct (R1 o t Ho Ht) as [H1 H2]. split; auto.
  rewrite nth_error_app1; auto. apply nth_error_Some. congruence.
Qed.

Lemma set_region_other : forall mem r r' bs, r <> r' -> nth_error (set_region r bs mem) r' = nth_error mem r'.
Proof. induction mem; intros [|r] [|r'] bs H; cbn; auto; congruence. Qed.

Lemma rel_set : forall reg d st l mem o t bs, rel reg d st l mem -> ps_tuples st o = Some t -> tv_ts t <> [] ->
  rel reg d (set_bytes st o bs) l (set_region (reg o) bs mem).
Proof.
  intros reg d st l mem o t bs (R1 & R2 & R3 & R4) Ho Ht. unfold set_bytes. rewrite Ho.
  split; [|split; [|split]]; cbn [ps_tuples ps_views ps_names]; auto.
  - intros q u. unfold update. destruct (Nat.eqb_spec q o) as [->|Hne]; intros Hq Hu.
    + injection Hq as <-. cbn [tv_ts tv_bytes] in *. destruct (R1 o t Ho Ht) as [H1 H2]. split; auto.
      eapply set_region_get; eauto.
    + destruct (R1 q u Hq Hu) as [H1 H2]. split; auto. rewrite set_region_other; auto.
      intros E. apply Hne. symmetry. eapply R2; eauto.
  - intros q q' u u'. unfold update.
    destruct (Nat.eqb_spec q o) as [->|H1], (Nat.eqb_spec q' o) as [->|H2]; intros Hq Hq' Hu Hu' E; auto;
      try (injection Hq as <-; cbn [tv_ts] in Hu); try (injection Hq' as <-; cbn [tv_ts] in Hu'); eauto.
Qed.

Lemma rel_set_empty : forall reg d st l mem o t bs, rel reg d st l mem -> ps_tuples st o = Some t -> tv_ts t = [] ->
  rel reg d (set_bytes st o bs) l mem.
Proof.
  intros reg d st l mem o t bs (R1 & R2 & R3 & R4) Ho Ht. unfold set_bytes. rewrite Ho.
  split; [|split; [|split]]; cbn [ps_tuples ps_views ps_names]; auto.
  - intros q u. unfold update. destruct (Nat.eqb_spec q o) as [->|Hne]; intros Hq Hu; [|auto].
    injection Hq as <-. cbn [tv_ts] in Hu. congruence.
  - intros q q' u u'. unfold update.
    destruct (Nat.eqb_spec q o) as [->|H1], (Nat.eqb_spec q' o) as [->|H2]; intros Hq Hq' Hu Hu' E; auto;
      try (injection Hq as <-; cbn [tv_ts] in Hu); try (injection Hq' as <-; cbn [tv_ts] in Hu'); try congruence; eauto.
Qed.

(** A new tuple, with the storage which comes last. *)
Lemma rel_new : forall reg d d' st l mem o t, rel reg d st l mem -> ps_tuples st o = None -> d o = None ->
  (forall n, d' n = if n =? o then Some (tv_e t, tv_m t, tv_ts t) else d n) ->
  rel (fun q => if q =? o then List.length mem else reg q) d'
    (mk_pstate (Functors.update (ps_tuples st) o (Some t)) (ps_views st) (ps_names st))
    (named (storage_name o) (tv_ts t) (List.length mem) l) (stored (tv_ts t) (tv_bytes t) mem).
Proof.
  intros reg d d' st l mem o t Hr Ho Hd Hd'.
  assert (Hr' : rel reg d st (named (storage_name o) (tv_ts t) (List.length mem) l) (stored (tv_ts t) (tv_bytes t) mem)).
  { destruct Hr as (R1 & R2 & R3 & R4). destruct (tv_ts t) as [|a ts]; [split; auto|]. cbn [named stored].
    split; [|split; [|split]]; auto.
    intros q u Hq Hu. destruct (R1 q u Hq Hu) as [H1 H2]. rewrite lookup_cons, storage_eqb.
    destruct (Nat.eqb_spec q o) as [->|Hne]; [congruence|]. split; auto.
    rewrite nth_error_app1; auto. apply nth_error_Some. congruence. }
  destruct Hr as (S1 & S2 & S3 & S4). destruct Hr' as (R1 & R2 & R3 & R4).
  split; [|split; [|split]]; cbn [ps_tuples ps_views ps_names]; auto.
  - intros q u. unfold update. destruct (Nat.eqb_spec q o) as [->|Hne]; intros Hq Hu; [|auto].
    injection Hq as <-. destruct (tv_ts t) as [|a ts]; [congruence|]. cbn [named stored].
    rewrite lookup_cons, String.eqb_refl. split; auto. apply last_region.
  - intros q q' u u'. unfold update.
    destruct (Nat.eqb_spec q o) as [->|H1], (Nat.eqb_spec q' o) as [->|H2]; intros Hq Hq' Hu Hu' E; auto.
    + destruct (S1 q' u' Hq' Hu') as [_ H]. assert (reg q' < List.length mem) by (apply nth_error_Some; congruence). lia.
    + destruct (S1 q u Hq Hu) as [_ H]. assert (reg q < List.length mem) by (apply nth_error_Some; congruence). lia.
    + eapply S2; eauto.
  - intros v w Hv. destruct (R3 v w Hv) as (V1 & V2 & e & m & ts & V3 & V4). rewrite Hd'.
    destruct (Nat.eqb_spec (vv_on w) o) as [E|E]; [congruence|]. split; [|split]; eauto.
Qed.

(** ** Copies of the storage *)

Lemma load_nth : forall bs i b, nth_error bs i = Some b -> load bs i = Ok b.
Proof. intros bs i b H. unfold load. rewrite H. reflexivity. Qed.

Lemma store_next : forall a c d bs, store (a ++ c :: d) (List.length a) bs = Ok (a ++ bs :: d).
Proof. induction a as [|x a IH]; intros; cbn [app List.length store]; auto. rewrite IH. reflexivity. Qed.

Lemma nil_or : forall (A : Type) (l : list A), l = [] \/ l <> [].
Proof. intros A [|a l]; [left|right]; congruence. Qed.

Section Proofs.
  Variable p : platform.
  Variable sz fuel : nat.
  Hypothesis Hp : wf_platform p.
  Hypothesis Hh : PropertiesSource.host_sizes p sz.
  Hypothesis Hf : 8 <= fuel.

  Notation src := (@no_source (list val)).
  Notation dest := (@no_destination (list val)).
  Notation ev := (eval p sz fuel src dest print).
  Notation ex := (exec p sz fuel src dest print).
  Notation evs := (LibraryProofs.evs p sz fuel src dest print).

  Lemma ev_plus_var : forall x s r i, Cpp.lookup x (st_locals s) = Some (Address r 0) -> (Z.of_nat i < space sz)%Z ->
    ev (Plus (Var x) (Constant (Ok i))) s = Ok (s, Address r i).
  Proof. intros x s r i Hx Hi. apply end_ok; auto. Qed.

  (** From one array of bytes to another one, or to itself. *)
  Lemma copy_ok : forall dst from r r' l w k i mem bs old, 
    Cpp.lookup dst l = Some (Address r 0) -> Cpp.lookup from l = Some (Address r' 0) ->
    List.length old = List.length bs -> i + k = List.length bs -> (Z.of_nat (List.length bs) < space sz)%Z ->
    (r = r' -> old = bs) ->
    nth_error mem r = Some (firstn i bs ++ skipn i old) -> nth_error mem r' = Some bs ->
    ex (copy_src dst from i k) (mk_state l mem w) = Ok (mk_state l (set_region r bs mem) w, Next).
  Proof.
    intros dst from r r' l w. induction k as [|k IH]; intros i mem bs old Hd Hs Hl Hi Hz He Hr Hr'; cbn [copy_src].
    - assert (i = List.length bs) by lia. subst i. rewrite firstn_all, skipn_all2, app_nil_r in Hr by lia.
      rewrite set_region_same by auto. reflexivity.
    - rewrite ex_seq, ex_at, ev_deref, (ev_plus_var from _ r' i) by (auto; lia). cbn [bind st_memory].
      rewrite (region_ok _ _ _ Hr'). cbn [bind].
      assert (exists b, nth_error bs i = Some b) as (b & Hb).
      { destruct (nth_error bs i) eqn:E; eauto. apply nth_error_None in E. lia. }
      assert (exists c, nth_error old i = Some c) as (c & Hc).
      { destruct (nth_error old i) eqn:E; eauto. apply nth_error_None in E. lia. }
      rewrite (load_nth _ _ _ Hb). cbn [bind]. rewrite (ev_plus_var dst _ r i) by (auto; lia). cbn [bind st_memory].
      rewrite (region_ok _ _ _ Hr). cbn [bind].
      assert (Hst : store (firstn i bs ++ skipn i old) i b = Ok (firstn (S i) bs ++ skipn (S i) old)).
      { assert (E1 : skipn i old = c :: skipn (S i) old) by (apply skipn_nth_cons; auto).
        assert (E2 : firstn (S i) bs = firstn i bs ++ [b]).
        { rewrite <- (firstn_skipn i bs) at 1. rewrite (skipn_nth_cons _ bs i b Hb).
          assert (List.length (firstn i bs) = i) by (rewrite firstn_length; lia).
          replace (S i) with (List.length (firstn i bs) + 1) by lia. rewrite firstn_app_2. reflexivity. }
        rewrite E1, E2, <- app_assoc. cbn [app].
        replace i with (List.length (firstn i bs)) at 3 by (rewrite firstn_length; lia). apply store_next. }
      rewrite Hst. cbn [bind]. unfold with_region. cbn [st_locals st_memory st_world].
      rewrite (IH (S i) _ bs old); auto.
      + rewrite set_region_twice. reflexivity.
      + lia.
      + eapply set_region_get; eauto.
      + destruct (Nat.eq_dec r r') as [E|E].
        * subst r'. rewrite (He eq_refl), firstn_skipn. eapply set_region_get; eauto.
        * rewrite set_region_other; auto.
  Qed.

  (** ** One operation *)

  Definition knows (tg : types) (g : env) : Prop :=
    (forall o, of_tuples tg o = en_tuples g o) /\ (forall v, of_views tg v = en_views g v).
  Definition types_fit (g : env) : Prop :=
    forall o e m ts, en_tuples g o = Some (e, m, ts) -> all_fit sz fuel ts.

  Lemma tuple_size_window : forall ts i n, tuple_size (firstn n (skipn i ts)) <= tuple_size ts.
  Proof.
    intros ts i n. unfold tuple_size. rewrite !sum17_list_sum.
    rewrite <- (firstn_skipn i ts) at 2. rewrite map_app, list_sum_app.
    rewrite <- (firstn_skipn n (skipn i ts)) at 2. rewrite map_app, list_sum_app. lia.
  Qed.

  Lemma fit_window : forall ts i n, all_fit sz fuel ts -> all_fit sz fuel (firstn n (skipn i ts)).
  Proof.
    intros ts i n (H1 & H2 & H3). pose proof (tuple_size_window ts i n). split; [|split; lia].
    rewrite Forall_forall in *. intros t Ht. apply H1.
    rewrite <- (firstn_skipn i ts). apply in_or_app. right.
    rewrite <- (firstn_skipn n (skipn i ts)). apply in_or_app. auto.
  Qed.

  (** The value of an iterator: there is no storage without elements. *)
  Definition points (pl : place) (us : list ty) (r off : nat) : value :=
    match pl, us with TupleVar _, [] => Null | _, _ => Address r off end.

  Lemma place_ok : forall g st s reg l mem tg pl e m us, agrees p g st s -> rel reg (en_tuples g) st l mem ->
    knows tg g -> In (fst (at_place s pl)) (en_alive g) -> types_fit g -> in_scope g pl (e, m, us) ->
    exists o off bs ts it, find_place st pl = Some (o, mk_view Pointer e m us off, bs)
      /\ place_src tg pl = Ok (it, (e, m, us)) /\ all_fit sz fuel us
      /\ ps_tuples st o = Some (mk_tuple_var e m ts bs)
      /\ List.length bs = tuple_size ts
      /\ (pl = TupleVar o /\ ts = us /\ off = 0 \/ (exists v, pl = ViewVar v) /\ ts <> [])
      /\ (forall w, ev it (mk_state l mem w) = Ok (mk_state l mem w, points pl us (reg o) off))
      /\ (points pl us (reg o) off = Null /\ us = []
          \/ points pl us (reg o) off = Address (reg o) off /\ nth_error mem (reg o) = Some bs /\ ts <> [])
      /\ exists vals, get_each p (mk_view Pointer e m us off) (seq 0 (List.length us)) bs = Ok vals
           /\ Forall2 has_type us vals.
  Proof.
    intros g st s reg l mem tg pl e m us Ha Hr [K1 K2] Hal Hfit Hin.
    pose proof Ha as (A1 & A2 & A3 & A4 & A5). pose proof Hr as (R1 & R2 & R3 & R4).
    destruct (found p g st s pl e m us Ha Hin Hal)
      as (w & bs & ts & F1 & F2 & F3 & F4 & F5 & F6 & F7 & F8 & (F9 & F9' & F9'') & F10 & F11).
    assert (Hw : w = mk_view Pointer e m us (v_begin w)) by (destruct w; cbn in *; congruence).
    assert (Hus : all_fit sz fuel us) by (rewrite F7; apply fit_window; eapply Hfit; eauto).
    assert (Hbs : List.length bs = tuple_size ts).
    { destruct F4 as (_ & -> & _). symmetry. apply (tuple_size_total p (tuple_at e m ts 0)). apply tuple_elements_ok. auto. }
    assert (Hvals : exists vals, get_each p (mk_view Pointer e m us (v_begin w)) (seq 0 (List.length us)) bs = Ok vals
              /\ Forall2 has_type us vals).
    { destruct (found_elements p g st s pl e m us Ha Hin Hal) as (w' & bs' & E1 & E2 & E3 & E4 & E5 & E6 & E7).
      rewrite F1 in E1. injection E1 as <- <-. rewrite <- Hw. eexists. split; [exact E6|]. eapply encodable_has; eauto. }
    set (o := fst (at_place s pl)) in *.
    exists o, (v_begin w), bs, ts. destruct Hin as [H1 H2]. destruct pl as [q|v]; cbn [shape_of] in H1.
    - cbn [at_place fst] in o. subst o. rewrite H1 in F2. injection F2 as F2. subst ts.
      exists (begin_src (storage_name q) us).
      assert (Hoff : v_begin w = 0).
      { cbn [find_place] in F1. rewrite F3 in F1. injection F1 as <-. reflexivity. }
      split; [congruence|]. cbn [place_src]. rewrite K1, H1. split; auto. split; auto. split; auto. split; auto.
      split; [left; auto|].
      destruct us as [|t us]; cbn [begin_src points].
      + split; auto.
      + destruct (R1 q _ F3 ltac:(discriminate)) as [Q1 Q2]. rewrite Hoff in *. split; [|split; auto].
        * intros x. apply ev_var. auto.
        * right. split; [auto|]. split; [auto|discriminate].
    - exists (Var (begin_name v)). split; [congruence|]. cbn [place_src]. rewrite K2, H1.
      split; auto. split; auto. split; auto. split; auto.
      cbn [find_place] in F1. destruct (ps_views st v) as [vw|] eqn:Ev; [|discriminate].
      destruct (ps_tuples st (vv_on vw)) as [t|] eqn:Et; [|discriminate]. injection F1 as E1 E2 E3.
      destruct (R3 v vw Ev) as (V1 & V2 & e' & m' & ts' & V3 & V4). rewrite E1 in *. rewrite F3 in Et. injection Et as <-.
      assert (ts' = ts) by congruence. subst ts'. split; [right; eauto|]. cbn [points].
      destruct (R1 o _ F3 V4) as [Q1 Q2]. split.
      + intros x. apply ev_var. cbn [st_locals]. rewrite V1. congruence.
      + split; auto.
  Qed.

  Lemma construct_any : forall e m ts args bs bs', Forall (ty_ok p e m) ts -> Forall2 (encodable p m) ts args ->
    List.length bs = tuple_size ts -> List.length bs' = tuple_size ts ->
    construct p e m ts args bs = construct p e m ts args bs'.
  Proof.
    intros e m ts args bs bs' Hok Ha Hb Hb'. unfold construct. pose proof (tuple_elements_ok p e m ts 0 Hok) as Hv.
    assert (Hts : tuple_size ts = total ts) by (apply (tuple_size_total p (tuple_at e m ts 0)); auto).
    assert (Hel : List.length (enc_list e m ts args) = total ts).
    { apply enc_list_length. eapply encodable_has; eauto. }
    pose proof (fun mem => lay_all p (tuple_at e m ts 0) args mem Hp Hv) as L.
    cbn [tuple_at v_types v_begin v_e v_m] in L. unfold tuple_at in *.
    rewrite !L; auto; try (unfold in_bounds; cbn [v_begin v_types]; lia).
    rewrite !splice_all by lia. reflexivity.
  Qed.

  Lemma copy_construct_ok : forall dst from ts r' l mem bs w, ts <> [] -> Cpp.lookup from l = Some (Address r' 0) ->
    String.eqb from dst = false -> nth_error mem r' = Some bs -> List.length bs = tuple_size ts -> all_fit sz fuel ts ->
    ex (copy_construct_src dst from ts) (mk_state l mem w)
    = Ok (mk_state ((dst, Address (List.length mem) 0) :: l) (mem ++ [bs]) w, Next).
  Proof.
    intros dst from ts r' l mem bs w Hn Hl He Hm Hb (_ & _ & Hz). destruct ts as [|t ts]; [congruence|].
    unfold copy_construct_src. rewrite ex_seq, ex_bytes. cbn [bind st_memory st_locals st_world].
    assert (Hr : r' < List.length mem) by (apply nth_error_Some; congruence).
    pose proof (half_space p sz Hh).
    rewrite (copy_ok dst from (List.length mem) r' _ _ _ 0 _ bs (indet_bytes p (tuple_size (t :: ts)))).
    - rewrite set_region_last. reflexivity.
    - rewrite lookup_cons, String.eqb_refl. reflexivity.
    - rewrite lookup_cons, He. auto.
    - rewrite indet_length. auto.
    - lia.
    - lia.
    - intros E. lia.
    - cbn [firstn skipn app]. apply last_region.
    - rewrite nth_error_app1; auto.
  Qed.

  (** tuple.hpp 118-122 *)
  Lemma operator_assign_ok : forall e m e' m' ts to from l mem w r off bs y r' off' bs' xs bs1,
    all_fit sz fuel ts -> 
    ev to (mk_state l mem w) = Ok (mk_state l mem w, Address r off) -> nth_error mem r = Some bs ->
    ev from (mk_state l mem w) = Ok (mk_state l mem w, y) ->
    (ts = [] \/ y = Address r' off' /\ nth_error mem r' = Some bs') ->
    get_each p (mk_view Pointer e' m' ts off') (seq 0 (List.length ts)) bs' = Ok xs -> Forall2 has_type ts xs ->
    lay p (mk_view Pointer e m ts off) (seq 0 (List.length ts)) xs bs = Ok bs1 ->
    ex (Expr (Call [("src", to); ("t", from)] (operator_assign_src e m e' m' ts))) (mk_state l mem w)
    = Ok (mk_state l (set_region r bs1 mem) w, Next).
  Proof.
    intros e m e' m' ts to from l mem w r off bs y r' off' bs' xs bs1 (Ht1 & Ht2 & Ht3) H1 H2 H3 H4 H5 H6 H7.
    rewrite ex_expr. rewrite (ev_call2 _ _ _ _ _ _ _ _ _ _ _ _ _ _ _ _ H1 H3). cbn [st_memory st_world].
    unfold operator_assign_src. set (l1 := [("src", Address r off); ("t", y)]).
    assert (L1 : ev (Var "src") (mk_state l1 mem w) = Ok (mk_state l1 mem w, Address r off)) by (apply ev_var; reflexivity).
    assert (L2 : ev (Var "t") (mk_state l1 mem w) = Ok (mk_state l1 mem w, y)) by (apply ev_var; reflexivity).
    rewrite ex_expr. rewrite (ev_call2 _ _ _ _ _ _ _ _ _ _ _ _ _ _ _ _ L1 L2). cbn [st_memory st_world]. fold l1.
    unfold lay_tuple_src. rewrite ex_expr.
    erewrite (LibraryProofs.lay_ok p sz fuel src dest print e m Hh Pointer ts xs _ _ _ r off bs); auto.
    - unfold make_index_sequence14. rewrite H7. cbn [bind]. unfold with_region. cbn [st_locals st_memory st_world].
      unfold back. cbn [bind st_locals st_memory st_world].
      rewrite !firstn_all2 by (rewrite ?firstn_length, !set_region_length; lia). reflexivity.
    - rewrite ev_pack.
      assert (evs (gets_src e' m' Pointer ts ts 0 (Var "t")) (mk_state l1 mem w) = Ok (mk_state l1 mem w, xs)) as ->.
      { destruct H4 as [->|[-> H4]].
        - cbn in H5. injection H5 as <-. reflexivity.
        - rewrite (gets_ok p sz fuel src dest print e' m' Hh Pointer ts _ _ r' off' bs' Ht1 Ht3 Hf L2 H4 ts 0 eq_refl).
          rewrite H5. reflexivity. }
      reflexivity.
  Qed.

  Fixpoint add_names (xs : list nat) (vals : list val) (l : list (string * value)) : list (string * value) :=
    match xs, vals with
    | x :: xs', y :: vals' => add_names xs' vals' ((binding_name x, Object y) :: l)
    | _, _ => l
    end.

  Lemma names_ok : forall e m ts r off bs mem w, all_fit sz fuel ts -> nth_error mem r = Some bs ->
    forall us i xs vals l, skipn i ts = us -> List.length xs = List.length us ->
    Cpp.lookup "__e" l = Some (Address r off) ->
    get_each p (mk_view Pointer e m ts off) (seq i (List.length us)) bs = Ok vals ->
    ex (names_src e m ts us i xs) (mk_state l mem w) = Ok (mk_state (add_names xs vals l) mem w, Next).
  Proof.
    intros e m ts r off bs mem w (Ht1 & Ht2 & Ht3) Hm. induction us as [|t us IH]; intros i [|x xs] vals l Hs Hl He Hg;
      try discriminate; cbn [names_src add_names].
    - reflexivity.
    - cbn [List.length seq get_each] in Hg.
      assert (Hi : nth_error ts i = Some t) by (rewrite <- (Nat.add_0_r i), <- nth_error_skipn, Hs; reflexivity).
      destruct (get p (mk_view Pointer e m ts off) i bs) as [v|] eqn:Eg; [|discriminate]. cbn [bind] in Hg.
      destruct (get_each p (mk_view Pointer e m ts off) (seq (S i) (List.length us)) bs) as [vals'|] eqn:Er;
        [|discriminate]. cbn [bind] in Hg. assert (vals = v :: vals') by congruence. subst vals. clear Hg.
      rewrite ex_seq, ex_auto.
      rewrite (ev_reader p sz fuel src dest print _ _ _ _ _ r off bs
                 (tuple_get_reader p sz fuel src dest print e m Hh Pointer ts i t Ht1 Ht3 Hf Hi)
                 (ev_var p sz fuel src dest print "__e" (mk_state l mem w) _ He) Hm).
      rewrite Eg. cbn [bind copied]. unfold declare. cbn [st_locals st_memory st_world].
      apply IH; auto.
      rewrite (skipn_nth_cons _ ts i t Hi) in Hs. congruence.
  Qed.

  Lemma add_names_other : forall xs vals l z, (forall n, String.eqb z (binding_name n) = false) ->
    Cpp.lookup z (add_names xs vals l) = Cpp.lookup z l.
  Proof.
    induction xs as [|x xs IH]; intros [|y vals] l z Hz; cbn [add_names]; auto.
    rewrite IH by auto. rewrite lookup_cons, Hz. reflexivity.
  Qed.

  Lemma add_names_all : forall xs vals f l,
    (forall x y, f x = Some y -> Cpp.lookup (binding_name x) l = Some (Object y)) ->
    forall x y, name_all f xs vals x = Some y -> Cpp.lookup (binding_name x) (add_names xs vals l) = Some (Object y).
  Proof.
    induction xs as [|x xs IH]; intros [|y vals] f l H; cbn [add_names name_all]; auto.
    apply IH. intros x' y'. unfold Functors.update. rewrite lookup_cons, binding_eqb.
    destruct (Nat.eqb_spec x' x); [congruence|auto].
  Qed.

  Lemma rel_names : forall reg d st l mem xs vals, rel reg d st l mem ->
    rel reg d (mk_pstate (ps_tuples st) (ps_views st) (name_all (ps_names st) xs vals)) (add_names xs vals l) mem.
  Proof.
    intros reg d st l mem xs vals (R1 & R2 & R3 & R4). split; [|split; [|split]]; cbn [ps_tuples ps_views ps_names]; auto.
    - intros o t Ho Ht. rewrite add_names_other by reflexivity. auto.
    - intros v w Hv. rewrite !add_names_other by reflexivity. auto.
    - apply add_names_all. auto.
  Qed.

  Definition op_fits (o : vop) : Prop :=
    match o with NewTuple _ _ _ ts _ => all_fit sz fuel ts | _ => True end.

  Lemma same_args_iff : forall a b, same_args a b = true <-> a = b.
  Proof.
    intros [[e m] ts] [[e' m'] ts']. unfold same_args. rewrite !andb_true_iff, tys_eqb_eq.
    assert (endianess_eqb e e' = true <-> e = e') as -> by (destruct e, e'; cbn; split; congruence).
    assert (signed_mode_eqb m m' = true <-> m = m') as -> by (destruct m, m'; cbn; split; congruence).
    split; [intros [[-> ->] ->]; auto|]. intros E. injection E as -> -> ->. auto.
  Qed.

  Lemma simulate : forall g st s reg l mem tg o st' out, agrees p g st s ->
    rel reg (en_tuples g) st l mem -> knows tg g ->
    (forall v, uses_view g o v -> In (fst (of_view s v)) (en_alive g)) ->
    types_fit g -> legal_op p g o -> op_fits o -> vstep p o st = Ok (Some (st', out)) ->
    exists c tg' reg' l' mem', statement tg o = Ok (c, tg') /\ knows tg' (env_after g o)
      /\ rel reg' (en_tuples (env_after g o)) st' l' mem'
      /\ forall w, ex c (mk_state l mem w) = Ok (mk_state l' mem' (w ++ out), Next).
  Proof.
    intros g st s reg l mem tg o st' out Ha Hr Hk Hus Hfit Hl Hof Hv.
    assert (Hplace : forall pl sh, in_scope g pl sh -> (forall v, pl = ViewVar v -> uses_view g o v) ->
      In (fst (at_place s pl)) (en_alive g)).
    { intros [n|v] sh [H1 H2] H; cbn [at_place fst]; auto. }
    pose proof Ha as (A1 & A2 & A3 & A4 & A5). pose proof Hr as (R1 & R2 & R3 & R4). pose proof Hk as [K1 K2].
    pose proof (half_space p sz Hh) as Hhs.
    destruct o as [o e m ts args|o from|o|v o i ln|v from|dst from|pl i|pl i x|b pl xs|x|x y]; cbn [legal_op] in Hl;
      cbn [vstep] in Hv; cbn [statement].
    - (* NewTuple *)
      destruct Hl as (L1 & L2 & L3). cbn [op_fits] in Hof.
      destruct (construct p e m ts args (repeat 0%Z (tuple_size ts))) as [bs|] eqn:Ec; [|discriminate].
      cbn [bind] in Hv. injection Hv as <- <-.
      assert (Hno : ps_tuples st o = None).
      { apply A2. intros Hi. destruct (A1 o Hi) as (? & ? & ? & ? & E & _). congruence. }
      pose proof (fun d' => rel_new reg (en_tuples g) d' st l mem o (mk_tuple_var e m ts bs) Hr Hno L1) as Hrel.
      cbn [tv_e tv_m tv_ts tv_bytes] in Hrel.
      eexists _, _, _, _, _. split; [reflexivity|]. split; [|split; [apply Hrel; reflexivity|]].
      + split; cbn [of_tuples of_views env_after en_tuples en_views]; intros n; auto. rewrite K1. reflexivity.
      + intros w. rewrite (tuple_some p sz fuel src dest print e m Hh _ ts _ args); auto.
        * rewrite (construct_any e m ts args _ (repeat 0%Z (tuple_size ts)));
            auto using indet_length, repeat_length. rewrite Ec. cbn [bind]. rewrite app_nil_r. reflexivity.
        * eapply encodable_has; eauto.
        * intros bs0. cbv zeta. apply evs_literals.
    - (* CopyTuple *)
      destruct Hl as (L1 & L2). destruct (A1 from L2) as (e & m & ts & bs & T1 & T2 & T3).
      rewrite T2 in Hv. injection Hv as <- <-. rewrite K1, T1.
      assert (Hno : ps_tuples st o = None).
      { apply A2. intros Hi. destruct (A1 o Hi) as (? & ? & ? & ? & E & _). congruence. }
      pose proof (fun d' => rel_new reg (en_tuples g) d' st l mem o (mk_tuple_var e m ts bs) Hr Hno L1) as Hrel.
      cbn [tv_e tv_m tv_ts tv_bytes] in Hrel.
      eexists _, _, _, _, _. split; [reflexivity|]. split; [|split; [apply Hrel; intros n; cbn [env_after en_tuples]; rewrite T1; reflexivity|]].
      + split; cbn [of_tuples of_views env_after en_tuples en_views]; intros n; auto. rewrite K1, T1. reflexivity.
      + intros w. rewrite app_nil_r. destruct (nil_or _ ts) as [->|Hn]; [reflexivity|].
        destruct (R1 from _ T2 Hn) as [Q1 Q2]. cbn [tv_bytes] in Q2.
        rewrite (copy_construct_ok _ _ _ (reg from) _ _ bs); auto.
        * destruct ts; [congruence|reflexivity].
        * rewrite storage_eqb. destruct (Nat.eqb_spec from o); auto. congruence.
        * destruct T3 as (_ & -> & _). symmetry. apply (tuple_size_total p (tuple_at e m ts 0)).
          apply tuple_elements_ok. eapply A3; eauto.
        * eapply Hfit; eauto.
    - (* EndTuple *)
      injection Hv as <- <-. eexists _, _, reg, l, mem. split; [reflexivity|]. split; [exact Hk|]. split.
      + split; [|split; [|split]]; cbn [ps_tuples ps_views ps_names]; auto.
        * intros q t. unfold Functors.update. destruct (q =? o); [discriminate|apply R1].
        * intros q q' t t'. unfold Functors.update. destruct (q =? o), (q' =? o); try discriminate. apply R2.
      + intros w. rewrite app_nil_r. reflexivity.
    - (* ViewOf *)
      destruct Hl as (L1 & L2 & e & m & ts & L3 & L3' & L4).
      destruct (A1 o L2) as (e1 & m1 & ts1 & bs & T1 & T2 & T3). rewrite L3 in T1. injection T1 as <- <- <-.
      rewrite T2 in Hv. cbn [tv_e tv_m tv_ts] in Hv. rewrite K1, L3.
      pose proof (Hfit o e m ts L3) as Hft. pose proof (fit_window ts i ln Hft) as Hfw.
      unfold sub_view in Hv. cbn [tuple_at v_types v_e v_m v_begin] in Hv.
      rewrite (clip17_ok _ (map serialization_size ts) 0 i) in Hv by (rewrite map_length; lia).
      rewrite clip17_ok in Hv by lia.
      destruct (R1 o _ T2 L3') as [Q1 Q2].
      set (us := firstn ln (skipn i ts)) in *. 
      set (off := sum17 (firstn i (skipn 0 (map serialization_size ts)))) in *.
      assert (Hoff : element_offset ts i = Ok off).
      { unfold element_offset. rewrite clip17_ok by (rewrite map_length; lia). reflexivity. }
      assert (Hle : off <= tuple_size ts).
      { destruct (element_offset_within ts i ltac:(lia)) as (o' & E & E'). congruence. }
      assert (Hst : st' = mk_pstate (ps_tuples st) (Functors.update (ps_views st) v
                (Some (mk_view_var o (mk_view Pointer e m us off)))) (ps_names st) /\ out = []).
      { destruct ts; [congruence|]. cbn [Nat.add] in Hv. split; congruence. }
      destruct Hst as [-> ->]. clear Hv.
      assert (Hstm : statement tg (ViewOf v o i ln)
        = Ok (view_var_src v o (element_offset ts i) us,
              mk_types (of_tuples tg) (fun n => if n =? v then Some (e, m, us) else of_views tg n))).
      { cbn [statement]. rewrite K1, L3. rewrite clip17_ok by lia. fold us. destruct ts; [congruence|reflexivity]. }
      cbn [statement] in Hstm. rewrite K1, L3 in Hstm. rewrite Hstm. clear Hstm.
      eexists _, _, reg, ((end_name v, Address (reg o) (off + tuple_size us)) :: (begin_name v, Address (reg o) off)
        :: ("src", Address (reg o) off) :: l), mem. split; [reflexivity|]. split; [|split].
      + split; cbn [of_tuples of_views env_after en_tuples en_views]; intros n; auto. rewrite K2, L3. reflexivity.
      + split; [|split; [|split]]; cbn [ps_tuples ps_views ps_names]; auto.
        intros v' w. unfold Functors.update. rewrite !lookup_cons, begin_eqb, end_eqb.
        replace (String.eqb (begin_name v') (end_name v)) with false by reflexivity.
        replace (String.eqb (end_name v') (begin_name v)) with false by reflexivity.
        destruct (Nat.eqb_spec v' v) as [->|Hne'].
        * intros E. injection E as <-. cbn [vv_on vv_view v_begin v_types]. split; [auto|split; [auto|]]. eauto.
        * apply R3.
      + intros w. rewrite app_nil_r. unfold view_var_src. rewrite Hoff. destruct Hft as (_ & _ & Hz).
        rewrite ex_seq, ex_auto, (ev_plus_var _ _ (reg o) off) by (auto; lia). cbn [bind copied].
        rewrite ex_seq, ex_auto, (ev_var p sz fuel src dest print "src" _ (Address (reg o) off)) by reflexivity.
        cbn [bind copied].
        rewrite ex_seq, ex_auto, (ev_var p sz fuel src dest print "src" _ (Address (reg o) off)) by reflexivity.
        cbn [bind copied].
        rewrite ex_assign, ev_next, (ev_var p sz fuel src dest print (end_name v) _ (Address (reg o) off)).
        2:{ cbn [declare st_locals]. rewrite lookup_cons, String.eqb_refl. reflexivity. }
        cbn [bind]. destruct Hfw as (_ & _ & Hz').
        rewrite ev_constant by lia. cbn [bind]. rewrite (next_ok p sz Hh) by auto. cbn [bind].
        unfold assign, declare. cbn [st_locals st_memory st_world Cpp.update]. rewrite String.eqb_refl. reflexivity.
    - (* CopyView *)
      destruct Hl as (L1 & ((e & m) & us) & L2).
      destruct (A4 from e m us L2) as (o & i & ts & w & V1 & V2 & V3 & V4 & V5 & V6). rewrite V5 in Hv.
      injection Hv as <- <-. rewrite K2, L2. destruct (R3 from _ V5) as (Q1 & Q2 & Q3).
      eexists _, _, reg, _, mem. split; [reflexivity|]. split; [|split].
      + split; cbn [of_tuples of_views env_after en_tuples en_views]; intros n; auto. rewrite K2, L2. reflexivity.
      + instantiate (1 := (end_name v, Address (reg o) (v_begin w + tuple_size (v_types w)))
                          :: (begin_name v, Address (reg o) (v_begin w)) :: l).
        split; [|split; [|split]]; cbn [ps_tuples ps_views ps_names]; auto.
        intros v' w'. unfold Functors.update. rewrite !lookup_cons, begin_eqb, end_eqb.
        replace (String.eqb (begin_name v') (end_name v)) with false by reflexivity.
        replace (String.eqb (end_name v') (begin_name v)) with false by reflexivity.
        destruct (Nat.eqb_spec v' v) as [->|Hne'].
        * intros E. injection E as <-. cbn [vv_on vv_view] in *. auto.
        * apply R3.
      + intros w'. rewrite app_nil_r, ex_seq, ex_auto, (ev_var p sz fuel src dest print _ (mk_state l mem w') _ Q1). cbn [bind copied vv_on vv_view].
        rewrite ex_auto, (ev_var p sz fuel src dest print _ _ (Address (reg o) (v_begin w + tuple_size (v_types w)))); [reflexivity|].
        cbn [declare st_locals]. rewrite lookup_cons.
        replace (String.eqb (end_name from) (begin_name v)) with false by reflexivity. auto.
    - (* Assign_ *)
      destruct Hl as (e & e' & m & ts & L1 & L2 & L0).
      assert (Ht : tys_eqb ts ts = true) by (apply tys_eqb_eq; auto).
      destruct (rebinds g dst from) eqn:Erb.
      { destruct dst as [a|a], from as [b|b]; try discriminate. destruct L1 as [L1 _], L2 as [L2 _].
        cbn [shape_of] in L1, L2. cbn [rebinds] in Erb. rewrite L1, L2 in Erb.
        destruct (shape_dec (e, m, ts) (e', m, ts)) as [Esh|]; [|discriminate]. injection Esh as <-.
        destruct (A4 a e m ts L1) as (oa & ia & tsa & wa & V1 & V2 & V3 & V4 & Ea & V6).
        destruct (A4 b e m ts L2) as (ob & ib & tsb & wb & W1 & W2 & W3 & W4 & Eb & W6).
        rewrite Ea, Eb in Hv. rewrite (same_shape_views p g st s a b _ _ _ _ Ha L1 L2 Ea Eb) in Hv.
        destruct (shape_dec (e, m, ts) (e, m, ts)); [|congruence].
        cbn [place_src]. rewrite !K2, L1, L2. cbn [bind]. rewrite Ht.
        assert (same_args (e, m, ts) (e, m, ts) = true) as -> by (apply same_args_iff; auto).
        injection Hv as <- <-.
        destruct (R3 a _ Ea) as (B1 & B2 & B3). destruct (R3 b _ Eb) as (C1 & C2 & C3).
        cbn [vv_on vv_view] in *.
        eexists _, _, reg, _, mem. split; [reflexivity|]. split; [exact Hk|].
        assert (U1 : Cpp.lookup (end_name a) (Cpp.update (begin_name a) (Address (reg ob) (v_begin wb)) l)
                     = Some (Address (reg oa) (v_begin wa + tuple_size (v_types wa)))).
        { rewrite (lookup_update _ _ _ _ _ _ B1). exact B2. }
        split.
        * instantiate (1 := Cpp.update (end_name a)
             (Address (reg ob) (v_begin wb + tuple_size (v_types wb)))
             (Cpp.update (begin_name a) (Address (reg ob) (v_begin wb)) l)).
          split; [|split; [|split]]; cbn [ps_tuples ps_views ps_names]; auto.
          -- intros o' t' Ho' Ht'. rewrite (lookup_update _ _ _ _ _ _ U1), (lookup_update _ _ _ _ _ _ B1). apply R1; auto.
          -- intros v' w'. unfold Functors.update.
             rewrite !(lookup_update _ _ _ _ _ _ U1), !(lookup_update _ _ _ _ _ _ B1), end_eqb, begin_eqb.
             replace (String.eqb (begin_name v') (end_name a)) with false by reflexivity.
             replace (String.eqb (end_name v') (begin_name a)) with false by reflexivity.
             destruct (Nat.eqb_spec v' a) as [->|Hne']; [|apply R3].
             intros E. injection E as <-. auto.
          -- intros z u Hz. rewrite (lookup_update _ _ _ _ _ _ U1), (lookup_update _ _ _ _ _ _ B1). apply R4; auto.
        * intros w. rewrite app_nil_r, ex_seq, ex_assign, (ev_var p sz fuel src dest print _ (mk_state l mem w) _ C1). cbn [bind].
          rewrite ex_assign. erewrite (ev_var p sz fuel src dest print (end_name b)); [reflexivity|].
          cbn [assign st_locals]. rewrite (lookup_update _ _ _ _ _ _ B1). exact C2. }
      assert (Hud : forall v, dst = ViewVar v -> uses_view g (Assign_ dst from) v) by (cbn [uses_view]; auto).
      assert (Huf : forall v, from = ViewVar v -> uses_view g (Assign_ dst from) v) by (cbn [uses_view]; auto).
      destruct (place_ok g st s reg l mem tg dst e m ts Ha Hr Hk (Hplace _ _ L1 Hud) Hfit L1)
        as (o & off & bs & us & to & P1 & P2 & P3 & P4 & P5 & P6 & P7 & P8 & P9).
      destruct (place_ok g st s reg l mem tg from e' m ts Ha Hr Hk (Hplace _ _ L2 Huf) Hfit L2)
        as (q & off' & bs' & us' & fr & S1 & S2 & S3 & S4 & S5 & S6 & S7 & S8 & vals & S9 & S10).
      rewrite P2, S2. cbn [bind]. rewrite P1, S1 in Hv.
      rewrite Ht.
      assert (Hsame : same_object_type (View (mk_view Pointer e m ts off)) (View (mk_view Pointer e' m ts off'))
                      = same_args (e, m, ts) (e', m, ts)) by reflexivity.
      assert (Hlay : points dst ts (reg o) off = Address (reg o) off ->
        xs <- get_each p (mk_view Pointer e' m ts off') (make_index_sequence14 (List.length ts)) bs';;
        bs1 <- lay p (mk_view Pointer e m ts off) (make_index_sequence14 (List.length ts)) xs bs;;
        Ok (Some (set_bytes st o bs1, [])) = Ok (Some (st', out)) ->
        exists mem', rel reg (en_tuples g) st' l mem' /\ forall w,
          ex (Expr (Call [("src", to); ("t", fr)] (operator_assign_src e m e' m ts))) (mk_state l mem w)
          = Ok (mk_state l mem' (w ++ out), Next)).
      { unfold make_index_sequence14. intros Hpt Hv'. rewrite S9 in Hv'. cbn [bind] in Hv'.
        destruct (lay p (mk_view Pointer e m ts off) (seq 0 (List.length ts)) vals bs) as [bs1|] eqn:El; [|discriminate].
        cbn [bind] in Hv'. injection Hv' as <- <-.
        destruct P8 as [[E _]|(E & E' & Hn)]; [congruence|]. rewrite E in P7.
        exists (set_region (reg o) bs1 mem). split; [eapply rel_set; eauto|]. intros w. rewrite app_nil_r.
        eapply (operator_assign_ok e m e' m ts to fr l mem w (reg o) off bs _ (reg q) off' bs' vals bs1); eauto.
        destruct S8 as [[_ E1]|(E1 & E2 & _)]; auto. }
      assert (Hgo : forall c, (exists mem', rel reg (en_tuples g) st' l mem' /\ forall w,
          ex c (mk_state l mem w) = Ok (mk_state l mem' (w ++ out), Next)) ->
        exists c' tg' reg' l' mem', Ok (c, tg) = Ok (c', tg') /\ knows tg' (env_after g (Assign_ dst from))
          /\ rel reg' (en_tuples g) st' l' mem' /\ forall w, ex c' (mk_state l mem w) = Ok (mk_state l' mem' (w ++ out), Next)).
      { intros c (mem' & H1 & H2). exists c, tg, reg, l, mem'. auto. }
      destruct dst as [a|a], from as [b|b]; cbn [find_place] in Hv; cbv zeta; cbv zeta in Hv.
      + change (same_object_type (Tuple (mk_view Pointer e m ts off)) (Tuple (mk_view Pointer e' m ts off')))
          with (same_args (e, m, ts) (e', m, ts)) in Hv. cbn [andb] in Hv.
        destruct (same_args (e, m, ts) (e', m, ts)) eqn:Es.
        * apply Hgo. apply same_args_iff in Es. injection Es as <-. injection Hv as <- <-.
          destruct P6 as [(Ea & -> & ->)|[[v Ev] _]]; [|discriminate]. injection Ea as ->.
          destruct S6 as [(Eb & -> & ->)|[[v Ev] _]]; [|discriminate]. injection Eb as ->.
          destruct (nil_or _ ts) as [->|Hn].
          -- exists mem. split; [eapply rel_set_empty; eauto|]. intros w. rewrite app_nil_r. reflexivity.
          -- exists (set_region (reg o) bs' mem). split; [eapply rel_set; eauto|]. intros w. rewrite app_nil_r.
             destruct (R1 o _ P4 Hn) as [Q1 Q2]. destruct (R1 q _ S4 Hn) as [Q3 Q4]. cbn [tv_bytes] in *.
             assert (Hc : copy_assign_src (storage_name o) (storage_name q) ts
                          = copy_src (storage_name o) (storage_name q) 0 (tuple_size ts)) by (destruct ts; [congruence|reflexivity]).
             rewrite Hc. destruct P3 as (_ & _ & Hz).
             apply (copy_ok _ _ (reg o) (reg q) l w _ 0 mem bs' bs); auto; try lia.
             intros E. assert (o = q) by (eapply R2; eauto). subst q. congruence.
        * cbn [has_template_assignment v_types] in Hv. destruct (nil_or _ ts) as [->|Hn]; [discriminate|].
          assert (Hd : match ts with [] => false | _ :: _ => true end = true) by (destruct ts; [congruence|reflexivity]).
          rewrite Hd in Hv. cbn [negb v_types] in Hv.
          assert (Hpt : points (TupleVar a) ts (reg o) off = Address (reg o) off) by (destruct ts; [congruence|reflexivity]).
          specialize (Hgo _ (Hlay Hpt Hv)). destruct ts; [congruence|exact Hgo].
      + cbn [andb has_template_assignment v_types] in Hv. destruct (nil_or _ ts) as [->|Hn]; [discriminate|].
        assert (Hd : match ts with [] => false | _ :: _ => true end = true) by (destruct ts; [congruence|reflexivity]).
        rewrite Hd in Hv. cbn [negb v_types] in Hv.
        assert (Hpt : points (TupleVar a) ts (reg o) off = Address (reg o) off) by (destruct ts; [congruence|reflexivity]).
        specialize (Hgo _ (Hlay Hpt Hv)). destruct ts; [congruence|exact Hgo].
      + cbn [andb has_template_assignment v_types negb] in Hv. apply Hgo. apply Hlay; auto.
      + cbn [find_place] in P1, S1.
        destruct (ps_views st a) as [va|] eqn:Ea; [|discriminate]. destruct (ps_views st b) as [vb|] eqn:Eb; [|discriminate].
        destruct (ps_tuples st (vv_on va)) as [ta|] eqn:Eta; [|discriminate].
        destruct (ps_tuples st (vv_on vb)) as [tb|] eqn:Etb; [|discriminate].
        injection P1 as Q1 Q2 Q3. injection S1 as Q4 Q5 Q6.
        rewrite Q2, Q5, Hsame in Hv.
        destruct (same_args (e, m, ts) (e', m, ts)) eqn:Es; [|apply Hgo; apply Hlay; auto].
        exfalso. apply same_args_iff in Es. destruct L1 as [L1 _], L2 as [L2 _]. cbn [shape_of] in L1, L2.
        cbn [rebinds] in Erb. rewrite L1, L2 in Erb. destruct (shape_dec (e, m, ts) (e', m, ts)); congruence.
    - (* Read *)
      destruct Hl as (e & m & ts & L1 & L2).
      destruct (place_ok g st s reg l mem tg pl e m ts Ha Hr Hk (Hplace _ _ L1 ltac:(intros; cbn [uses_view]; auto)) Hfit L1)
        as (o & off & bs & us & it & P1 & P2 & P3 & P4 & P5 & P6 & P7 & P8 & P9).
      rewrite P1 in Hv. rewrite P2. cbn [bind].
      destruct (nth_error ts i) as [t|] eqn:Et; [|apply nth_error_None in Et; lia].
      destruct (get p (mk_view Pointer e m ts off) i bs) as [y|] eqn:Eg; [|discriminate]. cbn [bind] in Hv.
      injection Hv as <- <-. eexists _, _, reg, l, mem. split; [reflexivity|]. split; [exact Hk|]. split; [exact Hr|].
      destruct P8 as [[_ E]|(E & E' & _)]; [subst; cbn in L2; lia|]. rewrite E in P7. destruct P3 as (F1 & F2 & F3).
      intros w. rewrite ex_expr, ev_functor. cbn [LibraryProofs.evs].
      rewrite (ev_reader p sz fuel src dest print _ _ _ _ _ (reg o) off bs
                 (tuple_get_reader p sz fuel src dest print e m Hh Pointer ts i t F1 F3 Hf Et) (P7 w) E').
      rewrite Eg. reflexivity.
    - (* Write *)
      destruct Hl as (e & m & ts & t & L1 & L2 & L3).
      destruct (place_ok g st s reg l mem tg pl e m ts Ha Hr Hk (Hplace _ _ L1 ltac:(intros; cbn [uses_view]; auto)) Hfit L1)
        as (o & off & bs & us & it & P1 & P2 & P3 & P4 & P5 & P6 & P7 & P8 & P9).
      rewrite P1 in Hv. rewrite P2. cbn [bind]. rewrite L2.
      destruct (set p (mk_view Pointer e m ts off) i x bs) as [bs1|] eqn:Eg; [|discriminate]. cbn [bind] in Hv.
      injection Hv as <- <-.
      destruct P8 as [[_ E]|(E & E' & Hn)]; [subst; destruct i; discriminate|]. rewrite E in P7. destruct P3 as (F1 & F2 & F3).
      eexists _, _, reg, l, (set_region (reg o) bs1 mem). split; [reflexivity|]. split; [exact Hk|].
      split; [eapply rel_set; eauto|].
      intros w. rewrite ex_expr.
      rewrite (ev_call2 p sz fuel src dest print _ _ _ _ _ _ _ (mk_state l mem w) _ (Object x) (P7 w)) by reflexivity.
      rewrite (tuple_set_setter p sz fuel src dest print e m Hh Pointer ts i t F1 F3 Hf L2 (mk_state l mem w) x (reg o) off bs E')
        by apply L3.
      rewrite Eg, app_nil_r. reflexivity.
    - (* Bind *)
      destruct Hl as (e & m & ts & L1 & L2 & L3 & L4).
      destruct (place_ok g st s reg l mem tg pl e m ts Ha Hr Hk (Hplace _ _ L1 ltac:(intros; cbn [uses_view]; auto)) Hfit L1)
        as (o & off & bs & us & it & P1 & P2 & P3 & P4 & P5 & P6 & P7 & P8 & vals & P9 & P10).
      rewrite P1 in Hv. rewrite P2. cbn [bind]. unfold tuple_size_of in Hv. cbn [v_types] in Hv.
      rewrite L2, Nat.eqb_refl in *.
      assert (Hb : bound_object b pl (mk_view Pointer e m ts off) bs = Ok bs).
      { unfold bound_object. destruct b, pl; auto. cbn [v_types].
        destruct P6 as [(_ & -> & _)|[[v Ev] _]]; [|discriminate].
        rewrite load_range_ok, slice_0_all by lia. auto. }
      rewrite Hb in Hv. cbn [bind] in Hv. rewrite P9 in Hv. cbn [bind] in Hv. injection Hv as <- <-.
      destruct (nil_or _ ts) as [->|Hn].
      + destruct xs; [|discriminate]. cbn in P9. injection P9 as <-.
        assert (Hx : exists l', rel reg (en_tuples g) st l' mem /\ forall w,
          ex (match b with ByValue => match pl with TupleVar o => copy_construct_src "__e" (storage_name o) [] | ViewVar _ => Auto "__e" it end
              | ByReference => Auto "__e" it end) (mk_state l mem w) = Ok (mk_state l' mem w, Next)).
        { assert (Hau : exists l', rel reg (en_tuples g) st l' mem /\ forall w, ex (Auto "__e" it) (mk_state l mem w) = Ok (mk_state l' mem w, Next)).
          { exists (("__e", points pl [] (reg o) off) :: l). split.
            - eapply rel_locals; [exact Hr|]. intros n. auto.
            - intros w. rewrite ex_auto, P7. destruct pl; reflexivity. }
          destruct b; [|exact Hau]. destruct pl; [|exact Hau]. exists l. auto. }
        destruct Hx as (l' & Hx1 & Hx2). eexists _, _, reg, l', mem. split; [reflexivity|]. split; [|split].
        * destruct Hk. split; auto.
        * destruct Hx1 as (X1 & X2 & X3 & X4). split; auto.
        * intros w. rewrite ex_seq, app_nil_r. specialize (Hx2 w). destruct b, pl; rewrite Hx2; reflexivity.
      + destruct P8 as [[_ E]|(E & E' & _)]; [congruence|]. rewrite E in P7.
        assert (Hx : exists r' off' l' mem', rel reg (en_tuples g) st l' mem' /\ nth_error mem' r' = Some bs
          /\ Cpp.lookup "__e" l' = Some (Address r' off') /\ off' = off /\ forall w,
          ex (match b with ByValue => match pl with TupleVar o => copy_construct_src "__e" (storage_name o) ts | ViewVar _ => Auto "__e" it end
              | ByReference => Auto "__e" it end) (mk_state l mem w) = Ok (mk_state l' mem' w, Next)).
        { assert (Hau : exists r' off' l' mem', rel reg (en_tuples g) st l' mem' /\ nth_error mem' r' = Some bs
            /\ Cpp.lookup "__e" l' = Some (Address r' off') /\ off' = off
            /\ forall w, ex (Auto "__e" it) (mk_state l mem w) = Ok (mk_state l' mem' w, Next)).
          { exists (reg o), off, (("__e", Address (reg o) off) :: l), mem. split.
            - eapply rel_locals; [exact Hr|]. intros n. auto.
            - split; auto. split; auto. split; auto. intros w. rewrite ex_auto, P7. reflexivity. }
          destruct b; [|exact Hau]. destruct pl as [q|q]; [|exact Hau].
          destruct P6 as [(Eq & -> & ->)|[[v Ev] _]]; [|discriminate]. injection Eq as ->.
          destruct (R1 o _ P4 Hn) as [Q1 Q2].
          exists (List.length mem), 0, (("__e", Address (List.length mem) 0) :: l), (mem ++ [bs]). split.
          - apply rel_more. eapply rel_locals; [exact Hr|]. intros n. auto.
          - split; [apply last_region|]. split; auto. split; auto. intros w.
            apply (copy_construct_ok _ _ _ (reg o)); auto. }
        destruct Hx as (r' & off' & l' & mem' & X1 & X2 & X3 & -> & X5).
        eexists _, _, reg, (add_names xs vals l'), mem'. split; [reflexivity|]. split; [|split].
        * destruct Hk. split; auto.
        * apply rel_names. auto.
        * intros w. rewrite ex_seq, app_nil_r. specialize (X5 w).
          pose proof (names_ok e m ts r' off bs mem' w P3 X2 ts 0 xs vals l' eq_refl L2 X3 P9) as Hnames.
          destruct b, pl; rewrite X5; exact Hnames.
    - (* ReadName *)
      destruct Hl as (t & L1). rewrite (A5 x t L1) in Hv. injection Hv as <- <-.
      eexists _, _, reg, l, mem. split; [reflexivity|]. split; [exact Hk|]. split; [exact Hr|].
      intros w. rewrite ex_expr, ev_functor. cbn [LibraryProofs.evs].
      rewrite (ev_var p sz fuel src dest print _ (mk_state l mem w) _ (R4 x _ (A5 x t L1))). reflexivity.
    - (* AssignName *)
      destruct Hl as (t & L1 & L2). rewrite (A5 x t L1) in Hv. injection Hv as <- <-.
      pose proof (R4 x _ (A5 x t L1)) as Hx.
      eexists _, _, reg, (Cpp.update (binding_name x) (Object y) l), mem. split; [reflexivity|]. split; [exact Hk|]. split.
      + split; [|split; [|split]]; cbn [ps_tuples ps_views ps_names]; auto.
        * intros o u Ho Hu. rewrite (lookup_update _ _ _ _ _ _ Hx). apply R1; auto.
        * intros v w Hw. rewrite !(lookup_update _ _ _ _ _ _ Hx). apply R3; auto.
        * intros z u. unfold Functors.update. rewrite (lookup_update _ _ _ _ _ _ Hx), binding_eqb.
          destruct (Nat.eqb_spec z x); [congruence|apply R4].
      + intros w. rewrite app_nil_r. reflexivity.
  Qed.

  Lemma types_fit_after : forall g o, types_fit g -> op_fits o -> types_fit (env_after g o).
  Proof.
    intros g o Hfit Hof. destruct o; try exact Hfit; intros q e' m' ts'; cbn [env_after en_tuples]; destruct (q =? _);
      try apply Hfit. intros E. injection E as <- <- <-. exact Hof.
  Qed.

  Lemma program_ok : forall ops g st s reg l mem tg, agrees p g st s -> rel reg (en_tuples g) st l mem -> knows tg g ->
    types_fit g -> legal p g ops -> ~ misuse g s ops -> Forall op_fits ops ->
    exists c l' mem', program_src tg ops = Ok c
      /\ forall w, ex c (mk_state l mem w) = Ok (mk_state l' mem' (w ++ printed g s ops), Next).
  Proof.
    induction ops as [|o ops IH]; intros g st s reg l mem tg Ha Hr Hk Hfit Hl Hm Hof.
    - eexists _, l, mem. split; [reflexivity|]. intros w. cbn [printed]. rewrite app_nil_r. reflexivity.
    - destruct Hl as [Hl Hl']. inversion Hof as [|? ? Ho Hof']; subst.
      destruct (step_ok p Hp g st s o Ha Hl) as [[H1 _]|(H1 & st1 & H2 & H3)].
      { exfalso. apply Hm. left. exact H1. }
      destruct (simulate g st s reg l mem tg o st1 _ Ha Hr Hk H1 Hfit Hl Ho H2)
        as (c & tg1 & reg1 & l1 & mem1 & I1 & I2 & I3 & I4).
      destruct (IH _ st1 _ reg1 l1 mem1 tg1 H3 I3 I2 (types_fit_after g o Hfit Ho) Hl') as (c' & l' & mem' & J1 & J2); auto.
      { intros H. apply Hm. right. exact H. }
      exists (c;;; c'), l', mem'. cbn [program_src]. rewrite I1. cbn [bind]. rewrite J1. split; [reflexivity|].
      intros w. rewrite ex_seq, I4. cbn [bind]. rewrite J2. cbn [printed]. rewrite app_assoc. reflexivity.
  Qed.
End Proofs.

(** ** Property C106 *)

(** Each statement of the program run with the bodies of the templates it names, down to
    the loops which read and write bytes, the program prints the values which it stored. *)
Theorem C106_programs : forall p sz fuel ops, wf_platform p -> PropertiesSource.host_sizes p sz -> 8 <= fuel ->
  legal p nothing_declared ops -> ~ dangling ops ->
  (forall o e m ts args, In (NewTuple o e m ts args) ops -> all_fit sz fuel ts) ->
  run_tuple_program p sz fuel ops = Ok (printed nothing_declared no_values ops).
Proof.
  intros p sz fuel ops Hp Hh Hf Hl Hd Hfit. rewrite <- (dangling_iff p) in Hd by auto.
  destruct (program_ok p sz fuel Hp Hh Hf ops nothing_declared vstart no_values (fun n => n) [] [] no_types)
    as (c & l' & mem' & H1 & H2); auto.
  - apply agrees_start.
  - split; [|split; [|split]]; cbn; intros; discriminate.
  - split; reflexivity.
  - intros o e m ts H. discriminate.
  - rewrite Forall_forall. intros o Ho. destruct o; cbn [op_fits]; auto. eapply Hfit; eauto.
  - unfold run_tuple_program. rewrite H1. cbn [bind]. specialize (H2 []). cbn [app] in H2.
    rewrite H2. reflexivity.
Qed.

(** The operations of Views.v, where reading, writing and copying are one step each, do
    the same. *)
Theorem C106_operations : forall p sz fuel ops, wf_platform p -> PropertiesSource.host_sizes p sz -> 8 <= fuel ->
  legal p nothing_declared ops -> ~ dangling ops ->
  (forall o e m ts args, In (NewTuple o e m ts args) ops -> all_fit sz fuel ts) ->
  exists st out, vexec p ops vstart = Ok (Some (st, out)) /\ run_tuple_program p sz fuel ops = Ok out.
Proof.
  intros p sz fuel ops Hp Hh Hf Hl Hd Hfit. destruct (proj2 (C85_programs p ops Hp Hl) Hd) as (st & H).
  exists st, (printed nothing_declared no_values ops). split; auto. apply C106_programs; auto.
Qed.

(** What is printed does not depend on the host. *)
Theorem C106_hosts : forall p p' sz sz' fuel ops, wf_platform p -> wf_platform p' ->
  PropertiesSource.host_sizes p sz -> PropertiesSource.host_sizes p' sz' -> 8 <= fuel ->
  legal p nothing_declared ops -> legal p' nothing_declared ops -> ~ dangling ops ->
  (forall o e m ts args, In (NewTuple o e m ts args) ops -> all_fit sz fuel ts /\ all_fit sz' fuel ts) ->
  run_tuple_program p sz fuel ops = run_tuple_program p' sz' fuel ops.
Proof.
  intros p p' sz sz' fuel ops Hp Hp' Hh Hh' Hf Hl Hl' Hd Hfit.
  rewrite !C106_programs; auto; intros o e m ts args H; destruct (Hfit o e m ts args H); auto.
Qed.

(** Tuples, views and names which are declared, copied, assigned and destroyed; a tuple
    without elements; a byte order which is not that of the host. *)
Definition ex_ops : list vop :=
  PropertiesViews.program
  ++ [ NewTuple 2 BIG TWOS_COMPLEMENT [] []; CopyTuple 3 2; Assign_ (TupleVar 3) (TupleVar 2);
       Bind ByValue (TupleVar 3) [];
       NewTuple 4 BIG SIGNED_MAGNITUDE [TArr (TUns 1) 2; TSig 4] [VList [VInt 0; VInt 0]; VInt 0];
       NewTuple 5 LITTLE SIGNED_MAGNITUDE [TUns 8; TArr (TUns 1) 2; TSig 4] [VInt 77; VList [VInt 5; VInt 6]; VInt (-2)];
       ViewOf 3 5 1 2;
       Assign_ (TupleVar 4) (ViewVar 3);       (* element by element, into the other byte order *)
       Bind ByReference (TupleVar 4) [5; 6];
       Read (TupleVar 4) 0; Read (TupleVar 4) 1; ReadName 6 ].

Lemma ex_ops_legal : forall p, p = pc_portable \/ p = avr_portable -> legal p nothing_declared ex_ops.
Proof. intros p [-> | ->]; unfold ex_ops, PropertiesViews.program; cbn [app]; legals;
  eexists _, _, _, _; (split; [scoped|split; [scoped|reflexivity]]).
Qed.

Example C106_example : legal pc_portable nothing_declared ex_ops /\ ~ dangling ex_ops
  /\ (forall o e m ts args, In (NewTuple o e m ts args) ex_ops -> all_fit 8 64 ts /\ all_fit 2 64 ts)
  /\ run_tuple_program pc_portable 8 64 ex_ops
     = Ok [VInt (-70000); VInt 70000; VInt 70000; VInt (-70000); VList [VInt 1; VInt 2]; VList [VInt 8; VInt 9]; VInt (-3);
           VInt 4; VList [VInt 5; VInt 6]; VInt (-2); VInt (-2)].
Proof.
  pose proof (ex_ops_legal _ (or_introl eq_refl)) as Hl. split; [exact Hl|].
  split; [apply (not_dangling pc_portable); auto using pc_portable_wf|]. split; [|vm_compute; reflexivity].
  intros o e m ts args H. unfold ex_ops, PropertiesViews.program in H. cbn [app In] in H.
  repeat match type of H with _ \/ _ => destruct H as [H|H]; [try discriminate H; injection H as <- <- <- <- <-|] end;
    try contradiction; split; split; try (split; vm_compute; (reflexivity || lia || auto 70)); repeat constructor; cbn; lia.
Qed.

Example C106_hosts_example : wf_platform pc_portable /\ wf_platform avr_portable
  /\ PropertiesSource.host_sizes pc_portable 8 /\ PropertiesSource.host_sizes avr_portable 2
  /\ legal avr_portable nothing_declared ex_ops
  /\ run_tuple_program avr_portable 2 64 ex_ops = run_tuple_program pc_portable 8 64 ex_ops.
Proof.
  split; [apply pc_portable_wf|]. split; [apply avr_portable_wf|].
  split; [cbv; intuition congruence || lia|]. split; [cbv; intuition congruence || lia|].
  split; [apply ex_ops_legal; auto|]. vm_compute. reflexivity.
Qed.

Print Assumptions C106_programs.
Print Assumptions C106_operations.
Print Assumptions C106_hosts.
