(** Property C85: programs of tuples, views and structured bindings. *)

From Coq Require Import List ZArith Lia Bool Arith.
From Verif Require Import Base CInt Spec IntModel Conditions MemFacts TypeLevel Serial TupleModel
  TypeLevelProofs IntProofs SignedProofs SerialProofs CodecFacts Bounds TupleProofs Hosts Closed PropertiesTuple
  SpecRpc Rpc RpcProofs Functors Views.
Import ListNotations.
Open Scope nat_scope.

(** ** Specification *)

(** The type of a tuple or of a view. *)
Definition shape : Type := endianess * signed_mode * list ty.

(** What the compiler knows: the types of the variables, and the tuples which
    are in scope. *)
Record env : Type := mk_env {
  en_tuples : nat -> option shape;
  en_alive : list nat;
  en_views : nat -> option shape;
  en_names : nat -> option ty
}.

Definition shape_of (g : env) (s : place) : option shape :=
  match s with TupleVar o => en_tuples g o | ViewVar v => en_views g v end.

(** A name may be used where it is declared. *)
Definition in_scope (g : env) (s : place) (sh : shape) : Prop :=
  shape_of g s = Some sh /\ forall o, s = TupleVar o -> In o (en_alive g).

Fixpoint lookup {A : Type} (z : nat) (xs : list nat) (ys : list A) : option A :=
  match xs, ys with
  | x :: xs', y :: ys' => if x =? z then Some y else lookup z xs' ys'
  | _, _ => None
  end.

(** The operation compiles, and the values which it gives to tuples can be
    encoded. *)
Definition legal_op (p : platform) (g : env) (o : vop) : Prop :=
  match o with
  | NewTuple o e m ts args =>
      en_tuples g o = None /\ Forall (ty_ok p e m) ts /\ Forall2 (encodable p m) ts args
  | CopyTuple o from => en_tuples g o = None /\ In from (en_alive g)
  | EndTuple o => In o (en_alive g)
  | ViewOf v o i l =>
      en_views g v = None /\ In o (en_alive g)
      /\ exists e m ts, en_tuples g o = Some (e, m, ts) /\ ts <> [] /\ i + l <= length ts
  | CopyView v from => en_views g v = None /\ exists sh, en_views g from = Some sh
  | Assign_ dst src =>
      exists e e' m ts, in_scope g dst (e, m, ts) /\ in_scope g src (e', m, ts)
        /\ match dst, src with
           | TupleVar _, TupleVar _ => ts = [] -> e = e'
           | TupleVar _, ViewVar _ => ts <> []
           | _, _ => True
           end
  | Read s i => exists e m ts, in_scope g s (e, m, ts) /\ i < length ts
  | Write s i x => exists e m ts t, in_scope g s (e, m, ts) /\ nth_error ts i = Some t /\ encodable p m t x
  | Bind _ s xs =>
      exists e m ts, in_scope g s (e, m, ts) /\ length xs = length ts /\ NoDup xs
        /\ Forall (fun x => en_names g x = None) xs
  | ReadName x => exists t, en_names g x = Some t
  | AssignName x y => exists t, en_names g x = Some t /\ has_type t y
  end.

Definition types_of (g : env) (s : place) : list ty :=
  match shape_of g s with Some (_, _, ts) => ts | None => [] end.

Definition env_after (g : env) (o : vop) : env :=
  match o with
  | NewTuple o e m ts _ =>
      mk_env (fun n => if n =? o then Some (e, m, ts) else en_tuples g n) (o :: en_alive g) (en_views g) (en_names g)
  | CopyTuple o from =>
      mk_env (fun n => if n =? o then en_tuples g from else en_tuples g n) (o :: en_alive g) (en_views g) (en_names g)
  | EndTuple o => mk_env (en_tuples g) (remove Nat.eq_dec o (en_alive g)) (en_views g) (en_names g)
  | ViewOf v o i l =>
      mk_env (en_tuples g) (en_alive g)
        (fun n => if n =? v then match en_tuples g o with
                                 | Some (e, m, ts) => Some (e, m, firstn l (skipn i ts))
                                 | None => None
                                 end
                  else en_views g n)
        (en_names g)
  | CopyView v from =>
      mk_env (en_tuples g) (en_alive g) (fun n => if n =? v then en_views g from else en_views g n) (en_names g)
  | Bind _ s xs =>
      mk_env (en_tuples g) (en_alive g) (en_views g)
        (fun n => match lookup n xs (types_of g s) with Some t => Some t | None => en_names g n end)
  | Assign_ _ _ | Read _ _ | Write _ _ _ | ReadName _ | AssignName _ _ => g
  end.

Definition nothing_declared : env := mk_env (fun _ => None) [] (fun _ => None) (fun _ => None).

Fixpoint legal (p : platform) (g : env) (ops : list vop) : Prop :=
  match ops with
  | [] => True
  | o :: ops' => legal_op p g o /\ legal p (env_after g o) ops'
  end.

(** Without bytes, and as if nothing were ever destroyed: a tuple is a list of
    values, a view is a tuple and the rank of its first element there, a name is
    a value. *)
Record values : Type := mk_values {
  of_tuple : nat -> list val;
  of_view : nat -> nat * nat;
  of_name : nat -> val
}.

Definition at_place (s : values) (pl : place) : nat * nat :=
  match pl with TupleVar o => (o, 0) | ViewVar v => of_view s v end.

(** The elements from rank [i] on become [xs]. *)
Definition overwrite (l : list val) (i : nat) (xs : list val) : list val :=
  firstn i l ++ xs ++ skipn (i + length xs) l.

Definition shape_dec : forall a b : shape, {a = b} + {a <> b}.
Proof.
  intros [[e m] ts] [[e' m'] ts'].
  destruct (tys_eqb ts ts') eqn:E.
  - apply tys_eqb_eq in E. destruct e, e', m, m'; (left; congruence) || (right; congruence).
  - right. intros H. assert (ts = ts') by congruence. apply tys_eqb_eq in H0. congruence.
Defined.

(** Views of the same type: the assignment changes what the first one views. *)
Definition rebinds (g : env) (dst src : place) : bool :=
  match dst, src with
  | ViewVar v, ViewVar w =>
      match en_views g v, en_views g w with
      | Some a, Some b => if shape_dec a b then true else false
      | _, _ => false
      end
  | _, _ => false
  end.

Definition set_tuple (s : values) (o : nat) (l : list val) : values :=
  mk_values (fun n => if n =? o then l else of_tuple s n) (of_view s) (of_name s).
Definition set_view (s : values) (v : nat) (w : nat * nat) : values :=
  mk_values (of_tuple s) (fun n => if n =? v then w else of_view s n) (of_name s).

(** The values of the elements of a place. *)
Definition elements (g : env) (s : values) (pl : place) : list val :=
  firstn (length (types_of g pl)) (skipn (snd (at_place s pl)) (of_tuple s (fst (at_place s pl)))).

Definition values_after (g : env) (s : values) (o : vop) : values :=
  match o with
  | NewTuple o _ _ _ args => set_tuple s o args
  | CopyTuple o from => set_tuple s o (of_tuple s from)
  | ViewOf v o i _ => set_view s v (o, i)
  | CopyView v from => set_view s v (of_view s from)
  | Assign_ dst src =>
      if rebinds g dst src then
        match dst with ViewVar v => set_view s v (at_place s src) | TupleVar _ => s end
      else
        let (o, i) := at_place s dst in set_tuple s o (overwrite (of_tuple s o) i (elements g s src))
  | Write pl j x =>
      let (o, i) := at_place s pl in set_tuple s o (overwrite (of_tuple s o) (i + j) [x])
  | Bind _ pl xs =>
      mk_values (of_tuple s) (of_view s)
        (fun n => match lookup n xs (elements g s pl) with Some y => y | None => of_name s n end)
  | AssignName x y => mk_values (of_tuple s) (of_view s) (fun n => if n =? x then y else of_name s n)
  | EndTuple _ | Read _ _ | ReadName _ => s
  end.

Definition prints (g : env) (s : values) (o : vop) : list val :=
  match o with
  | Read pl j => [nth j (elements g s pl) (VInt 0)]
  | ReadName x => [of_name s x]
  | _ => []
  end.

Fixpoint printed (g : env) (s : values) (ops : list vop) : list val :=
  match ops with
  | [] => []
  | o :: ops' => prints g s o ++ printed (env_after g o) (values_after g s o) ops'
  end.

Definition no_values : values := mk_values (fun _ => []) (fun _ => (0, 0)) (fun _ => VInt 0).

(** The environment and the values after some operations. *)
Fixpoint after (g : env) (s : values) (ops : list vop) : env * values :=
  match ops with
  | [] => (g, s)
  | o :: ops' => after (env_after g o) (values_after g s o) ops'
  end.

(** The operation reads or writes the elements of the view [v]. *)
Definition uses_view (g : env) (o : vop) (v : nat) : Prop :=
  match o with
  | Read s _ | Write s _ _ | Bind _ s _ => s = ViewVar v
  | Assign_ dst src => rebinds g dst src = false /\ (dst = ViewVar v \/ src = ViewVar v)
  | _ => False
  end.

(** The elements of a view are used after the end of the tuple it views. *)
Definition dangling (ops : list vop) : Prop :=
  exists before o rest v, ops = before ++ o :: rest
    /\ (let (g, s) := after nothing_declared no_values before in
        uses_view g o v /\ In (EndTuple (fst (of_view s v))) before).

(** ** Proofs *)

Lemma overwrite_cons : forall l i x xs, i < length l ->
  overwrite l i (x :: xs) = overwrite (overwrite l i [x]) (S i) xs.
Proof.
  intros l i x xs Hi. unfold overwrite. cbn [length app].
  assert (Hf : length (firstn i l) = i) by (rewrite firstn_length; lia).
  assert (E1 : firstn (S i) (firstn i l ++ x :: skipn (i + 1) l) = firstn i l ++ [x]).
  { replace (S i) with (length (firstn i l) + 1) by lia. rewrite firstn_app_2. reflexivity. }
  assert (E2 : skipn (S i + length xs) (firstn i l ++ x :: skipn (i + 1) l) = skipn (i + S (length xs)) l).
  { rewrite skipn_app, Hf. rewrite skipn_all2 by lia. cbn [app].
    replace (S i + length xs - i) with (S (length xs)) by lia. cbn [skipn].
    rewrite skipn_skipn. f_equal. lia. }
  rewrite E1, E2, <- app_assoc. reflexivity.
Qed.

Lemma overwrite_length : forall l i xs, i + length xs <= length l -> length (overwrite l i xs) = length l.
Proof. intros. unfold overwrite. rewrite !app_length, firstn_length, skipn_length. lia. Qed.

Lemma nth_error_overwrite1 : forall l i x j, i < length l ->
  nth_error (overwrite l i [x]) j = if j =? i then Some x else nth_error l j.
Proof.
  intros l i x j Hi. unfold overwrite. cbn [length app].
  assert (Hf : length (firstn i l) = i) by (rewrite firstn_length; lia).
  destruct (Nat.eqb_spec j i) as [->|Hne].
  - rewrite nth_error_app2 by lia. rewrite Hf, Nat.sub_diag. reflexivity.
  - destruct (Nat.lt_ge_cases j i).
    + rewrite nth_error_app1 by lia. rewrite <- (firstn_skipn i l) at 2.
      rewrite nth_error_app1 by lia. reflexivity.
    + rewrite nth_error_app2 by lia. rewrite Hf.
      destruct (j - i) as [|d] eqn:E; [lia|]. cbn [nth_error].
      replace l with (firstn (i + 1) l ++ skipn (i + 1) l) at 2 by apply firstn_skipn.
      rewrite nth_error_app2; rewrite firstn_length; [f_equal; lia|lia].
Qed.

Lemma lookup_name_all : forall xs vals f z, NoDup xs -> length xs = length vals ->
  name_all f xs vals z = match lookup z xs vals with Some y => Some y | None => f z end.
Proof.
  induction xs as [|x xs IH]; intros [|y vals] f z Hn Hl; cbn [name_all lookup]; try discriminate; auto.
  inversion Hn as [|? ? Hx Hn' E]; subst. rewrite IH by (auto; cbn in Hl; lia).
  destruct (Nat.eqb_spec x z) as [->|Hne].
  - assert (lookup z xs vals = None) as ->.
    { clear - Hx. revert vals. induction xs as [|a xs IH]; intros [|b vals]; cbn [lookup]; auto.
      destruct (Nat.eqb_spec a z); [subst; cbn in Hx; tauto|]. apply IH. cbn in Hx; tauto. }
    unfold update. rewrite Nat.eqb_refl. reflexivity.
  - destruct (lookup z xs vals); auto. unfold update.
    destruct (Nat.eqb_spec z x); [congruence|reflexivity].
Qed.

Lemma lookup_some : forall (A : Type) xs (ys : list A) z, length xs = length ys ->
  (exists y, lookup z xs ys = Some y) <-> In z xs.
Proof.
  induction xs as [|x xs IH]; intros [|y ys] z Hl; try discriminate; cbn [lookup In].
  - split; [intros (y & H); discriminate|tauto].
  - destruct (Nat.eqb_spec x z); [split; eauto|].
    rewrite IH by (cbn in Hl; lia). tauto.
Qed.

Lemma lookup_nth : forall (A : Type) xs (ys : list A) i x y, NoDup xs ->
  nth_error xs i = Some x -> nth_error ys i = Some y -> lookup x xs ys = Some y.
Proof.
  intros A xs. induction xs as [|a xs IH]; intros ys i x y Hn Hx Hy; [destruct i; discriminate|].
  inversion Hn; subst. destruct ys as [|b ys]; [destruct i; discriminate|]. cbn [lookup].
  destruct i as [|i]; cbn [nth_error] in Hx, Hy.
  - injection Hx as ->. injection Hy as ->. rewrite Nat.eqb_refl. reflexivity.
  - destruct (Nat.eqb_spec a x); [subst; exfalso; apply H1; eapply nth_error_In; eauto|]. eauto.
Qed.

Section Proofs.
  Variable p : platform.
  Hypothesis Hp : wf_platform p.

  (** The bytes hold the values. *)
  Definition holds (e : endianess) (m : signed_mode) (ts : list ty) (bs : list Z) (vals : list val) : Prop :=
    Forall is_byte bs /\ length bs = total ts /\ Forall2 (encodable p m) ts vals
    /\ forall i x, nth_error vals i = Some x -> get p (tuple_at e m ts 0) i bs = Ok x.

  Lemma holds_set : forall e m ts bs vals i t x, Forall (ty_ok p e m) ts -> holds e m ts bs vals ->
    nth_error ts i = Some t -> encodable p m t x ->
    exists bs', set p (tuple_at e m ts 0) i x bs = Ok bs' /\ holds e m ts bs' (overwrite vals i [x]).
  Proof.
    intros e m ts bs vals i t x Hok (H1 & H2 & H3 & H4) Ht Hx.
    pose proof (tuple_elements_ok p e m ts 0 Hok) as Hv.
    assert (Hb : in_bounds (tuple_at e m ts 0) bs) by (unfold in_bounds; cbn [tuple_at v_begin v_types]; lia).
    assert (Hil : i < length vals).
    { rewrite <- (Forall2_length H3). apply nth_error_Some. congruence. }
    destruct (C15_set_get p (tuple_at e m ts 0) i t x bs Hp Hv Hb H1 Ht Hx) as (bs' & Hs & Hg).
    destruct (C16_set_frame p (tuple_at e m ts 0) i t x bs bs' Hp Hv Hb Ht Hx Hs) as (F1 & F2 & F3).
    exists bs'. split; auto. split; [|split; [|split]].
    - rewrite (set_ok p _ i t) in Hs by auto. injection Hs as <-. apply Forall_splice; auto. apply enc_bytes.
    - lia.
    - apply Forall2_nth_intro.
      + rewrite overwrite_length by (cbn [length]; lia). apply (Forall2_length H3).
      + intros j a b Ha Hb'. rewrite nth_error_overwrite1 in Hb' by auto.
        destruct (Nat.eqb_spec j i) as [->|]; [congruence|].
        eapply (Forall2_nth2 _ _ _ _ _ j); eauto.
    - intros j y Hj. rewrite nth_error_overwrite1 in Hj by auto.
      destruct (Nat.eqb_spec j i) as [->|Hne]; [congruence|].
      rewrite F1 by auto. auto.
  Qed.

  Lemma holds_lay : forall e m ts i xs us bs vals (w : view) k, Forall (ty_ok p e m) ts -> holds e m ts bs vals ->
    Forall2 (encodable p m) us xs -> us = firstn (length us) (skipn (i + k) ts) -> i + k + length us <= length ts ->
    (forall J x mem, k <= J < k + length us -> length mem = total ts ->
       set p w J x mem = set p (tuple_at e m ts 0) (i + J) x mem) ->
    exists bs', lay p w (seq k (length us)) xs bs = Ok bs' /\ holds e m ts bs' (overwrite vals (i + k) xs).
  Proof.
    intros e m ts i xs. induction xs as [|x xs IH]; intros us bs vals w k Hok Hh He Hu Hle Hset.
    - inversion He; subst. cbn [length seq lay]. exists bs. split; auto.
      unfold overwrite. cbn [length app]. rewrite Nat.add_0_r, firstn_skipn. auto.
    - inversion He as [|t x' us' xs' Ht Hus E1 E2]; subst. cbn [length] in *. cbn [seq lay].
      assert (Hn : nth_error ts (i + k) = Some t /\ us' = firstn (length us') (skipn (i + S k) ts)).
      { destruct (skipn (i + k) ts) as [|a l] eqn:E; [cbn in Hu; discriminate|].
        cbn [firstn] in Hu. injection Hu as -> Hu'.
        assert (nth_error ts (i + k) = Some a).
        { rewrite <- (firstn_skipn (i + k) ts), E, nth_error_app2; rewrite firstn_length; [|lia].
          replace (i + k - Nat.min (i + k) (length ts)) with 0 by lia. reflexivity. }
        split; auto. replace (skipn (i + S k) ts) with l; auto.
        pose proof (skipn_nth_cons _ ts (i + k) a H) as S1. rewrite E in S1.
        replace (i + S k) with (S (i + k)) by lia. congruence. }
      destruct Hn as [Hn Hu'].
      destruct (holds_set e m ts bs vals (i + k) t x Hok Hh Hn Ht) as (b1 & Hs & Hh1).
      rewrite Hset; [|split; [apply Nat.le_refl|apply Nat.lt_add_pos_r, Nat.lt_0_succ]|apply Hh]. rewrite Hs. cbn [bind].
      destruct (IH us' b1 (overwrite vals (i + k) [x]) w (S k)) as (b2 & Hl & Hh2); auto.
      + lia.
      + intros J y mem HJ. apply Hset. lia.
      + exists b2. split; auto. rewrite overwrite_cons.
        * replace (S (i + k)) with (i + S k) by lia. auto.
        * destruct Hh as (_ & _ & F & _). rewrite <- (Forall2_length F). lia.
  Qed.

  (** The bytes of the program hold the values of the specification. *)
  Definition agrees (g : env) (st : pstate) (s : values) : Prop :=
    (forall o, In o (en_alive g) -> exists e m ts bs, en_tuples g o = Some (e, m, ts)
       /\ ps_tuples st o = Some (mk_tuple_var e m ts bs) /\ holds e m ts bs (of_tuple s o))
    /\ (forall o, ~ In o (en_alive g) -> ps_tuples st o = None)
    /\ (forall o e m ts, en_tuples g o = Some (e, m, ts) -> Forall (ty_ok p e m) ts)
    /\ (forall v e m us, en_views g v = Some (e, m, us) ->
         exists o i ts w, of_view s v = (o, i) /\ en_tuples g o = Some (e, m, ts)
           /\ i + length us <= length ts /\ us = firstn (length us) (skipn i ts)
           /\ ps_views st v = Some (mk_view_var o w) /\ sub_view (tuple_at e m ts 0) i (length us) = Some w)
    /\ (forall x t, en_names g x = Some t -> ps_names st x = Some (of_name s x)).

  Lemma sub_view_shape : forall e m ts i l w, sub_view (tuple_at e m ts 0) i l = Some w -> i + l <= length ts ->
    v_types w = firstn l (skipn i ts) /\ v_e w = e /\ v_m w = m /\ v_kind w = Pointer.
  Proof.
    intros e m ts i l w H Hl. unfold sub_view in H. cbn [tuple_at v_types v_e v_m v_begin] in H.
    rewrite clip17_ok in H by (rewrite map_length; lia). rewrite clip17_ok in H by lia.
    destruct ts; [discriminate|]. injection H as <-. cbn. auto.
  Qed.
  Lemma sub_view_elements : forall e m ts i l w, sub_view (tuple_at e m ts 0) i l = Some w -> ts <> [].
  Proof. intros e m [|t ts] i l w H; discriminate. Qed.

  (** A place whose tuple is there. *)
  Lemma found : forall g st s pl e m us, agrees g st s -> in_scope g pl (e, m, us) ->
    In (fst (at_place s pl)) (en_alive g) ->
    exists w bs ts, find_place st pl = Some (fst (at_place s pl), w, bs)
      /\ en_tuples g (fst (at_place s pl)) = Some (e, m, ts)
      /\ ps_tuples st (fst (at_place s pl)) = Some (mk_tuple_var e m ts bs)
      /\ holds e m ts bs (of_tuple s (fst (at_place s pl)))
      /\ Forall (ty_ok p e m) ts
      /\ v_types w = us /\ us = firstn (length us) (skipn (snd (at_place s pl)) ts)
      /\ snd (at_place s pl) + length us <= length ts
      /\ (v_e w = e /\ v_m w = m /\ v_kind w = Pointer)
      /\ (forall J mem, J < length us -> length mem = total ts ->
            get p w J mem = get p (tuple_at e m ts 0) (snd (at_place s pl) + J) mem)
      /\ (forall J x mem, J < length us -> length mem = total ts ->
            set p w J x mem = set p (tuple_at e m ts 0) (snd (at_place s pl) + J) x mem).
  Proof.
    intros g st s pl e m us (A1 & A2 & A3 & A4 & A5) [Hsh Hsc] Hal.
    destruct pl as [o|v]; cbn [at_place fst snd shape_of find_place] in *.
    - destruct (A1 o Hal) as (e1 & m1 & ts & bs & T1 & T2 & T3). rewrite Hsh in T1. injection T1 as <- <- <-.
      rewrite T2. cbn [tv_e tv_m tv_ts tv_bytes]. exists (tuple_at e m us 0), bs, us.
      repeat split; auto.
      + apply T3.
      + apply T3.
      + apply T3.
      + apply T3.
      + eapply A3; eauto.
      + cbn [skipn]. rewrite firstn_all. auto.
    - destruct (A4 v e m us Hsh) as (o & i & ts & w & V1 & V2 & V3 & V4 & V5 & V6).
      rewrite V1 in *. cbn [fst snd] in *. rewrite V5. cbn [vv_on vv_view].
      destruct (A1 o Hal) as (e1 & m1 & ts1 & bs & T1 & T2 & T3). rewrite V2 in T1. injection T1 as <- <- <-.
      rewrite T2. cbn [tv_bytes]. exists w, bs, ts.
      pose proof (A3 o e m ts V2) as Hok.
      pose proof (sub_view_shape e m ts i (length us) w V6 V3) as (W1 & W2 & W3 & W4).
      split; auto. split; auto. split; auto. split; auto. split; auto.
      split; [congruence|]. split; auto. split; auto. split; auto.
      assert (G : forall mem, length mem = total ts ->
        (forall J, J < length us -> get p w J mem = get p (tuple_at e m ts 0) (i + J) mem)
        /\ (forall J x, J < length us -> set p w J x mem = set p (tuple_at e m ts 0) (i + J) x mem)).
      { intros mem Hm.
        destruct (C20_sub_view p e m ts 0 i (length us) mem Hok (sub_view_elements _ _ _ _ _ _ V6) V3) as (w' & S1 & S2 & S3 & S4 & S5).
        - unfold total in Hm. lia.
        - rewrite V6 in S1. injection S1 as <-. auto. }
      split; intros; apply G; auto.
  Qed.

  Lemma lost : forall g st s pl e m us, agrees g st s -> in_scope g pl (e, m, us) ->
    ~ In (fst (at_place s pl)) (en_alive g) -> find_place st pl = None /\ exists v, pl = ViewVar v.
  Proof.
    intros g st s pl e m us (A1 & A2 & A3 & A4 & A5) [Hsh Hsc] Hal.
    destruct pl as [o|v]; cbn [at_place fst snd shape_of find_place] in *.
    - exfalso. apply Hal. auto.
    - destruct (A4 v e m us Hsh) as (o & i & ts & w & V1 & V2 & V3 & V4 & V5 & V6).
      rewrite V1 in *. cbn [fst] in *. rewrite V5. cbn [vv_on]. rewrite (A2 o Hal). eauto.
  Qed.

  Lemma nth_error_window : forall (A : Type) (l : list A) i n j, j < n -> i + n <= length l ->
    nth_error (firstn n (skipn i l)) j = nth_error l (i + j).
  Proof.
    intros A l i n j Hj Hl.
    assert (E : nth_error (skipn i l) j = nth_error l (i + j)).
    { rewrite <- (firstn_skipn i l) at 2. rewrite nth_error_app2; rewrite firstn_length; [|lia].
      f_equal. lia. }
    rewrite <- E. rewrite <- (firstn_skipn n (skipn i l)) at 2.
    rewrite nth_error_app1; auto. rewrite firstn_length, skipn_length. lia.
  Qed.

  (** The values read there. *)
  Lemma found_elements : forall g st s pl e m us, agrees g st s -> in_scope g pl (e, m, us) ->
    In (fst (at_place s pl)) (en_alive g) ->
    exists w bs, find_place st pl = Some (fst (at_place s pl), w, bs) /\ v_types w = us
      /\ (forall j, j < length us -> get p w j bs = Ok (nth j (elements g s pl) (VInt 0)))
      /\ length (elements g s pl) = length us
      /\ Forall2 (encodable p m) us (elements g s pl)
      /\ get_each p w (seq 0 (length us)) bs = Ok (elements g s pl)
      /\ length bs = total us + (length bs - total us).
  Proof.
    intros g st s pl e m us Ha Hs Hal.
    destruct (found g st s pl e m us Ha Hs Hal)
      as (w & bs & ts & F1 & F2 & F3 & F4 & F5 & F6 & F7 & F8 & F9 & F10 & F11).
    assert (Ht : types_of g pl = us) by (unfold types_of; rewrite (proj1 Hs); reflexivity).
    destruct F4 as (H1 & H2 & H3 & H4).
    pose proof (Forall2_length H3) as Hlen.
    assert (Hel : length (elements g s pl) = length us).
    { unfold elements. rewrite Ht, firstn_length, skipn_length. lia. }
    assert (Hg : forall j x, nth_error (elements g s pl) j = Some x -> get p w j bs = Ok x).
    { intros j x Hj. assert (j < length us) by (rewrite <- Hel; apply nth_error_Some; congruence).
      rewrite F10 by auto. apply H4. unfold elements in Hj. rewrite Ht in Hj.
      rewrite nth_error_window in Hj by lia. auto. }
    exists w, bs. split; auto. split; auto. split; [|split; [auto|split; [|split]]].
    - intros j Hj. apply Hg. apply nth_error_nth'. lia.
    - apply Forall2_nth_intro; [lia|]. intros j a b Hja Hjb.
      assert (j < length us) by (apply nth_error_Some; congruence).
      unfold elements in Hjb. rewrite Ht in Hjb. rewrite nth_error_window in Hjb by lia.
      rewrite F7, nth_error_window in Hja by lia.
      eapply (Forall2_nth2 _ _ _ _ _ _ a b H3 Hja Hjb).
    - rewrite <- F6. apply get_each_all; [congruence|]. auto.
    - assert (total us <= length bs); [|lia]. rewrite H2. rewrite F7.
      clear - F8. unfold total. rewrite <- (firstn_skipn (snd (at_place s pl)) ts) at 2.
      rewrite <- (firstn_skipn (length us) (skipn (snd (at_place s pl)) ts)) at 2.
      rewrite !map_app, !list_sum_app. lia.
  Qed.

  Lemma agrees_set : forall g st s o e m ts bs vals, agrees g st s -> In o (en_alive g) ->
    en_tuples g o = Some (e, m, ts) -> holds e m ts bs vals -> agrees g (set_bytes st o bs) (set_tuple s o vals).
  Proof.
    intros g st s o e m ts bs vals (A1 & A2 & A3 & A4 & A5) Ho He Hh.
    destruct (A1 o Ho) as (e1 & m1 & ts1 & b1 & T1 & T2 & T3). rewrite He in T1. injection T1 as <- <- <-.
    unfold set_bytes. rewrite T2. cbn [tv_e tv_m tv_ts].
    split; [|split; [|split; [|split]]]; cbn [ps_tuples ps_views ps_names set_tuple of_tuple of_view of_name]; auto.
    - intros q Hq. unfold update. destruct (Nat.eqb_spec q o) as [->|Hne].
      + exists e, m, ts, bs. auto.
      + apply A1. auto.
    - intros q Hq. unfold update. destruct (Nat.eqb_spec q o) as [->|Hne]; [tauto|auto].
  Qed.

  (** tuple.hpp 118-122 *)
  Lemma lay_places : forall g st s dst src e e' m ts, agrees g st s ->
    in_scope g dst (e, m, ts) -> in_scope g src (e', m, ts) ->
    In (fst (at_place s dst)) (en_alive g) -> In (fst (at_place s src)) (en_alive g) ->
    exists o d bs q w bs' bs1,
      find_place st dst = Some (o, d, bs) /\ find_place st src = Some (q, w, bs')
      /\ get_each p w (make_index_sequence14 (length (v_types d))) bs' = Ok (elements g s src)
      /\ lay p d (make_index_sequence14 (length (v_types d))) (elements g s src) bs = Ok bs1
      /\ agrees g (set_bytes st o bs1)
           (let (o, i) := at_place s dst in set_tuple s o (overwrite (of_tuple s o) i (elements g s src))).
  Proof.
    intros g st s dst src e e' m ts Ha Hd Hs Hda Hsa.
    destruct (found g st s dst e m ts Ha Hd Hda)
      as (d & bs & us & F1 & F2 & F3 & F4 & F5 & F6 & F7 & F8 & F9 & F10 & F11).
    destruct (found_elements g st s src e' m ts Ha Hs Hsa) as (w & bs' & E1 & E2 & E3 & E4 & E5 & E6 & E7).
    destruct (holds_lay e m us (snd (at_place s dst)) (elements g s src) ts bs
                (of_tuple s (fst (at_place s dst))) d 0) as (bs1 & L1 & L2); auto.
    - rewrite Nat.add_0_r. auto.
    - lia.
    - intros J x mem HJ Hm. apply F11; auto. lia.
    - exists (fst (at_place s dst)), d, bs, (fst (at_place s src)), w, bs', bs1.
      rewrite F6. unfold make_index_sequence14. do 4 (split; auto).
      rewrite Nat.add_0_r in L2. destruct (at_place s dst) as [o i]. cbn [fst snd] in *.
      eapply agrees_set; eauto.
  Qed.

  Lemma same_shape_views : forall g st s v w a b sa sb, agrees g st s ->
    en_views g v = Some sa -> en_views g w = Some sb -> ps_views st v = Some a -> ps_views st w = Some b ->
    same_object_type (View (vv_view a)) (View (vv_view b)) = (if shape_dec sa sb then true else false).
  Proof.
    intros g st s v w a b [[e m] us] [[e' m'] us'] (A1 & A2 & A3 & A4 & A5) Hv Hw Ha Hb.
    destruct (A4 v e m us Hv) as (o & i & ts & d & V1 & V2 & V3 & V4 & V5 & V6).
    destruct (A4 w e' m' us' Hw) as (o' & i' & ts' & d' & W1 & W2 & W3 & W4 & W5 & W6).
    rewrite V5 in Ha. rewrite W5 in Hb. injection Ha as <-. injection Hb as <-. cbn [vv_view].
    pose proof (sub_view_shape e m ts i (length us) d V6 V3) as (X1 & X2 & X3 & X4).
    pose proof (sub_view_shape e' m' ts' i' (length us') d' W6 W3) as (Y1 & Y2 & Y3 & Y4).
    rewrite <- V4 in X1. rewrite <- W4 in Y1.
    destruct (shape_dec (e, m, us) (e', m', us')) as [E|E].
    - apply same_type_iff. injection E as <- <- <-. destruct d as [k1 e1 m1 t1 b1], d' as [k2 e2 m2 t2 b2].
      cbn [v_types v_e v_m v_kind] in *. rewrite X1, X2, X3, X4, Y1, Y2, Y3, Y4.
      exists Pointer, e, m, us, b1, b2. auto.
    - apply same_type_false. intros (k & e1 & m1 & t1 & b1 & b2 & [[Q1 Q2]|[Q1 Q2]]); [discriminate|].
      apply E. injection Q1 as Q1. injection Q2 as Q2. subst d d'. cbn [v_types v_e v_m v_kind] in *. congruence.
  Qed.

  Lemma step_ok : forall g st s o, agrees g st s -> legal_op p g o ->
    ((exists v, uses_view g o v /\ ~ In (fst (of_view s v)) (en_alive g)) /\ vstep p o st = Ok None)
    \/ ((forall v, uses_view g o v -> In (fst (of_view s v)) (en_alive g))
        /\ exists st', vstep p o st = Ok (Some (st', prints g s o)) /\ agrees (env_after g o) st' (values_after g s o)).
  Proof.
    intros g st s o Ha Hl.
    assert (Hdec : forall pl e m ts, in_scope g pl (e, m, ts) ->
      In (fst (at_place s pl)) (en_alive g)
      \/ (~ In (fst (at_place s pl)) (en_alive g) /\ find_place st pl = None /\ exists v, pl = ViewVar v)).
    { intros pl e m ts H. destruct (in_dec Nat.eq_dec (fst (at_place s pl)) (en_alive g)); auto.
      right. split; auto. eapply lost; eauto. }
    pose proof Ha as (A1 & A2 & A3 & A4 & A5).
    destruct o as [o e m ts args|o from|o|v o i l|v from|dst src|pl i|pl i x|b pl xs|x|x y]; cbn [legal_op] in Hl.
    - (* NewTuple *)
      destruct Hl as (L1 & L2 & L3). right. split; [cbn; tauto|]. cbn [vstep].
      destruct (C14_get_constructed p e m ts args (repeat 0%Z (tuple_size ts)) Hp L2 L3) as (bs & Hc & Hg);
        [apply repeat_length|].
      destruct (C13_concatenation p e m ts args (repeat 0%Z (tuple_size ts)) Hp L2 L3) as (Hs & st' & Hc' & Hcon);
        [apply repeat_length|].
      rewrite Hc in Hc'. injection Hc' as <-. rewrite Hc. cbn [bind]. eexists. split; [reflexivity|].
      assert (Hh : holds e m ts bs args).
      { unfold construct in Hc. pose proof (tuple_elements_ok p e m ts 0 L2) as Hv.
        pose proof (lay_all p (tuple_at e m ts 0) args (repeat 0%Z (tuple_size ts)) Hp Hv) as L.
        cbn [tuple_at v_types v_begin v_e v_m] in L.
        assert (Hts : tuple_size ts = total ts) by (apply (tuple_size_total p (tuple_at e m ts 0)); auto).
        rewrite L in Hc; auto.
        2:{ unfold in_bounds. cbn [tuple_at v_begin v_types]. rewrite repeat_length. lia. }
        assert (Hel : length (enc_list e m ts args) = total ts).
        { apply enc_list_length. eapply encodable_has; eauto. }
        rewrite splice_all in Hc by (rewrite Hel, repeat_length; auto). injection Hc as <-.
        split; [apply enc_list_bytes|]. auto. }
      cbn [env_after values_after].
      split; [|split; [|split; [|split]]]; cbn [ps_tuples ps_views ps_names set_tuple of_tuple of_view of_name
        en_tuples en_alive en_views en_names]; auto.
      + intros q Hq. unfold update. destruct (Nat.eqb_spec q o) as [->|Hne].
        * exists e, m, ts, bs. auto.
        * destruct Hq as [->|Hq]; [congruence|]. apply A1. auto.
      + intros q Hq. unfold update. cbn in Hq. destruct (Nat.eqb_spec q o) as [->|Hne]; [tauto|]. apply A2. tauto.
      + intros q e1 m1 ts1. destruct (Nat.eqb_spec q o) as [->|Hne]; [|apply A3]. congruence.
      + intros v e1 m1 us Hv. destruct (A4 v e1 m1 us Hv) as (o' & i & ts' & w & V1 & V2 & V3).
        exists o', i, ts', w. split; auto. split; auto.
        destruct (Nat.eqb_spec o' o) as [->|Hne]; [congruence|auto].
    - (* CopyTuple *)
      destruct Hl as (L1 & L2). right. split; [cbn; tauto|]. cbn [vstep].
      destruct (A1 from L2) as (e & m & ts & bs & T1 & T2 & T3). rewrite T2.
      eexists. split; [reflexivity|]. cbn [env_after values_after].
      split; [|split; [|split; [|split]]]; cbn [ps_tuples ps_views ps_names set_tuple of_tuple of_view of_name
        en_tuples en_alive en_views en_names]; auto.
      + intros q Hq. unfold update. destruct (Nat.eqb_spec q o) as [->|Hne].
        * exists e, m, ts, bs. auto.
        * destruct Hq as [->|Hq]; [congruence|]. apply A1. auto.
      + intros q Hq. unfold update. cbn in Hq. destruct (Nat.eqb_spec q o) as [->|Hne]; [tauto|]. apply A2. tauto.
      + intros q e1 m1 ts1. destruct (Nat.eqb_spec q o) as [->|Hne]; [|apply A3]. apply A3.
      + intros v e1 m1 us Hv. destruct (A4 v e1 m1 us Hv) as (o' & i & ts' & w & V1 & V2 & V3).
        exists o', i, ts', w. split; auto. split; auto.
        destruct (Nat.eqb_spec o' o) as [->|Hne]; [congruence|auto].
    - (* EndTuple *)
      right. split; [cbn; tauto|]. cbn [vstep]. eexists. split; [reflexivity|]. cbn [env_after values_after].
      split; [|split; [|split; [|split]]]; cbn [ps_tuples ps_views ps_names en_tuples en_alive en_views en_names]; auto.
      + intros q Hq. apply in_remove in Hq. unfold update. destruct (Nat.eqb_spec q o) as [->|Hne]; [tauto|].
        apply A1. tauto.
      + intros q Hq. unfold update. destruct (Nat.eqb_spec q o) as [->|Hne]; auto.
        apply A2. intros Hi. apply Hq. apply in_in_remove; auto.
    - (* ViewOf *)
      destruct Hl as (L1 & L2 & e & m & ts & L3 & L3' & L4). right. split; [cbn; tauto|]. cbn [vstep].
      destruct (A1 o L2) as (e1 & m1 & ts1 & bs & T1 & T2 & T3). rewrite L3 in T1. injection T1 as <- <- <-.
      rewrite T2. cbn [tv_e tv_m tv_ts].
      destruct (C20_sub_view p e m ts 0 i l bs (A3 o e m ts L3) L3' L4) as (w & Hw & _).
      { destruct T3 as (_ & E & _). unfold total in E. lia. }
      rewrite Hw. eexists. split; [reflexivity|]. cbn [env_after values_after].
      split; [|split; [|split; [|split]]]; cbn [ps_tuples ps_views ps_names set_view of_tuple of_view of_name
        en_tuples en_alive en_views en_names]; auto.
      intros v' e' m' us. unfold update. destruct (Nat.eqb_spec v' v) as [->|Hne].
      + rewrite L3. intros E. injection E as <- <- <-.
        assert (Hlen : length (firstn l (skipn i ts)) = l) by (rewrite firstn_length, skipn_length; lia).
        rewrite !Hlen. exists o, i, ts, w. repeat split; auto.
      + intros Hv. apply A4. auto.
    - (* CopyView *)
      destruct Hl as (L1 & ((e & m) & us) & L2). right. split; [cbn; tauto|]. cbn [vstep].
      destruct (A4 from e m us L2) as (o & i & ts & w & V1 & V2 & V3 & V4 & V5 & V6). rewrite V5.
      eexists. split; [reflexivity|]. cbn [env_after values_after].
      split; [|split; [|split; [|split]]]; cbn [ps_tuples ps_views ps_names set_view of_tuple of_view of_name
        en_tuples en_alive en_views en_names]; auto.
      intros v' e' m' us'. unfold update. destruct (Nat.eqb_spec v' v) as [->|Hne].
      + intros E. rewrite L2 in E. injection E as <- <- <-. exists o, i, ts, w. repeat (split; auto).
      + intros Hv. apply A4. auto.
    - (* Assign_ *)
      destruct Hl as (e & e' & m & ts & L1 & L2 & L0).
      assert (Hlay : rebinds g dst src = false -> forall both,
        ((exists v, uses_view g (Assign_ dst src) v /\ ~ In (fst (of_view s v)) (en_alive g))
         /\ (match find_place st dst, find_place st src with
             | Some (o, d, bs), Some (_, w, bs') =>
                 if both && same_object_type (Tuple d) (Tuple w) then Ok (Some (set_bytes st o bs', @nil val))
                 else if negb (has_template_assignment (match dst with TupleVar _ => Tuple d | ViewVar _ => View d end))
                 then Fault TypeMismatch
                 else
                   xs <- get_each p w (make_index_sequence14 (length (v_types d))) bs';;
                   bs1 <- lay p d (make_index_sequence14 (length (v_types d))) xs bs;;
                   Ok (Some (set_bytes st o bs1, []))
             | _, _ => Ok None
             end = Ok None))
        \/ ((forall v, uses_view g (Assign_ dst src) v -> In (fst (of_view s v)) (en_alive g))
            /\ In (fst (at_place s dst)) (en_alive g) /\ In (fst (at_place s src)) (en_alive g)
            /\ exists o d bs q w bs' bs1,
                 find_place st dst = Some (o, d, bs) /\ find_place st src = Some (q, w, bs')
                 /\ get_each p w (make_index_sequence14 (length (v_types d))) bs' = Ok (elements g s src)
                 /\ lay p d (make_index_sequence14 (length (v_types d))) (elements g s src) bs = Ok bs1
                 /\ agrees g (set_bytes st o bs1) (values_after g s (Assign_ dst src)))).
      { intros Hr both. cbn [uses_view values_after]. rewrite Hr.
        destruct (Hdec dst _ _ _ L1) as [Hd|(Hd & Hf & v & ->)].
        2:{ left. split; [exists v; cbn [at_place] in Hd; auto|]. rewrite Hf. auto. }
        destruct (Hdec src _ _ _ L2) as [Hs|(Hs & Hf & v & ->)].
        2:{ left. split; [exists v; cbn [at_place] in Hs; auto|]. rewrite Hf.
            destruct (find_place st dst) as [[[? ?] ?]|]; auto. }
        right. split; [|split; auto; split; auto].
        - intros v (_ & [->| ->]); auto.
        - eapply lay_places; eauto. }
      destruct dst as [o|v].
      + (* to a tuple *)
        cbn [vstep]. destruct (Hlay eq_refl (match src with TupleVar _ => true | ViewVar _ => false end))
          as [H|(H1 & Hda & Hsa & o1 & d & bs & q & w & bs' & bs1 & H2 & H3 & H4 & H5 & H6)];
          [left; destruct src; exact H|].
        right. split; auto. rewrite H2, H3. cbn [prints env_after].
        destruct (match src with TupleVar _ => true | ViewVar _ => false end && same_object_type (Tuple d) (Tuple w)) eqn:E.
        * (* the storage is copied *)
          apply andb_true_iff in E. destruct E as [E1 E2]. destruct src as [o2|]; [|discriminate].
          eexists. split; [reflexivity|].
          apply same_type_iff in E2. destruct E2 as (k0 & e0 & m0 & t0 & x0 & y0 & [[Q1 Q2]|[Q1 Q2]]); [|discriminate].
          injection Q1 as Q1. injection Q2 as Q2.
          destruct L1 as [L1 L1']. destruct L2 as [L2 L2']. cbn [shape_of] in L1, L2.
          cbn [find_place] in H2, H3. cbn [at_place fst] in Hda, Hsa.
          destruct (A1 o Hda) as (e1 & m1 & t1 & b1 & T1 & T2 & T3). rewrite L1 in T1. injection T1 as <- <- <-.
          destruct (A1 o2 Hsa) as (e2 & m2 & t2 & b2 & U1 & U2 & U3). rewrite L2 in U1. injection U1 as <- <- <-.
          rewrite T2 in H2. rewrite U2 in H3. injection H2 as <- <- <-. injection H3 as <- <- <-.
          cbn [tuple_at tv_e tv_m tv_ts tv_bytes v_kind v_e v_m v_types] in *.
          assert (e' = e) by (unfold tuple_at in Q1, Q2; congruence). subst e'.
          cbn [values_after rebinds at_place]. unfold elements, types_of. cbn [shape_of at_place fst snd skipn].
          rewrite L2. replace (overwrite (of_tuple s o) 0 (firstn (length ts) (of_tuple s o2))) with (of_tuple s o2).
          { eapply agrees_set; eauto. }
          destruct T3 as (_ & _ & F1 & _). destruct U3 as (_ & _ & F2 & _).
          pose proof (Forall2_length F1). pose proof (Forall2_length F2).
          unfold overwrite. cbn [firstn app Nat.add]. rewrite firstn_all2 by lia.
          rewrite skipn_all2 by lia. rewrite app_nil_r. auto.
        * assert (HT : has_template_assignment (Tuple d) = true).
          { destruct L1 as [L1 _]. destruct L2 as [L2 _]. cbn [shape_of] in L1. cbn [find_place] in H2.
            cbn [at_place fst] in Hda.
            destruct (A1 o Hda) as (e1 & m1 & t1 & b1 & T1 & T2 & T3). rewrite L1 in T1. injection T1 as <- <- <-.
            rewrite T2 in H2. injection H2 as <- <- <-. destruct ts as [|t ts]; [|reflexivity].
            destruct src as [o2|v2]; [|congruence]. cbn [shape_of] in L2. cbn [find_place] in H3. cbn [at_place fst] in Hsa.
            destruct (A1 o2 Hsa) as (e2 & m2 & t2 & b2 & U1 & U2 & U3). rewrite L2 in U1. injection U1 as <- <- <-.
            rewrite U2 in H3. injection H3 as <- <- <-. rewrite <- (L0 eq_refl) in E. destruct e, m; discriminate. }
          destruct src; cbn [andb] in *; rewrite ?E, HT; cbn [negb]; rewrite H4; cbn [bind]; rewrite H5; cbn [bind];
            eexists; split; try reflexivity; exact H6.
      + destruct src as [o|w].
        * cbn [vstep]. destruct (Hlay eq_refl false)
            as [H|(H1 & Hda & Hsa & o1 & d & bs & q & w & bs' & bs1 & H2 & H3 & H4 & H5 & H6)]; [left; exact H|].
          right. split; auto. rewrite H2, H3. cbn [andb prints env_after]. rewrite H4. cbn [bind]. rewrite H5. cbn [bind].
          eexists; split; try reflexivity; exact H6.
        * cbn [vstep]. destruct L1 as [L1 _]. destruct L2 as [L2 _]. cbn [shape_of] in L1, L2.
          destruct (A4 v e m ts L1) as (o & i & us & d & V1 & V2 & V3 & V4 & V5 & V6).
          destruct (A4 w e' m ts L2) as (o' & i' & us' & d' & W1 & W2 & W3 & W4 & W5 & W6).
          rewrite V5, W5. rewrite (same_shape_views g st s v w _ _ _ _ Ha L1 L2 V5 W5).
          destruct (shape_dec (e, m, ts) (e', m, ts)) as [E|E] eqn:ED.
          -- right. assert (Hr : rebinds g (ViewVar v) (ViewVar w) = true).
             { cbn [rebinds]. rewrite L1, L2, ED. auto. }
             split; [cbn [uses_view]; intros ? (HH & _); congruence|].
             eexists. split; [reflexivity|]. cbn [env_after values_after at_place]. rewrite Hr.
             injection E as <-.
             split; [|split; [|split; [|split]]]; cbn [ps_tuples ps_views ps_names set_view of_tuple of_view of_name
               en_tuples en_alive en_views en_names]; auto.
             intros v' e2 m2 us2 Hv. unfold update. destruct (Nat.eqb_spec v' v) as [->|Hne]; [|apply A4; auto].
             rewrite L1 in Hv. injection Hv as <- <- <-. exists o', i', us', d'. repeat (split; auto).
          -- assert (Hr : rebinds g (ViewVar v) (ViewVar w) = false).
             { cbn [rebinds]. rewrite L1, L2, ED. auto. }
             destruct (Hlay Hr false)
               as [H|(H1 & Hda & Hsa & o1 & d1 & bs & q & w1 & bs' & bs1 & H2 & H3 & H4 & H5 & H6)];
               [left; exact H|].
             right. split; auto. rewrite H2, H3. cbn [prints env_after]. rewrite H4. cbn [bind]. rewrite H5. cbn [bind].
             eexists; split; try reflexivity; exact H6.
    - (* Read *)
      destruct Hl as (e & m & ts & L1 & L2). cbn [uses_view vstep prints env_after values_after].
      destruct (Hdec pl _ _ _ L1) as [Hd|(Hd & Hf & v & ->)].
      2:{ left. split; [exists v; auto|]. rewrite Hf. auto. }
      right. split; [intros v ->; auto|].
      destruct (found_elements g st s pl e m ts Ha L1 Hd) as (w & bs & E1 & E2 & E3 & _).
      rewrite E1, E3 by auto. cbn [bind]. eauto.
    - (* Write *)
      destruct Hl as (e & m & ts & t & L1 & L2 & L3). cbn [uses_view vstep prints env_after values_after].
      destruct (Hdec pl _ _ _ L1) as [Hd|(Hd & Hf & v & ->)].
      2:{ left. split; [exists v; auto|]. rewrite Hf. auto. }
      right. split; [intros v ->; auto|].
      destruct (found g st s pl e m ts Ha L1 Hd)
        as (w & bs & us & F1 & F2 & F3 & F4 & F5 & F6 & F7 & F8 & F9 & F10 & F11).
      assert (Hi : i < length ts) by (apply nth_error_Some; congruence).
      rewrite F1, F11 by (auto; apply F4).
      rewrite F7, nth_error_window in L2 by lia.
      destruct (holds_set e m us bs _ _ t x F5 F4 L2 L3) as (bs' & Hs & Hh).
      rewrite Hs. cbn [bind]. eexists. split; [reflexivity|].
      destruct (at_place s pl) as [o k]. cbn [fst snd] in *. eapply agrees_set; eauto.
    - (* Bind *)
      destruct Hl as (e & m & ts & L1 & L2 & L3 & L4). cbn [uses_view vstep prints env_after values_after].
      destruct (Hdec pl _ _ _ L1) as [Hd|(Hd & Hf & v & ->)].
      2:{ left. split; [exists v; auto|]. rewrite Hf. auto. }
      right. split; [intros v ->; auto|].
      destruct (found_elements g st s pl e m ts Ha L1 Hd) as (w & bs & E1 & E2 & E3 & E4 & E5 & E6 & E7).
      destruct (found g st s pl e m ts Ha L1 Hd)
        as (w' & bs2 & us & F1 & F2 & F3 & F4 & F5 & F6 & F7 & F8 & F9 & F10 & F11).
      rewrite E1 in F1. injection F1 as <- <-. rewrite E1. unfold tuple_size_of. rewrite E2, L2, Nat.eqb_refl.
      assert (Hb : bound_object b pl w bs = Ok bs).
      { unfold bound_object. destruct b, pl; auto.
        destruct L1 as [L1 _]. cbn [shape_of at_place fst] in *. rewrite L1 in F2. injection F2 as <-.
        assert (Hts : tuple_size (v_types w) = length bs).
        { rewrite E2. destruct F4 as (_ & -> & _). apply (tuple_size_total p (tuple_at e m ts 0)).
          apply tuple_elements_ok. auto. }
        rewrite Hts, load_range_ok, slice_0_all by lia. auto. }
      rewrite Hb. cbn [bind]. rewrite E6. cbn [bind]. eexists. split; [reflexivity|].
      assert (Ht : types_of g pl = ts) by (unfold types_of; rewrite (proj1 L1); reflexivity).
      split; [|split; [|split; [|split]]]; cbn [ps_tuples ps_views ps_names of_tuple of_view of_name
        en_tuples en_alive en_views en_names]; auto.
      intros z t. rewrite lookup_name_all by (auto; congruence). rewrite Ht. intros Hz.
      destruct (lookup z xs (elements g s pl)) as [y|] eqn:Ey; auto.
      destruct (lookup z xs ts) as [t'|] eqn:Et.
      + assert (In z xs) by (apply (lookup_some ty xs ts z); eauto; congruence).
        apply (lookup_some val xs (elements g s pl) z) in H; [|congruence]. destruct H. congruence.
      + eauto.
    - (* ReadName *)
      destruct Hl as (t & L1). right. split; [cbn; tauto|]. cbn [vstep prints env_after values_after].
      rewrite (A5 x t L1). eauto.
    - (* AssignName *)
      destruct Hl as (t & L1 & L2). right. split; [cbn; tauto|]. cbn [vstep prints env_after values_after].
      rewrite (A5 x t L1). eexists. split; [reflexivity|].
      split; [|split; [|split; [|split]]]; cbn [ps_tuples ps_views ps_names of_tuple of_view of_name]; auto.
      intros z u Hz. unfold update. destruct (Nat.eqb_spec z x); eauto.
  Qed.

  Fixpoint misuse (g : env) (s : values) (ops : list vop) : Prop :=
    match ops with
    | [] => False
    | o :: ops' =>
        (exists v, uses_view g o v /\ ~ In (fst (of_view s v)) (en_alive g))
        \/ misuse (env_after g o) (values_after g s o) ops'
    end.

  Lemma run_ok : forall ops g st s, agrees g st s -> legal p g ops ->
    (misuse g s ops /\ vexec p ops st = Ok None)
    \/ (~ misuse g s ops /\ exists st', vexec p ops st = Ok (Some (st', printed g s ops))
         /\ agrees (fst (after g s ops)) st' (snd (after g s ops))).
  Proof.
    induction ops as [|o ops IH]; intros g st s Ha Hl; cbn [misuse vexec printed after fst snd].
    - right. eauto.
    - destruct Hl as [Ho Hl].
      destruct (step_ok g st s o Ha Ho) as [[H1 H2]|(H1 & st1 & H2 & H3)].
      + left. split; auto. rewrite H2. reflexivity.
      + rewrite H2. cbn [bind]. destruct (IH _ st1 _ H3 Hl) as [[I1 I2]|(I1 & st2 & I2 & I3)]; rewrite I2; cbn [bind].
        * left. auto.
        * right. split.
          -- intros [(v & U1 & U2)|H]; auto.
          -- eauto.
  Qed.

  Lemma agrees_start : agrees nothing_declared vstart no_values.
  Proof.
    split; [|split; [|split; [|split]]]; cbn; auto; try tauto; intros; discriminate.
  Qed.

  (** What is destroyed, according to the operations and to the compiler. *)
  Definition accounts (g : env) (s : values) (h : list vop) : Prop :=
    (forall o, en_tuples g o = None -> ~ In (EndTuple o) h /\ ~ In o (en_alive g))
    /\ (forall o, en_tuples g o <> None -> (In (EndTuple o) h <-> ~ In o (en_alive g)))
    /\ (forall v sh, en_views g v = Some sh -> en_tuples g (fst (of_view s v)) <> None).

  Lemma in_last : forall (A : Type) (l : list A) a b, In a (l ++ [b]) <-> In a l \/ b = a.
  Proof. intros. rewrite in_app_iff. cbn. tauto. Qed.

  Lemma accounts_step : forall g s h o, accounts g s h -> legal_op p g o ->
    accounts (env_after g o) (values_after g s o) (h ++ [o]).
  Proof.
    intros g s h o (K1 & K2 & K3) Hl. 
    assert (Hsame : (forall q, o <> EndTuple q) ->
      (forall o', en_tuples g o' = None -> ~ In (EndTuple o') (h ++ [o]) /\ ~ In o' (en_alive g))
      /\ (forall o', en_tuples g o' <> None -> (In (EndTuple o') (h ++ [o]) <-> ~ In o' (en_alive g)))).
    { intros Hne. split; intros q Hq; rewrite in_last.
      - split; [|apply K1; auto]. intros [H|H]; [apply K1 in H; auto|]. apply (Hne q); auto.
      - rewrite <- (K2 q Hq). split; [|auto]. intros [H|H]; auto. exfalso. apply (Hne q); auto. }
    assert (Hnew : forall q sh, en_tuples g q = None -> (forall q, o <> EndTuple q) ->
      (forall o', (if o' =? q then Some sh else en_tuples g o') = None ->
         ~ In (EndTuple o') (h ++ [o]) /\ ~ In o' (q :: en_alive g))
      /\ (forall o', (if o' =? q then Some sh else en_tuples g o') <> None ->
            (In (EndTuple o') (h ++ [o]) <-> ~ In o' (q :: en_alive g)))
      /\ (forall v sh', en_views g v = Some sh' ->
            (if fst (of_view s v) =? q then Some sh else en_tuples g (fst (of_view s v))) <> None)).
    { intros q sh Hq Hne. destruct (Hsame Hne) as [S1 S2]. split; [|split].
      - intros o'. destruct (Nat.eqb_spec o' q) as [Hd|Hd]; [discriminate|]. intros H.
        destruct (S1 o' H). split; auto. cbn. intros [E|E]; [congruence|auto].
      - intros o'. destruct (Nat.eqb_spec o' q) as [Hd|Hd]; intros H.
        + subst o'. destruct (S1 q Hq) as [E _]. cbn. tauto.
        + rewrite (S2 o' H). cbn. split; [intros E [F|F]; [congruence|auto]|tauto].
      - intros v sh' Hv. destruct (fst (of_view s v) =? q); [discriminate|]. eapply K3; eauto. }
    destruct o as [o e m ts args|o from|o|v o i l|v from|dst src|pl i|pl i x|b pl xs|x|x y]; cbn [legal_op] in Hl;
      unfold accounts; cbn [env_after values_after en_tuples en_alive en_views set_tuple set_view of_view].
    - apply Hnew; [apply Hl|discriminate].
    - destruct Hl as [Hl1 Hl2].
      destruct (en_tuples g from) as [sh|] eqn:E.
      + apply Hnew; [auto|discriminate].
      + exfalso. apply (K1 from E). auto.
    - split; [|split].
      + intros q Hq. destruct (K1 q Hq) as [E1 E2]. rewrite in_last. split.
        * intros [H|H]; auto. injection H as ->. auto.
        * intros H. apply in_remove in H. tauto.
      + intros q Hq. rewrite in_last, (K2 q Hq). split.
        * intros [H|H] Hr; apply in_remove in Hr; destruct Hr as [Hr Hne]; auto. congruence.
        * intros Hr. destruct (Nat.eq_dec q o) as [->|Hne]; [auto|left]. intros Hi. apply Hr.
          apply in_in_remove; auto.
      + auto.
    - destruct Hl as (L1 & L2 & e & m & ts & L3 & _ & L4). destruct (Hsame ltac:(discriminate)) as [S1 S2].
      split; [auto|split; [auto|]]. intros v' sh. destruct (Nat.eqb_spec v' v) as [->|Hne].
      + intros _. cbn [fst]. congruence.
      + eapply K3.
    - destruct Hl as (L1 & sh1 & L2). destruct (Hsame ltac:(discriminate)) as [S1 S2].
      split; [auto|split; [auto|]]. intros v' sh. destruct (Nat.eqb_spec v' v) as [->|Hne]; eapply K3; eauto.
    - destruct Hl as (e & e' & m & ts & L1 & L2 & _). destruct (Hsame ltac:(discriminate)) as [S1 S2].
      split; [auto|split; [auto|]]. intros v' sh Hv.
      destruct (rebinds g dst src) eqn:R.
      + destruct dst as [o|v]; [discriminate|]. destruct src as [o|w]; [discriminate|].
        cbn [set_view of_view at_place]. destruct (Nat.eqb_spec v' v) as [->|Hne]; [|eapply K3; eauto].
        destruct L2 as [L2 _]. cbn [shape_of] in L2. eapply K3; eauto.
      + destruct (at_place s dst). cbn [set_tuple of_view]. eapply K3; eauto.
    - destruct (Hsame ltac:(discriminate)) as [S1 S2]. repeat split; auto; try (apply S1; auto); try (apply S2; auto).
    - destruct (Hsame ltac:(discriminate)) as [S1 S2]. split; [auto|split; [auto|]].
      destruct (at_place s pl). cbn [set_tuple of_view]. auto.
    - destruct (Hsame ltac:(discriminate)) as [S1 S2]. auto.
    - destruct (Hsame ltac:(discriminate)) as [S1 S2]. auto.
    - destruct (Hsame ltac:(discriminate)) as [S1 S2]. auto.
  Qed.

  Lemma uses_known : forall g o v, legal_op p g o -> uses_view g o v -> exists sh, en_views g v = Some sh.
  Proof.
    intros g o v Hl Hu. destruct o; cbn [uses_view legal_op] in *; try tauto.
    - destruct Hl as (e & e' & m & ts & [L1 _] & [L2 _] & _). destruct Hu as (_ & [->| ->]); cbn [shape_of] in *; eauto.
    - destruct Hl as (e & m & ts & [L1 _] & _). subst. eauto.
    - destruct Hl as (e & m & ts & t & [L1 _] & _). subst. eauto.
    - destruct Hl as (e & m & ts & [L1 _] & _). subst. eauto.
  Qed.

  Lemma misuse_iff : forall ops g s h, accounts g s h -> legal p g ops ->
    misuse g s ops <->
    exists before o rest v, ops = before ++ o :: rest
      /\ (let (g', s') := after g s before in
          uses_view g' o v /\ In (EndTuple (fst (of_view s' v))) (h ++ before)).
  Proof.
    induction ops as [|o ops IH]; intros g s h Ha Hl; cbn [misuse].
    - split; [tauto|]. intros ([|? ?] & ? & ? & ? & E & _); discriminate.
    - destruct Hl as [Ho Hl]. rewrite (IH _ _ (h ++ [o]) (accounts_step g s h o Ha Ho) Hl).
      destruct Ha as (K1 & K2 & K3). split.
      + intros [(v & U1 & U2)|(before & o1 & rest & v & -> & H)].
        * exists [], o, ops, v. split; auto. cbn [after]. split; auto. rewrite app_nil_r.
          destruct (uses_known g o v Ho U1) as (sh & Hv). apply K2; eauto.
        * exists (o :: before), o1, rest, v. split; auto. cbn [after].
          destruct (after (env_after g o) (values_after g s o) before) as [g' s']. rewrite <- app_assoc in H. auto.
      + intros ([|o0 before] & o1 & rest & v & E & H); cbn [app] in E; injection E as <- ->; cbn [after] in H.
        * left. exists v. destruct H as [U1 U2]. split; auto. rewrite app_nil_r in U2.
          destruct (uses_known g o v Ho U1) as (sh & Hv). apply K2; eauto.
        * right. exists before, o1, rest, v. split; auto.
          destruct (after (env_after g o) (values_after g s o) before) as [g' s']. rewrite <- app_assoc. auto.
  Qed.

  Lemma dangling_iff : forall ops, legal p nothing_declared ops ->
    misuse nothing_declared no_values ops <-> dangling ops.
  Proof.
    intros ops Hl. rewrite (misuse_iff ops _ _ []); auto; [reflexivity|].
    split; [|split]; cbn; try tauto; discriminate.
  Qed.
End Proofs.

(** ** C85 *)

(** A program is undefined exactly when it uses the elements of a view after the
    end of the tuple; otherwise it prints what the same program on lists of
    values prints. *)
Theorem C85_programs : forall p ops, wf_platform p -> legal p nothing_declared ops ->
  (vexec p ops vstart = Ok None <-> dangling ops)
  /\ (~ dangling ops -> exists st, vexec p ops vstart = Ok (Some (st, printed nothing_declared no_values ops))).
Proof.
  intros p ops Hp Hl. rewrite <- (dangling_iff p ops Hl).
  destruct (run_ok p Hp ops _ _ _ (agrees_start p) Hl) as [[H1 H2]|(H1 & st & H2 & _)]; rewrite H2.
  - split; [tauto|]. intros H. contradiction.
  - split; [|eauto]. split; [discriminate|contradiction].
Qed.

Lemma legal_app : forall p a g s b, legal p g (a ++ b) <-> legal p g a /\ legal p (fst (after g s a)) b.
Proof.
  induction a as [|o a IH]; intros g s b; cbn [app legal after fst]; [tauto|].
  rewrite (IH _ (values_after g s o)). tauto.
Qed.
Lemma printed_app : forall a g s b,
  printed g s (a ++ b) = printed g s a ++ printed (fst (after g s a)) (snd (after g s a)) b.
Proof.
  induction a as [|o a IH]; intros g s b; cbn [app printed after fst snd]; auto.
  rewrite IH, app_assoc. reflexivity.
Qed.
Lemma misuse_app : forall a g s b,
  misuse g s (a ++ b) <-> misuse g s a \/ misuse (fst (after g s a)) (snd (after g s a)) b.
Proof.
  induction a as [|o a IH]; intros g s b; cbn [app misuse after fst snd]; [tauto|]. rewrite IH. tauto.
Qed.

Definition assigns (x : nat) (o : vop) : Prop := exists y, o = AssignName x y.

Lemma name_kept : forall p ops g s x, legal p g ops -> en_names g x <> None -> (forall o, In o ops -> ~ assigns x o) ->
  of_name (snd (after g s ops)) x = of_name s x.
Proof.
  intros p. induction ops as [|o ops IH]; intros g s x Hl Hx Ho; cbn [after snd]; auto.
  destruct Hl as [Hl1 Hl2]. rewrite IH.
  - destruct o as [? ? ? ? ?| | | | |dst src| |pl ? ?|b pl xs| |z y]; cbn [values_after]; auto.
    + destruct (rebinds g dst src); [destruct dst; auto|]. destruct (at_place s dst). auto.
    + destruct (at_place s pl). auto.
    + cbn [of_name]. destruct (lookup x xs (elements g s pl)) eqn:E; auto.
      destruct Hl1 as (e & m & ts & L1 & L2 & L3 & L4). exfalso.
      assert (In x xs).
      { clear - E. revert E. generalize (elements g s pl). induction xs as [|a xs IH]; intros [|c l]; cbn [lookup]; try discriminate.
        destruct (Nat.eqb_spec a x); [left; auto|]. intros H. right. eapply IH; eauto. }
      rewrite Forall_forall in L4. apply L4 in H. auto.
    + cbn [of_name]. destruct (Nat.eqb_spec x z) as [->|]; auto. exfalso.
      apply (Ho (AssignName z y)); [left; auto|]. eexists; eauto.
  - auto.
  - destruct o; cbn [env_after en_names]; auto. destruct (lookup x xs (types_of g s0)); auto. discriminate.
  - intros q Hq. apply Ho. right. auto.
Qed.

(** Each name of a structured binding, be it by value or by reference, keeps the
    value which the element had, whatever happens to the tuple or to the view
    afterwards, until something is assigned to the name. *)
Theorem C85_bindings : forall p before b s xs i x rest, wf_platform p ->
  legal p nothing_declared (before ++ Bind b s xs :: rest ++ [ReadName x]) ->
  ~ dangling (before ++ Bind b s xs :: rest ++ [ReadName x]) ->
  nth_error xs i = Some x -> (forall o, In o rest -> ~ assigns x o) ->
  exists st st' out out' y,
    vexec p (before ++ [Read s i]) vstart = Ok (Some (st, out ++ [y]))
    /\ vexec p (before ++ Bind b s xs :: rest ++ [ReadName x]) vstart = Ok (Some (st', out' ++ [y])).
Proof.
  intros p before b s xs i x rest Hp Hl Hd Hx Hr.
  pose proof Hl as Hl0. rewrite (legal_app p before _ no_values) in Hl. destruct Hl as [Hl1 Hl2].
  rewrite <- (dangling_iff p _ Hl0), misuse_app in Hd.
  set (g := fst (after nothing_declared no_values before)) in *.
  set (v := snd (after nothing_declared no_values before)) in *.
  cbn [legal] in Hl2. destruct Hl2 as [Hb Hl2]. pose proof Hb as (e & m & ts & L1 & L2 & L3 & L4).
  assert (Hi : i < length ts) by (rewrite <- L2; apply nth_error_Some; congruence).
  assert (Hlr : legal p nothing_declared (before ++ [Read s i])).
  { rewrite (legal_app p before _ no_values). split; auto. cbn [legal]. split; auto. exists e, m, ts. auto. }
  destruct (run_ok p Hp _ _ _ _ (agrees_start p) Hlr) as [[M _]|(_ & st & R & _)].
  { exfalso. apply Hd. rewrite misuse_app in M. fold g v in M. destruct M as [M|M]; auto.
    right. cbn [misuse] in M |- *. destruct M as [M|[]]. left. exact M. }
  assert (Hd' : ~ misuse nothing_declared no_values (before ++ Bind b s xs :: rest ++ [ReadName x])).
  { rewrite misuse_app. exact Hd. }
  destruct (run_ok p Hp _ _ _ _ (agrees_start p) Hl0) as [[M _]|(_ & st' & R' & _)]; [contradiction|].
  rewrite R, R'. rewrite !printed_app. fold g v. cbn [printed prints app]. rewrite printed_app. cbn [printed prints app].
  exists st, st', (printed nothing_declared no_values before).
  eexists (printed nothing_declared no_values before ++ printed _ _ rest).
  exists (nth i (elements g v s) (VInt 0)). split; auto. rewrite <- app_assoc. do 5 f_equal.
  rewrite (legal_app p rest _ (values_after g v (Bind b s xs))) in Hl2. destruct Hl2 as [Hl2 _].
  rewrite (name_kept p rest _ _ x Hl2); auto.
  - cbn [values_after of_name]. erewrite lookup_nth; eauto. apply nth_error_nth'.
    rewrite (legal_app p before _ no_values) in Hl0.
    destruct (run_ok p Hp _ _ _ _ (agrees_start p) Hl1) as [[M _]|(_ & st1 & _ & Ha)]; [tauto|].
    fold g v in Ha.
    assert (Hal : In (fst (at_place v s)) (en_alive g)).
    { destruct (in_dec Nat.eq_dec (fst (at_place v s)) (en_alive g)) as [|Hn]; auto. exfalso. apply Hd. right.
      destruct (lost p g st1 v s e m ts Ha L1 Hn) as (_ & w & ->). cbn [misuse]. left. exists w. split; [reflexivity|auto]. }
    destruct (found_elements p g st1 v s e m ts Ha L1 Hal) as (? & ? & _ & _ & _ & -> & _). auto.
  - cbn [env_after en_names]. unfold types_of. rewrite (proj1 L1).
    destruct (lookup x xs ts) eqn:E; [discriminate|].
    assert (H : In x xs) by (eapply nth_error_In; eauto).
    apply (lookup_some ty xs ts x L2) in H. destruct H. congruence.
Qed.

(** What is assigned to the names has no effect on the tuples and on the
    views. *)
Definition writes_name (o : vop) : bool := match o with AssignName _ _ => true | _ => false end.
Definition reads_name (o : vop) : bool := match o with ReadName _ => true | _ => false end.

Theorem C85_names : forall p ops, forallb (fun o => negb (reads_name o)) ops = true ->
  match vexec p ops vstart with
  | Ok None => vexec p (filter (fun o => negb (writes_name o)) ops) vstart = Ok None
  | Ok (Some (st, out)) =>
      exists st', vexec p (filter (fun o => negb (writes_name o)) ops) vstart = Ok (Some (st', out))
        /\ ps_tuples st' = ps_tuples st /\ ps_views st' = ps_views st
  | Fault _ => True
  end.
Proof.
  intros p ops Hr.
  assert (Hstep : forall o st st', ps_tuples st' = ps_tuples st -> ps_views st' = ps_views st ->
    reads_name o = false -> writes_name o = false ->
    match vstep p o st with
    | Ok None => vstep p o st' = Ok None
    | Ok (Some (s1, out)) => exists s2, vstep p o st' = Ok (Some (s2, out))
        /\ ps_tuples s2 = ps_tuples s1 /\ ps_views s2 = ps_views s1
    | Fault _ => True
    end).
  { intros o [t1 v1 n1] [t2 v2 n2] Ht Hv R W. cbn [ps_tuples ps_views] in Ht, Hv. subst t2 v2.
    assert (Hf : forall pl, find_place (mk_pstate t1 v1 n2) pl = find_place (mk_pstate t1 v1 n1) pl).
    { intros [q|q]; reflexivity. }
    assert (Hs : forall q bs, ps_tuples (set_bytes (mk_pstate t1 v1 n2) q bs) = ps_tuples (set_bytes (mk_pstate t1 v1 n1) q bs)
                   /\ ps_views (set_bytes (mk_pstate t1 v1 n2) q bs) = ps_views (set_bytes (mk_pstate t1 v1 n1) q bs)).
    { intros q bs. unfold set_bytes. cbn [ps_tuples]. destruct (t1 q); auto. }
    assert (Hk : forall r : res (list Z), forall q,
      match (bs1 <- r;; Ok (Some (set_bytes (mk_pstate t1 v1 n1) q bs1, @nil val))) with
      | Ok (Some (s1, out)) => exists s2,
          (bs1 <- r;; Ok (Some (set_bytes (mk_pstate t1 v1 n2) q bs1, @nil val))) = Ok (Some (s2, out))
          /\ ps_tuples s2 = ps_tuples s1 /\ ps_views s2 = ps_views s1
      | Ok None => (bs1 <- r;; Ok (Some (set_bytes (mk_pstate t1 v1 n2) q bs1, @nil val))) = Ok None
      | Fault _ => True
      end).
    { intros r q. destruct r; cbn [bind]; auto. eexists. split; [reflexivity|]. apply Hs. }
    destruct o as [q e m ts args|q from|q|v q i l|v from|dst src|pl i|pl i x|b pl xs|x|x y];
      try discriminate; cbn [vstep ps_tuples ps_views ps_names]; rewrite ?Hf.
    - destruct (construct p e m ts args (repeat 0%Z (tuple_size ts))); cbn [bind]; auto.
      eexists. split; [reflexivity|]. auto.
    - destruct (t1 from); auto. eexists. split; [reflexivity|]. auto.
    - eexists. split; [reflexivity|]. auto.
    - destruct (t1 q) as [t|]; auto. destruct (sub_view _ i l); auto. eexists. split; [reflexivity|]. auto.
    - destruct (v1 from); auto. eexists. split; [reflexivity|]. auto.
    - assert (Hlay : forall (c : view -> view -> bool) (h : view -> bool),
        match (match find_place (mk_pstate t1 v1 n1) dst, find_place (mk_pstate t1 v1 n1) src with
               | Some (o, d, bs), Some (_, s, bs') =>
                   if c d s then Ok (Some (set_bytes (mk_pstate t1 v1 n1) o bs', @nil val))
                   else if negb (h d) then Fault TypeMismatch
                   else
                     xs <- get_each p s (make_index_sequence14 (length (v_types d))) bs';;
                     bs1 <- lay p d (make_index_sequence14 (length (v_types d))) xs bs;;
                     Ok (Some (set_bytes (mk_pstate t1 v1 n1) o bs1, []))
               | _, _ => Ok None
               end) with
        | Ok (Some (s1, out)) => exists s2,
            (match find_place (mk_pstate t1 v1 n1) dst, find_place (mk_pstate t1 v1 n1) src with
               | Some (o, d, bs), Some (_, s, bs') =>
                   if c d s then Ok (Some (set_bytes (mk_pstate t1 v1 n2) o bs', @nil val))
                   else if negb (h d) then Fault TypeMismatch
                   else
                     xs <- get_each p s (make_index_sequence14 (length (v_types d))) bs';;
                     bs1 <- lay p d (make_index_sequence14 (length (v_types d))) xs bs;;
                     Ok (Some (set_bytes (mk_pstate t1 v1 n2) o bs1, []))
               | _, _ => Ok None
               end) = Ok (Some (s2, out))
            /\ ps_tuples s2 = ps_tuples s1 /\ ps_views s2 = ps_views s1
        | Ok None => 
            (match find_place (mk_pstate t1 v1 n1) dst, find_place (mk_pstate t1 v1 n1) src with
               | Some (o, d, bs), Some (_, s, bs') =>
                   if c d s then Ok (Some (set_bytes (mk_pstate t1 v1 n2) o bs', @nil val))
                   else if negb (h d) then Fault TypeMismatch
                   else
                     xs <- get_each p s (make_index_sequence14 (length (v_types d))) bs';;
                     bs1 <- lay p d (make_index_sequence14 (length (v_types d))) xs bs;;
                     Ok (Some (set_bytes (mk_pstate t1 v1 n2) o bs1, []))
               | _, _ => Ok None
               end) = Ok None
        | Fault _ => True
        end).
      { intros c h. destruct (find_place _ dst) as [[[o d] bs]|]; auto.
        destruct (find_place _ src) as [[[o' s] bs']|]; auto.
        destruct (c d s); [eexists; split; [reflexivity|]; apply Hs|].
        destruct (negb (h d)); auto.
        destruct (get_each p s _ bs'); cbn [bind]; auto. apply Hk. }
      destruct dst as [a|a], src as [c|c].
      + apply (Hlay (fun d s => true && same_object_type (Tuple d) (Tuple s)) (fun d => has_template_assignment (Tuple d))).
      + apply (Hlay (fun d s => false && same_object_type (Tuple d) (Tuple s)) (fun d => has_template_assignment (Tuple d))).
      + apply (Hlay (fun d s => false && same_object_type (Tuple d) (Tuple s)) (fun d => has_template_assignment (View d))).
      + destruct (v1 a) as [va|]; auto. destruct (v1 c) as [vc|]; auto.
        destruct (same_object_type _ _); [eexists; split; [reflexivity|]; auto|].
        apply (Hlay (fun d s => false) (fun d => true)).
    - destruct (find_place _ pl) as [[[o d] bs]|]; auto. destruct (get p d i bs); cbn [bind]; auto.
      eexists. split; [reflexivity|]. auto.
    - destruct (find_place _ pl) as [[[o d] bs]|]; auto. apply Hk.
    - destruct (find_place _ pl) as [[[o d] bs]|]; auto. destruct (length xs =? tuple_size_of d); auto.
      destruct (bound_object b pl d bs); cbn [bind]; auto. destruct (get_each p d _ _); cbn [bind]; auto.
      eexists. split; [reflexivity|]. auto. }
  assert (Hn : forall ops st st', ps_tuples st' = ps_tuples st -> ps_views st' = ps_views st ->
    forallb (fun o => negb (reads_name o)) ops = true ->
    match vexec p ops st with
    | Ok None => vexec p (filter (fun o => negb (writes_name o)) ops) st' = Ok None
    | Ok (Some (s1, out)) =>
        exists s2, vexec p (filter (fun o => negb (writes_name o)) ops) st' = Ok (Some (s2, out))
          /\ ps_tuples s2 = ps_tuples s1 /\ ps_views s2 = ps_views s1
    | Fault _ => True
    end).
  { clear ops Hr. induction ops as [|o ops IH]; intros st st' Ht Hv Hr.
    - cbn. eauto.
    - cbn [forallb] in Hr. apply andb_true_iff in Hr. destruct Hr as [R Hr]. apply negb_true_iff in R.
      destruct (writes_name o) eqn:W.
      + destruct o; try discriminate. cbn [filter writes_name negb vexec vstep].
        destruct (ps_names st x); cbn [bind]; auto.
        specialize (IH (mk_pstate (ps_tuples st) (ps_views st) (update (ps_names st) x (Some y))) st' Ht Hv Hr).
        destruct (vexec p ops _) as [[[s1 out]|]|]; cbn [bind]; auto.
      + cbn [filter]. rewrite W. cbn [negb vexec].
        specialize (Hstep o st st' Ht Hv R W).
        destruct (vstep p o st) as [[[s1 out]|]|]; cbn [bind]; auto.
        * destruct Hstep as (s2 & -> & E1 & E2). cbn [bind]. specialize (IH s1 s2 E1 E2 Hr).
          destruct (vexec p ops s1) as [[[s3 out']|]|]; cbn [bind]; auto.
          -- destruct IH as (s4 & -> & E3 & E4). cbn [bind]. eauto.
          -- rewrite IH. reflexivity.
        * rewrite Hstep. reflexivity. }
  apply Hn; auto.
Qed.

(** The names of a binding by reference do not refer to the elements: what is
    written through them is not seen in the tuple, and what is written in the
    tuple is not seen through them. *)
Definition by_reference : list vop :=
  [ NewTuple 0 LITTLE TWOS_COMPLEMENT [TSig 2; TArr (TUns 1) 2] [VInt 3; VList [VInt 1; VInt 2]];
    Bind ByReference (TupleVar 0) [0; 1];
    AssignName 0 (VInt 9);
    Read (TupleVar 0) 0;
    Write (TupleVar 0) 1 (VList [VInt 7; VInt 8]);
    ReadName 1 ].


Ltac scoped := split; [reflexivity | let q := fresh in let E := fresh in
  intros q E; (discriminate E || (injection E as <-; cbn; auto))].

Ltac legals :=
  cbn [legal];
  repeat match goal with
  | |- True => exact I
  | |- legal_op _ _ _ /\ _ => split
  | |- legal_op _ _ (NewTuple _ _ _ _ _) => split; [reflexivity|split; [tyoks|encs]]
  | |- legal_op _ _ (CopyTuple _ _) => split; [reflexivity|cbn; auto]
  | |- legal_op _ _ (EndTuple _) => cbn; auto
  | |- legal_op _ _ (ViewOf _ _ _ _) =>
      split; [reflexivity|split; [cbn; auto|eexists _, _, _; split; [reflexivity|split; [discriminate|cbn; lia]]]]
  | |- legal_op _ _ (CopyView _ _) => split; [reflexivity|eexists; reflexivity]
  | |- legal_op _ _ (Assign_ _ _) => eexists _, _, _, _; split; [scoped|split; [scoped|discriminate || exact I]]
  | |- legal_op _ _ (Read _ _) => eexists _, _, _; split; [scoped|cbn; lia]
  | |- legal_op _ _ (Write _ _ _) => eexists _, _, _, _; split; [scoped|split; [reflexivity|encs]]
  | |- legal_op _ _ (Bind _ _ _) =>
      eexists _, _, _; split; [scoped|split; [reflexivity|split;
        [repeat constructor; cbn; intuition discriminate|repeat constructor]]]
  | |- legal_op _ _ (ReadName _) => eexists; reflexivity
  | |- legal_op _ _ (AssignName _ _) => eexists; split; [reflexivity|range]
  end.

Lemma by_reference_legal : legal pc_portable nothing_declared by_reference.
Proof. unfold by_reference. legals. Qed.

Theorem C85_reference_refuted : exists p ops st, wf_platform p /\ legal p nothing_declared ops /\ ~ dangling ops
  /\ ops = by_reference
  /\ vexec p ops vstart = Ok (Some (st, [VInt 3; VList [VInt 1; VInt 2]])).
Proof.
  exists pc_portable, by_reference.
  destruct (C85_programs pc_portable by_reference pc_portable_wf by_reference_legal) as [H1 H2].
  assert (Hd : ~ dangling by_reference) by (rewrite <- H1; intros H; vm_compute in H; discriminate).
  destruct (H2 Hd) as (st & H). exists st.
  split; [apply pc_portable_wf|]. split; [apply by_reference_legal|]. split; auto.
Qed.

(** A view of a temporary, or of a variable which a function returned from, is
    used although nothing says that it may not. *)
Definition view_of_temporary : list vop :=
  [ NewTuple 0 BIG TWOS_COMPLEMENT [TSig 2; TUns 4; TUns 1] [VInt (-3); VInt 70000; VInt 5];
    ViewOf 0 0 1 2;
    EndTuple 0;
    Read (ViewVar 0) 1 ].

Theorem C85_outlives_refuted : exists p ops, wf_platform p /\ legal p nothing_declared ops
  /\ ops = view_of_temporary /\ vexec p ops vstart = Ok None.
Proof.
  exists pc_portable, view_of_temporary. split; [apply pc_portable_wf|]. split; [unfold view_of_temporary; legals|].
  split; auto.
Qed.

Lemma not_dangling : forall p ops, wf_platform p -> legal p nothing_declared ops ->
  match vexec p ops vstart with Ok (Some _) => true | _ => false end = true -> ~ dangling ops.
Proof.
  intros p ops Hp Hl H. rewrite <- (proj1 (C85_programs p ops Hp Hl)). intros E. rewrite E in H. discriminate.
Qed.

(** A program which does all of this. *)
Definition program : list vop :=
  [ NewTuple 0 LITTLE SIGNED_MAGNITUDE [TSig 2; TArr (TUns 1) 2; TSig 4] [VInt (-3); VList [VInt 1; VInt 2]; VInt 70000];
    ViewOf 0 0 1 2;
    CopyTuple 1 0;
    ViewOf 1 1 1 2;
    Bind ByValue (ViewVar 0) [0; 1];
    Write (ViewVar 0) 1 (VInt (-70000));       (* seen through the tuple 0, not through 1 *)
    Read (TupleVar 0) 2;
    Read (TupleVar 1) 2;
    ReadName 1;
    Assign_ (TupleVar 1) (TupleVar 0);         (* copies the storage *)
    Read (ViewVar 1) 1;
    Assign_ (ViewVar 0) (ViewVar 1);           (* views 1 from now on *)
    EndTuple 0;
    Write (ViewVar 0) 0 (VList [VInt 8; VInt 9]);
    Bind ByReference (TupleVar 1) [2; 3; 4];
    EndTuple 1;
    CopyView 2 0;                              (* no element is used *)
    ReadName 0; ReadName 3; ReadName 2;
    AssignName 2 (VInt 4); ReadName 2 ].

Example C85_example : legal pc_portable nothing_declared program /\ ~ dangling program
  /\ printed nothing_declared no_values program
     = [VInt (-70000); VInt 70000; VInt 70000; VInt (-70000); VList [VInt 1; VInt 2]; VList [VInt 8; VInt 9]; VInt (-3);
        VInt 4].
Proof.
  assert (Hl : legal pc_portable nothing_declared program)  by (unfold program; legals).
  split; auto. split; [|vm_compute; reflexivity].
  apply (not_dangling pc_portable); auto using pc_portable_wf.
Qed.

Example C85_dangling_example : dangling view_of_temporary.
Proof.
  exists [ NewTuple 0 BIG TWOS_COMPLEMENT [TSig 2; TUns 4; TUns 1] [VInt (-3); VInt 70000; VInt 5];
           ViewOf 0 0 1 2; EndTuple 0 ], (Read (ViewVar 0) 1), [], 0.
  split; [reflexivity|]. cbn. auto.
Qed.

(** The hypotheses of [C85_bindings] and of [C85_names]. *)
Example C85_bindings_example :
  exists before b s xs i x rest,
    legal pc_portable nothing_declared (before ++ Bind b s xs :: rest ++ [ReadName x])
    /\ ~ dangling (before ++ Bind b s xs :: rest ++ [ReadName x])
    /\ nth_error xs i = Some x /\ (forall o, In o rest -> ~ assigns x o)
    /\ In (EndTuple 0) rest /\ In (Write (ViewVar 0) 0 (VList [VInt 5; VInt 6])) rest.
Proof.
  exists [ NewTuple 0 LITTLE SIGNED_MAGNITUDE [TSig 2; TArr (TUns 1) 2] [VInt (-3); VList [VInt 1; VInt 2]];
           ViewOf 0 0 1 1 ], ByReference, (ViewVar 0), [4], 0, 4,
         [Write (ViewVar 0) 0 (VList [VInt 5; VInt 6]); EndTuple 0].
  assert (Hl : legal pc_portable nothing_declared
    ([ NewTuple 0 LITTLE SIGNED_MAGNITUDE [TSig 2; TArr (TUns 1) 2] [VInt (-3); VList [VInt 1; VInt 2]]; ViewOf 0 0 1 1 ]
     ++ Bind ByReference (ViewVar 0) [4] :: [Write (ViewVar 0) 0 (VList [VInt 5; VInt 6]); EndTuple 0] ++ [ReadName 4]))
    by (cbn [app]; legals).
  split; auto. split.
  - apply (not_dangling pc_portable); auto using pc_portable_wf.
  - split; [reflexivity|]. split; [|cbn; auto].
    intros o [<-|[<-|[]]] (y & E); discriminate.
Qed.

Example C85_names_example :
  let ops := firstn 5 by_reference in
  forallb (fun o => negb (reads_name o)) ops = true
  /\ length (filter (fun o => negb (writes_name o)) ops) = 4
  /\ exists st, vexec pc_portable ops vstart = Ok (Some (st, [VInt 3])).
Proof. split; [reflexivity|]. split; [reflexivity|]. eexists. reflexivity. Qed.

Print Assumptions C85_programs.
Print Assumptions C85_bindings.
Print Assumptions C85_names.
Print Assumptions C85_reference_refuted.
Print Assumptions C85_outlives_refuted.
