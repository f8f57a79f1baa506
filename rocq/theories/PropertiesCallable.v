(** Properties C70, C71 and C72: the types of callbacks, byte getters and byte
    putters. *)

From Coq Require Import List ZArith Bool Arith Lia.
From Verif Require Import Base CInt IntModel TypeLevel Serial TupleModel Convert Callable.
From Verif Require Import TupleProofs.
Import ListNotations.
Open Scope nat_scope.

(** ** Vocabulary *)

(** An object of type [t] is called as the function declared by [f], [t] not
    being a reference nor a function: a pointer to a function or to a member
    function, or a class with one [operator()], perhaps [const] or
    [volatile]. *)
Inductive object_declares : ctype -> fn -> Prop :=
| od_pointer : forall f, object_declares (PointerTo (Function f)) f
| od_member : forall f q, object_declares (MemberPointer f q) f
| od_functor : forall f q, object_declares (Functor f q) f
| od_const : forall t f, object_declares t f -> object_declares (Const t) f
| od_volatile : forall t f, object_declares t f -> object_declares (Volatile t) f.

(** [t] is a function or such an object, or a reference to it. *)
Definition declares (t : ctype) (f : fn) : Prop :=
  exists u, (t = u \/ t = Lref u \/ t = Rref u)
            /\ (u = Function f \/ object_declares u f).

(** The declarations whose type is [R(Args...)]: no C ellipsis and, since C++17,
    no [noexcept]. *)
Definition simple (std : standard) (f : fn) : Prop :=
  fn_ellipsis f = false /\ (std = Cpp17 -> fn_noexcept f = false).

(** A member function with the qualifiers [q] can be called on an lvalue (or an
    rvalue) which is [const] or not, [volatile] or not. *)
Definition may_call (q : quals) (c v lvalue : bool) : Prop :=
  (c = true -> q_const q = true) /\ (v = true -> q_volatile q = true)
  /\ (q_ref q = LvalueRef -> lvalue = true \/ (q_const q = true /\ q_volatile q = false))
  /\ (q_ref q = RvalueRef -> lvalue = false).

Inductive invokes (lvalue : bool) : bool -> bool -> ctype -> fn -> Prop :=
| in_function : forall c v f, invokes lvalue c v (Function f) f
| in_pointer : forall c v f, invokes lvalue c v (PointerTo (Function f)) f
| in_functor : forall c v f q, may_call q c v lvalue -> invokes lvalue c v (Functor f q) f
| in_const : forall c v t f, invokes lvalue true v t f -> invokes lvalue c v (Const t) f
| in_volatile : forall c v t f, invokes lvalue c true t f -> invokes lvalue c v (Volatile t) f.

(** [std::declval<T>()(...)] is a call of the function declared by [f]. *)
Definition called_as (t : ctype) (f : fn) : Prop :=
  match t with
  | Lref u => invokes true false false u f
  | Rref u => invokes false false false u f
  | _ => invokes false false false t f
  end.

(** ** Proofs *)

Lemma designate_spec : forall t c v lv u d,
  designate t (mk_designation c v lv) = (u, d) ->
  forall f, invokes lv c v t f <->
            (u = Function f \/ u = PointerTo (Function f)
             \/ exists q, u = Functor f q /\ may_call q (d_const d) (d_volatile d) (d_lvalue d)).
Proof.
  induction t; intros c v lv u d E g; cbn [designate] in E;
    try (injection E as <- <-; split;
         [ intros H; inversion H; subst; eauto 6
         | intros [H | [H | [q' [H Hm]]]]; try discriminate H;
           injection H; intros; subst; constructor; assumption ]).
  - apply (IHt true v lv u d) with (f := g) in E. rewrite <- E. split; intros H.
    + inversion H; subst. assumption.
    + constructor. assumption.
  - apply (IHt c true lv u d) with (f := g) in E. rewrite <- E. split; intros H.
    + inversion H; subst. assumption.
    + constructor. assumption.
Qed.

Lemma accepts_spec : forall q d,
  accepts q d = true <-> may_call q (d_const d) (d_volatile d) (d_lvalue d).
Proof.
  intros [c v r] [dc dv dl]. unfold accepts, may_call. cbn [q_const q_volatile q_ref d_const d_volatile d_lvalue].
  destruct c, v, r, dc, dv, dl; cbn; split; intros H;
    repeat split; try discriminate; try reflexivity; auto;
    try (destruct H as [H1 [H2 [H3 H4]]];
         try (discriminate (H1 eq_refl)); try (discriminate (H2 eq_refl));
         try (destruct (H3 eq_refl) as [H5 | [H5 H6]]; discriminate);
         try (discriminate (H4 eq_refl)));
    try (intros _; right; split; reflexivity).
Qed.

Lemma remove_cv_declares : forall t f,
  object_declares t f <-> (remove_cv t = PointerTo (Function f)
                           \/ exists q, remove_cv t = MemberPointer f q \/ remove_cv t = Functor f q).
Proof.
  induction t; intros g; cbn [remove_cv];
    try (split;
         [ intros H; inversion H; subst; eauto
         | intros [H | [q' [H | H]]]; try discriminate H;
           injection H; intros; subst; constructor ]);
    rewrite <- IHt; split; intros H; try (inversion H; subst; assumption);
      constructor; assumption.
Qed.

Lemma declares_decay : forall t f,
  declares t f <-> (decay t = PointerTo (Function f)
                    \/ exists q, decay t = MemberPointer f q \/ decay t = Functor f q).
Proof.
  intros t g. unfold declares, decay. split.
  - intros [u [Ht Hu]].
    assert (Hr : remove_reference t = u).
    { destruct Ht as [-> | [-> | ->]]; try reflexivity.
      destruct Hu as [-> | Hu]; [reflexivity|]. inversion Hu; reflexivity. }
    rewrite Hr. clear Hr Ht. destruct Hu as [-> | Hu]; [auto|].
    pose proof Hu as Hv. apply remove_cv_declares in Hv.
    destruct Hu; exact Hv.
  - intros H. exists (remove_reference t). split; [destruct t; cbn; auto|].
    destruct (remove_reference t) eqn:E; try (right; apply remove_cv_declares; exact H).
    left. destruct H as [H | [q [H | H]]]; try discriminate H. injection H as <-. reflexivity.
Qed.

Lemma specialised_all : forall q, existsb (quals_eqb q) specialised = true.
Proof. intros [[] [] []]; reflexivity. Qed.

Lemma plain_spec : forall std f s,
  plain std f = Some s <-> simple std f /\ s = mk_signature (fn_ret f) (fn_params f).
Proof.
  intros std [r ps e ne] s. unfold plain, simple. cbn [fn_ellipsis fn_noexcept fn_ret fn_params].
  destruct e; [split; [discriminate|intros [[H _] _]; discriminate H]|].
  destruct std, ne; split; intros H; try discriminate H;
    try (injection H as <-; repeat split; auto; discriminate);
    try (destruct H as [_ ->]; reflexivity).
  destruct H as [[_ H] _]. discriminate (H eq_refl).
Qed.

Lemma plain_dec : forall std f,
  plain std f = None \/ plain std f = Some (mk_signature (fn_ret f) (fn_params f)).
Proof.
  intros std f. destruct (plain std f) as [s|] eqn:E; [right|left; reflexivity].
  apply plain_spec in E. destruct E as [_ ->]. reflexivity.
Qed.

Lemma examine_value : forall std n t, 3 <= n ->
  examine_impl std n (decay t) =
  Some (match decay t with
        | PointerTo (Function f) | MemberPointer f _ | Functor f _ => plain std f
        | _ => None
        end).
Proof.
  intros std n t Hn. destruct n as [|[|[|n]]]; try lia.
  destruct (decay t) as [o|f|t0|f q|f q|res|t0|t0|t0|t0|]; try reflexivity.
  - destruct t0 as [|f|?|? ?|? ?|?|?|?|?|?|]; try reflexivity. cbn [examine_impl try_get_call_member].
    destruct (plain std f); reflexivity.
  - cbn [examine_impl try_get_call_member]. rewrite specialised_all.
    destruct (plain std f); reflexivity.
  - cbn [examine_impl try_get_call_member]. rewrite specialised_all.
    destruct (plain std f); reflexivity.
Qed.

Lemma decayed : forall std t s,
  match decay t with
  | PointerTo (Function f) | MemberPointer f _ | Functor f _ => plain std f
  | _ => None
  end = Some s <->
  exists f, declares t f /\ simple std f /\ s = mk_signature (fn_ret f) (fn_params f).
Proof.
  intros std t s. split.
  - intros H. destruct (decay t) as [o|f|t0|f q|f q|res|t0|t0|t0|t0|] eqn:E; try discriminate H.
    + destruct t0 as [|f|?|? ?|? ?|?|?|?|?|?|]; try discriminate H. apply plain_spec in H. exists f.
      split; [apply declares_decay; auto|exact H].
    + apply plain_spec in H. exists f. split; [apply declares_decay; eauto|exact H].
    + apply plain_spec in H. exists f. split; [apply declares_decay; eauto|exact H].
  - intros [f [Hd Hs]]. apply declares_decay in Hd. apply plain_spec in Hs.
    destruct Hd as [-> | [q [-> | ->]]]; exact Hs.
Qed.

(** C70: the signature deduced for a type.  The instantiation of the templates
    always ends, within three nested instances; a signature is found exactly for
    the functions, the pointers to functions and to member functions, the classes
    with one [operator()] whatever its qualifiers, [const] or not, by reference
    or not, which have neither a C ellipsis nor, in C++17, a [noexcept]
    specifier; and it is the one of their declaration. *)
Theorem C70_signature : forall std t, exists r,
  (forall n, 3 <= n -> examine_impl std n (decay t) = Some r)
  /\ examine std t = Some r
  /\ forall s, r = Some s <->
       exists f, declares t f /\ simple std f /\ s = mk_signature (fn_ret f) (fn_params f).
Proof.
  intros std t. eexists. split; [|split].
  - intros n Hn. apply examine_value. exact Hn.
  - apply examine_value. unfold instances. lia.
  - apply decayed.
Qed.

(** C70: C++11 and C++17 deduce the same signature when the callback is not
    [noexcept]. *)
Theorem C70_standards_partial : forall t,
  (forall f, declares t f -> fn_noexcept f = false) ->
  examine Cpp11 t = examine Cpp17 t.
Proof.
  intros t Hn. unfold examine. rewrite !examine_value by (unfold instances; lia). f_equal.
  assert (Hp : forall f, declares t f -> plain Cpp11 f = plain Cpp17 f).
  { intros f Hf. unfold plain. rewrite (Hn f Hf). reflexivity. }
  destruct (decay t) as [o|f|t0|f q|f q|res|t0|t0|t0|t0|] eqn:E; try reflexivity.
  - destruct t0 as [|f|?|? ?|? ?|?|?|?|?|?|]; try reflexivity. apply Hp. apply declares_decay. auto.
  - apply Hp. apply declares_decay. eauto.
  - apply Hp. apply declares_decay. eauto.
Qed.

(** The full statement is false: in C++17 a [noexcept] callback has no signature
    and is not invocable. *)
Theorem C70_standards_refuted : forall f q, fn_noexcept f = true -> fn_ellipsis f = false ->
  (is_invocable Cpp11 (Function f) = true /\ is_invocable Cpp17 (Function f) = false)
  /\ (is_invocable Cpp11 (Functor f q) = true /\ is_invocable Cpp17 (Functor f q) = false).
Proof.
  intros f q Hn He. unfold is_invocable, examine. rewrite !examine_value by (unfold instances; lia).
  cbn [decay remove_reference remove_cv]. unfold plain. rewrite Hn, He. auto.
Qed.

(** [int f(short)] by reference, a constant lambda [(const short &) -> int], a
    [noexcept] function. *)
Definition ex_function : fn := mk_fn (Some (TSig 4)) [ByValue (TSig 2)] false false.
Definition ex_lambda : fn := mk_fn (Some (TSig 4)) [ByConstRef (TSig 2)] false false.
Definition ex_const_call : quals := mk_quals true false NoRef.
Example C70_example :
  examine Cpp17 (Lref (Function ex_function))
    = Some (Some (mk_signature (Some (TSig 4)) [ByValue (TSig 2)]))
  /\ examine Cpp17 (Lref (Const (Functor ex_lambda ex_const_call)))
    = Some (Some (mk_signature (Some (TSig 4)) [ByConstRef (TSig 2)]))
  /\ examine Cpp17 (Class (fun _ _ => Some (Some (TSig 4)))) = Some None
  /\ examine Cpp17 (Function (mk_fn None [] false true)) = Some None
  /\ declares (Lref (Const (Functor ex_lambda ex_const_call))) ex_lambda
  /\ simple Cpp17 ex_lambda.
Proof.
  repeat split. exists (Const (Functor ex_lambda ex_const_call)).
  split; [auto|]. right. constructor. constructor.
Qed.

(** ** Getters and putters *)

Lemma params_eqb_eq : forall l l', params_eqb l l' = true <-> l = l'.
Proof.
  induction l as [|a l IH]; intros [|b l']; cbn; split; intros H; try discriminate H; try reflexivity.
  - apply andb_true_iff in H. destruct H as [Ha Hl]. apply IH in Hl. subst l'. f_equal.
    destruct a, b; cbn in Ha; try discriminate Ha; apply ty_eqb_eq in Ha; subst; reflexivity.
  - injection H as <- <-. apply andb_true_iff. split; [|apply IH; reflexivity].
    destruct a; cbn; apply ty_eqb_refl.
Qed.

Lemma ret_eqb_eq : forall a b, ret_eqb a b = true <-> a = b.
Proof.
  intros [t|] [u|]; cbn; split; intros H; try discriminate H; try reflexivity.
  - f_equal. apply ty_eqb_eq. exact H.
  - injection H as <-. apply ty_eqb_refl.
Qed.

Lemma sig_eqb_eq : forall a b, sig_eqb a b = true <-> a = b.
Proof.
  intros [r ps] [r' ps']. unfold sig_eqb. cbn [s_ret s_params].
  rewrite andb_true_iff, ret_eqb_eq, params_eqb_eq. split.
  - intros [-> ->]. reflexivity.
  - intros H. injection H as -> ->. auto.
Qed.

Lemma calls_itself_spec : forall t,
  calls_itself t = true <-> exists f, invokes true false false t f.
Proof.
  intros t. unfold calls_itself.
  destruct (designate t (mk_designation false false true)) as [u d] eqn:E.
  pose proof (designate_spec _ _ _ _ _ _ E) as Hs. split.
  - intros H. destruct u; try discriminate H.
    + exists f. apply Hs. auto.
    + destruct u; try discriminate H. exists f. apply Hs. auto.
    + exists f. apply Hs. right. right. exists q. split; [reflexivity|]. apply accepts_spec. exact H.
  - intros [f Hf]. apply Hs in Hf. destruct Hf as [-> | [-> | [q [-> Hm]]]]; try reflexivity.
    apply accepts_spec. exact Hm.
Qed.

(** An invoked type declares the same function, unless it is a [const] or
    [volatile] function, which does not exist. *)
Lemma invokes_declares : forall t c v lv f g,
  invokes lv c v t f -> object_declares t g -> f = g.
Proof.
  induction t; intros c v lv g h Hi Hd; inversion Hd; subst; inversion Hi; subst; eauto.
Qed.

Lemma called_declares : forall u lv f g,
  invokes lv false false u f -> (u = Function g \/ object_declares u g) -> f = g.
Proof.
  intros u lv f g Hi [-> | Hd].
  - inversion Hi. reflexivity.
  - eapply invokes_declares; eassumption.
Qed.

Lemma called_as_invokes : forall t f,
  called_as t f <-> invokes (is_lvalue t) false false (remove_reference t) f.
Proof. intros [] g; cbn; reflexivity. Qed.

Lemma declares_unref : forall t f,
  declares t f <-> (remove_reference t = Function f \/ object_declares (remove_reference t) f).
Proof.
  intros t f. split.
  - intros [u [[-> | [-> | ->]] H]]; [|exact H|exact H].
    destruct H as [-> | H]; [auto|]. inversion H; subst; auto.
  - intros H. exists (remove_reference t). split; [destruct t; cbn; auto|exact H].
Qed.

Lemma called_unique : forall t f g, declares t g -> called_as t f -> f = g.
Proof.
  intros t f g Hd Hc. apply declares_unref in Hd. apply called_as_invokes in Hc.
  eapply called_declares; eassumption.
Qed.

Lemma unref_declares : forall t f, declares t f -> declares (remove_reference t) f.
Proof.
  intros t f H. apply declares_unref in H. exists (remove_reference t). split; auto.
Qed.

(** The call of an object which declares [f]. *)
Lemma call_of_declared : forall t f args, declares t f ->
  match call_of t args with
  | Some r => r = fn_ret f /\ called_as t f /\ all_bind args (fn_params f) (fn_ellipsis f) = true
  | None => ~ (called_as t f /\ all_bind args (fn_params f) (fn_ellipsis f) = true)
  end.
Proof.
  intros t f args Hd. unfold call_of, call_type.
  destruct (designate (remove_reference t) (mk_designation false false (is_lvalue t))) as [u d] eqn:E.
  pose proof (designate_spec _ _ _ _ _ _ E) as Hs.
  assert (Hno : (forall g, ~ (u = Function g \/ u = PointerTo (Function g)
             \/ exists q, u = Functor g q /\ may_call q (d_const d) (d_volatile d) (d_lvalue d))) ->
             ~ (called_as t f /\ all_bind args (fn_params f) (fn_ellipsis f) = true)).
  { intros Hn [Hc _]. apply called_as_invokes in Hc. apply Hs in Hc. exact (Hn f Hc). }
  assert (Hyes : forall g, (u = Function g \/ u = PointerTo (Function g)
             \/ exists q, u = Functor g q /\ may_call q (d_const d) (d_volatile d) (d_lvalue d)) ->
             g = f /\ called_as t f).
  { intros g Hg. apply Hs in Hg. apply called_as_invokes in Hg.
    pose proof (called_unique _ _ _ Hd Hg). subst g. auto. }
  destruct u as [o|f0|u|f0 q|f0 q|resolve|u|u|u|u|];
    try (apply Hno; intros g [H | [H | [q' [H _]]]]; discriminate H).
  - destruct (Hyes f0) as [-> Hc]; [auto|].
    destruct (all_bind args (fn_params f) (fn_ellipsis f)) eqn:Eb; auto.
    intros [_ H]. discriminate H.
  - destruct u as [o|f0|u|f0 q|f0 q|resolve|u|u|u|u|]; try (apply Hno; intros g [H | [H | [q' [H _]]]]; discriminate H).
    destruct (Hyes f0) as [-> Hc]; [auto|].
    destruct (all_bind args (fn_params f) (fn_ellipsis f)) eqn:Eb; auto.
    intros [_ H]. discriminate H.
  - destruct (accepts q d) eqn:Ea; cbn [andb].
    + destruct (Hyes f0) as [-> Hc]; [right; right; exists q; split; [reflexivity|apply accepts_spec; exact Ea]|].
      destruct (all_bind args (fn_params f) (fn_ellipsis f)) eqn:Eb; auto.
      intros [_ H]. discriminate H.
    + apply Hno. intros g [H | [H | [q' [H Hm]]]]; try discriminate H.
      injection H as <- <-. apply accepts_spec in Hm. congruence.
  - (* a class which declares nothing *)
    exfalso. clear Hno Hyes Hs.
    assert (Hx : remove_cv (remove_reference t) = Class resolve /\
                 forall g, remove_reference t <> Function g).
    { clear Hd. revert E. generalize (remove_reference t) (mk_designation false false (is_lvalue t)).
      induction c; intros d0 E; cbn [designate] in E; try discriminate E; cbn [remove_cv].
      - injection E as <- <-. split; [reflexivity|discriminate].
      - apply IHc in E. split; [apply E|discriminate].
      - apply IHc in E. split; [apply E|discriminate]. }
    destruct Hx as [Hx Hf]. apply declares_unref in Hd. destruct Hd as [Hd | Hd]; [exact (Hf _ Hd)|].
    apply remove_cv_declares in Hd. rewrite Hx in Hd.
    destruct Hd as [Hd | [q [Hd | Hd]]]; discriminate Hd.
Qed.

Lemma function_reference_spec : forall std t s,
  (forall u, t <> Lref u) -> (forall u, t <> Rref u) ->
  (function_reference std t s = true <->
   exists f, declares t f /\ simple std f /\ called_as (Lref t) f
             /\ fn_ret f = s_ret s /\ fn_params f = s_params s).
Proof.
  intros std t s Hl Hr. unfold function_reference.
  destruct (C70_signature std t) as [r [_ [-> Hs]]]. split.
  - intros H. destruct r as [s'|]; [|discriminate H]. apply andb_true_iff in H. destruct H as [He Hc].
    apply sig_eqb_eq in He. subst s'. destruct (proj1 (Hs s) eq_refl) as [f [Hd [Hsm ->]]].
    apply calls_itself_spec in Hc. destruct Hc as [g Hg].
    assert (g = f).
    { apply called_declares with (u := t) (lv := true); [exact Hg|].
      apply declares_unref in Hd. destruct t; cbn in Hd; auto;
        exfalso; [eapply Hl|eapply Hr]; reflexivity. }
    subst g. exists f. auto 6.
  - intros [f [Hd [Hsm [Hc [Hr1 Hp1]]]]].
    assert (Hx : r = Some (mk_signature (fn_ret f) (fn_params f))) by (apply Hs; eauto).
    rewrite Hx. apply andb_true_iff. split.
    + apply sig_eqb_eq. destruct s. cbn in Hr1, Hp1. rewrite Hr1, Hp1. reflexivity.
    + apply calls_itself_spec. exists f. exact Hc.
Qed.

(** Neither a reference nor a reference to a reference. *)
Definition referable (t : ctype) : Prop :=
  (forall u, remove_reference t <> Lref u) /\ (forall u, remove_reference t <> Rref u).

Lemma declares_referable : forall t f, declares t f -> referable t.
Proof.
  intros t f H. apply declares_unref in H.
  split; intros u E; rewrite E in H; destruct H as [H | H]; try discriminate H; inversion H.
Qed.

(** The result of a getter, or of a putter, with a known declaration. *)
Lemma input_spec : forall t f, declares t f ->
  (input_invocable t = true <->
   called_as t f /\ fn_params f = [] /\ exists u c, fn_ret f = Some u /\ arith_ty u = Some c).
Proof.
  intros t f Hd. unfold input_invocable, has_signature.
  pose proof (call_of_declared t f [] Hd) as Hc.
  assert (Hb : all_bind [] (fn_params f) (fn_ellipsis f) = true <-> fn_params f = []).
  { destruct (fn_params f); cbn; split; congruence. }
  destruct (call_of t []) as [r|].
  - destruct Hc as [-> [Hc Hp]]. apply Hb in Hp. split.
    + intros H. split; [exact Hc|split; [exact Hp|]].
      destruct (fn_ret f) as [u|]; [|discriminate H]. exists u.
      cbn [result_converts] in H. unfold converts in H. cbn [arith_ty byte_ty] in H.
      destruct (arith_ty u) as [c|] eqn:E; [eauto|].
      apply ty_eqb_eq in H. subst u. discriminate E.
    + intros [_ [_ [u [c [-> Hu]]]]]. cbn [result_converts]. unfold converts. rewrite Hu. reflexivity.
  - split; [discriminate|]. intros [H1 [H2 _]]. exfalso. apply Hc. split; [exact H1|apply Hb; exact H2].
Qed.

Lemma output_spec : forall t f, declares t f ->
  (output_invocable t = true <->
   called_as t f /\ fn_ret f = None /\ all_bind [byte_ty] (fn_params f) (fn_ellipsis f) = true).
Proof.
  intros t f Hd. unfold output_invocable, has_signature.
  pose proof (call_of_declared t f [byte_ty] Hd) as Hc.
  destruct (call_of t [byte_ty]) as [r|].
  - destruct Hc as [-> [Hc Hp]]. destruct (fn_ret f); cbn [result_converts]; split; intros H; auto;
      try discriminate H. destruct H as [_ [H _]]. discriminate H.
  - split; [discriminate|]. intros [H1 [_ H2]]. exfalso. apply Hc. auto.
Qed.

Lemma unref_lref : forall t f, declares t f -> declares (Lref (remove_reference t)) f.
Proof.
  intros t f H. apply declares_unref. cbn [remove_reference]. apply declares_unref. exact H.
Qed.

(** C71: a getter and a putter can be given to [action(src, dest)] and
    [dispatcher(src, dest)] exactly when their declarations are [byte_t()] and
    [void(byte_t)], with neither a C ellipsis nor, in C++17, [noexcept], and
    when they can be called both as they are given and as lvalues. *)
Theorem C71_process : forall std src dest,
  process_compiles std src dest = true <->
  exists f g,
    (declares src f /\ simple std f /\ fn_ret f = Some (TUns 1) /\ fn_params f = []
     /\ called_as src f /\ called_as (Lref (remove_reference src)) f)
    /\ (declares dest g /\ simple std g /\ fn_ret g = None /\ fn_params g = [ByValue (TUns 1)]
        /\ called_as dest g /\ called_as (Lref (remove_reference dest)) g).
Proof.
  intros std src dest. unfold process_compiles. rewrite !andb_true_iff. split.
  - intros [[[[[Hi Ho] Hs] Hd] Hi'] Ho'].
    assert (Hx : forall t s, function_reference std (remove_reference t) s = true ->
              exists f, declares t f /\ simple std f /\ called_as (Lref (remove_reference t)) f
                        /\ fn_ret f = s_ret s /\ fn_params f = s_params s).
    { intros t s H. assert (Hr : referable t).
      { unfold function_reference in H.
        destruct (C70_signature std (remove_reference t)) as [r [_ [Er Hsig]]]. rewrite Er in H.
        destruct r as [s'|]; [|discriminate H].
        destruct (proj1 (Hsig s') eq_refl) as [f [Hf _]].
        apply andb_true_iff in H. destruct H as [_ H]. apply calls_itself_spec in H.
        destruct H as [g Hg]. split; intros u E; rewrite E in Hg; inversion Hg. }
      destruct Hr as [Hl Hr]. apply function_reference_spec in H; [|exact Hl|exact Hr].
      destruct H as [f [Hf Hrest]]. exists f. split; [|exact Hrest].
      apply declares_unref in Hf. apply declares_unref.
      destruct (remove_reference t) eqn:E; cbn [remove_reference] in Hf; auto;
        exfalso; [eapply Hl|eapply Hr]; reflexivity. }
    destruct (Hx _ _ Hs) as [f [Hf1 [Hf2 [Hf3 [Hf4 Hf5]]]]].
    destruct (Hx _ _ Hd) as [g [Hg1 [Hg2 [Hg3 [Hg4 Hg5]]]]].
    exists f, g. cbn [src_sig dest_sig s_ret s_params] in *.
    apply (input_spec _ _ Hf1) in Hi. apply (output_spec _ _ Hg1) in Ho.
    destruct Hi as [Hi _], Ho as [Ho _]. repeat split; try assumption; try (apply Hf2); try (apply Hg2).
  - intros [f [g [[Hf1 [Hf2 [Hf3 [Hf4 [Hf5 Hf6]]]]] [Hg1 [Hg2 [Hg3 [Hg4 [Hg5 Hg6]]]]]]]].
    assert (Hin : forall t, declares t f -> called_as t f -> input_invocable t = true).
    { intros t H1 H2. apply (input_spec _ _ H1). split; [exact H2|split; [exact Hf4|]].
      exists (TUns 1), (CInt 1 false). split; [exact Hf3|reflexivity]. }
    assert (Hout : forall t, declares t g -> called_as t g -> output_invocable t = true).
    { intros t H1 H2. apply (output_spec _ _ H1). split; [exact H2|split; [exact Hg3|]].
      rewrite Hg4. reflexivity. }
    assert (Hfr : forall t h s, declares t h -> simple std h -> called_as (Lref (remove_reference t)) h ->
                    fn_ret h = s_ret s -> fn_params h = s_params s ->
                    function_reference std (remove_reference t) s = true).
    { intros t h s H1 H2 H3 H4 H5. destruct (declares_referable _ _ H1) as [Hl Hr].
      apply function_reference_spec; auto. exists h. split; [apply unref_declares; exact H1|auto]. }
    repeat split; auto using unref_lref.
    + eapply Hfr; eassumption || reflexivity || auto.
    + eapply Hfr; eassumption || reflexivity || auto.
Qed.

(** C71: [key.read_from(src)] takes anything whose call without argument, as it
    is given, yields an integer of any width; [buffered_dispatcher.read_from(src)]
    moreover calls it as an lvalue.  [write_to(dest)] takes anything which can be
    called with a byte, as it is given and as an lvalue, and returns nothing,
    whatever the integer type of its parameter. *)
Theorem C71_streams : forall t f, declares t f ->
  (key_read_compiles t = true <->
     called_as t f /\ fn_params f = [] /\ exists r c, fn_ret f = Some r /\ arith_ty r = Some c)
  /\ (buffered_read_compiles t = true <->
     called_as t f /\ called_as (Lref (remove_reference t)) f
     /\ fn_params f = [] /\ exists r c, fn_ret f = Some r /\ arith_ty r = Some c)
  /\ (write_compiles t = true <->
     called_as t f /\ called_as (Lref (remove_reference t)) f /\ fn_ret f = None
     /\ ((fn_params f = [] /\ fn_ellipsis f = true)
         \/ exists q r c, fn_params f = [q] /\ (q = ByValue r \/ q = ByConstRef r \/ q = ByRvalueRef r)
                          /\ arith_ty r = Some c)).
Proof.
  intros u f Hd. pose proof (unref_lref _ _ Hd) as Hd'. split; [|split].
  - rewrite <- (input_spec _ _ Hd). unfold key_read_compiles. split.
    + intros H. apply andb_true_iff in H. apply H.
    + intros H. apply andb_true_iff. split; [exact H|].
      unfold input_invocable, has_signature in H. exact H.
  - unfold buffered_read_compiles. rewrite andb_true_iff, (input_spec _ _ Hd), (input_spec _ _ Hd'). tauto.
  - unfold write_compiles.
    assert (Hb : all_bind [byte_ty] (fn_params f) (fn_ellipsis f) = true <->
                 ((fn_params f = [] /\ fn_ellipsis f = true)
                  \/ exists q t c, fn_params f = [q]
                       /\ (q = ByValue t \/ q = ByConstRef t \/ q = ByRvalueRef t)
                       /\ arith_ty t = Some c)).
    { assert (Hconv : forall t, converts byte_ty t = true <-> exists c, arith_ty t = Some c).
      { intros t. unfold converts. cbn [arith_ty byte_ty]. destruct (arith_ty t) as [c|] eqn:E.
        - split; [eauto|reflexivity].
        - split; [intros H; apply ty_eqb_eq in H; subst t; discriminate E|intros [c H]; discriminate H]. }
      destruct (fn_params f) as [|q [|q' qs]]; cbn [all_bind].
      - split; [auto|]. intros [[_ H] | [q [t [c [H _]]]]]; [exact H|discriminate H].
      - rewrite andb_true_r. destruct q; cbn [binds]; rewrite ?Hconv; split; intros H;
          try discriminate H;
          try (destruct H as [c Hc]; right; do 3 eexists; split; [reflexivity|split; [|exact Hc]]; auto);
          try (destruct H as [[H _] | [q [t' [c [H [Hq Hc]]]]]]; [discriminate H|];
               injection H as <-; destruct Hq as [Hq | [Hq | Hq]]; try discriminate Hq;
               injection Hq as ->; eauto).
      - rewrite andb_false_r. split; [discriminate|].
        intros [[H _] | [q0 [t [c [H _]]]]]; discriminate H. }
    rewrite <- Hb. clear Hb.
    assert (Hl : output_invocable u = true ->
                 (match call_of (Lref (remove_reference u)) [byte_ty] with Some _ => true | None => false end = true
                  <-> output_invocable (Lref (remove_reference u)) = true)).
    { intros Ho. apply (output_spec _ _ Hd) in Ho. destruct Ho as (_ & Hr & Hb). split.
      - intros H. apply (output_spec _ _ Hd'). split; [|auto].
        pose proof (call_of_declared _ f [byte_ty] Hd') as Hc.
        destruct (call_of (Lref (remove_reference u)) [byte_ty]); [apply Hc|discriminate H].
      - unfold output_invocable, has_signature.
        destruct (call_of (Lref (remove_reference u)) [byte_ty]); [reflexivity|discriminate]. }
    rewrite andb_true_iff. split.
    + intros [Ho H]. apply (Hl Ho) in H. apply (output_spec _ _ Hd) in Ho. apply (output_spec _ _ Hd') in H. tauto.
    + intros (H1 & H2 & H3 & H4).
      assert (Ho : output_invocable u = true) by (apply (output_spec _ _ Hd); auto).
      split; [exact Ho|]. apply (Hl Ho). apply (output_spec _ _ Hd'). auto.
Qed.

(** C71: what can be given to a dispatcher can be given to the others. *)
Theorem C71_stronger : forall std src dest, process_compiles std src dest = true ->
  key_read_compiles src = true /\ buffered_read_compiles src = true /\ write_compiles dest = true.
Proof.
  intros std src dest H. pose proof H as Hp. apply C71_process in Hp.
  destruct Hp as [f [g [_ [Hg1 [_ [Hg3 [Hg4 [_ Hg6]]]]]]]].
  unfold process_compiles in H. rewrite !andb_true_iff in H.
  destruct H as [[[[[Hi Ho] _] _] Hi'] Ho'].
  unfold key_read_compiles, buffered_read_compiles, write_compiles. rewrite Hi, Ho, Hi'.
  unfold output_invocable, has_signature in Ho'. unfold input_invocable, has_signature in Hi.
  repeat split.
  - exact Hi.
  - destruct (call_of (Lref (remove_reference dest)) [byte_ty]); [reflexivity|discriminate Ho'].
Qed.

(** The converse, which is what the requirements of [operator()] say, is false:
    with a getter which returns an [int], a putter whose parameter is an [int],
    or a generic lambda, the requirements are met and the program does not
    compile, in C++11 as in C++17. *)
Definition byte_getter : fn := mk_fn (Some (TUns 1)) [] false false.
Definition byte_putter : fn := mk_fn None [ByValue (TUns 1)] false false.
Theorem C71_requirements_refuted : exists src src' dest dest',
  forall std,
    process_compiles std src dest = true
    /\ (input_invocable src' = true /\ process_compiles std src' dest = false)
    /\ (output_invocable dest' = true /\ process_compiles std src dest' = false).
Proof.
  exists (Lref (Function byte_getter)),
    (Lref (Function (mk_fn (Some (TSig 4)) [] false false))),
    (Lref (Functor byte_putter ex_const_call)),
    (Lref (Class (fun _ args => match args with [_] => Some None | _ => None end))).
  intros []; vm_compute; repeat split; reflexivity.
Qed.

(** A putter which returns a value is refused everywhere; an rvalue whose
    [operator()] is qualified by [&&] meets the requirement, but is called as an
    lvalue. *)
Example C71_example :
  process_compiles Cpp17 (Lref (Const (Functor byte_getter ex_const_call)))
    (Functor byte_putter (mk_quals false false NoRef)) = true
  /\ process_compiles Cpp17 (Lref (Const (Functor byte_getter (mk_quals false false NoRef))))
    (Functor byte_putter (mk_quals false false NoRef)) = false
  /\ buffered_read_compiles (Lref (Function (mk_fn (Some (TSig 2)) [] false true))) = true
  /\ write_compiles (Lref (Function (mk_fn (Some (TSig 2)) [ByValue (TUns 1)] false false))) = false
  /\ input_invocable (Functor byte_getter (mk_quals false false RvalueRef)) = true
  /\ buffered_read_compiles (Functor byte_getter (mk_quals false false RvalueRef)) = false
  /\ key_read_compiles (Functor byte_getter (mk_quals false false RvalueRef)) = true
  /\ write_compiles (Functor byte_putter (mk_quals false false RvalueRef)) = false
  /\ write_compiles (Functor byte_putter (mk_quals false false NoRef)) = true.
Proof. vm_compute. repeat split. Qed.

(** ** Callbacks *)

Lemma own_binds : forall ps e,
  all_bind (map param_ty ps) ps e = true <-> (forall t, ~ In (ByRef t) ps).
Proof.
  induction ps as [|q ps IH]; intros e; cbn [map all_bind].
  - split; [intros _ t []|reflexivity].
  - rewrite andb_true_iff, IH. split.
    + intros [Hq Hp] t [H | H]; [subst q; discriminate Hq|exact (Hp t H)].
    + intros H. split; [|intros t Ht; exact (H t (or_intror Ht))].
      destruct q; cbn [binds param_ty];
        try (unfold converts; destruct (arith_ty t); [reflexivity|apply ty_eqb_refl]).
      exfalso. exact (H t (or_introl eq_refl)).
Qed.

(** C72: an action can be made from a callback exactly when a signature is
    deduced for it, it can be called as it is given (in particular it is not a
    pointer to a member function), and no parameter is a reference to a
    non-constant object. *)
Theorem C72_action : forall std t,
  action_compiles std t = true <->
  exists f, declares t f /\ simple std f /\ called_as t f /\ forall u, ~ In (ByRef u) (fn_params f).
Proof.
  intros std t. unfold action_compiles.
  destruct (C70_signature std t) as [r [_ [-> Hs]]]. split.
  - intros H. destruct r as [s|]; [|discriminate H].
    destruct (proj1 (Hs s) eq_refl) as [f [Hd [Hsm ->]]]. cbn [s_params s_ret] in H.
    pose proof (call_of_declared t f (map param_ty (fn_params f)) Hd) as Hc.
    destruct (call_of t (map param_ty (fn_params f))) as [r|]; [|discriminate H].
    destruct Hc as [_ [Hc Hb]]. pose proof (proj1 (own_binds _ _) Hb) as Hn. exists f. auto.
  - intros [f [Hd [Hsm [Hc Hb]]]].
    assert (Hx : r = Some (mk_signature (fn_ret f) (fn_params f))) by (apply Hs; eauto).
    rewrite Hx. cbn [s_params s_ret].
    pose proof (call_of_declared t f (map param_ty (fn_params f)) Hd) as Hcall.
    destruct (call_of t (map param_ty (fn_params f))) as [r'|].
    + destruct Hcall as [-> _]. apply ret_eqb_eq. reflexivity.
    + exfalso. apply Hcall. split; [exact Hc|]. apply (proj2 (own_binds _ _)). exact Hb.
Qed.

(** C72: keys are made for any list of variables and functions for which a
    signature is deduced. *)
Theorem C72_key : forall std t, (forall u, t <> Lref u) -> (forall u, t <> Rref u) ->
  (key_compiles std t = true <-> exists f, declares t f /\ simple std f)
  /\ (flist_compiles std t = true <-> exists f, declares t f /\ simple std f).
Proof.
  intros std t Hl Hr.
  assert (Hi : forall u, is_invocable std u = true <-> exists f, declares u f /\ simple std f).
  { intros u. unfold is_invocable. destruct (C70_signature std u) as [r [_ [-> Hs]]].
    destruct r as [s|]; split; intros H; try discriminate H; try reflexivity.
    - destruct (proj1 (Hs s) eq_refl) as [f [H1 [H2 _]]]. eauto.
    - destruct H as [f [H1 H2]].
      assert (None = Some (mk_signature (fn_ret f) (fn_params f))) by (apply Hs; eauto).
      discriminate. }
  split; [apply Hi|]. unfold flist_compiles. rewrite Hi.
  split; intros [f [H1 H2]]; exists f; split; auto; apply declares_unref in H1; apply declares_unref;
    cbn [remove_reference] in *; destruct t; cbn [remove_reference] in *; auto;
      exfalso; try (eapply Hl; reflexivity); eapply Hr; reflexivity.
Qed.

(** C72: but a dispatcher is made only from functions. *)
Theorem C72_dispatcher_partial : forall std t,
  dispatcher_compiles std t = true <->
  exists f, t = Function f /\ simple std f /\ forall u, ~ In (ByRef u) (fn_params f).
Proof.
  intros std t. unfold dispatcher_compiles. rewrite C72_action. split.
  - intros [f [Hd [Hs [_ Hb]]]]. exists f. apply declares_unref in Hd. cbn [remove_reference] in Hd.
    destruct Hd as [Hd | Hd]; [discriminate Hd|]. inversion Hd. auto.
  - intros [f [-> [Hs Hb]]]. exists f. repeat split; try (apply Hs); auto.
    + apply declares_unref. right. constructor.
    + cbn. constructor.
Qed.

(** So there are keyrings, of functors or of functions with a reference
    parameter, from which the caller makes keys and the callee no
    dispatcher. *)
Theorem C72_objects_refuted : forall std f q, simple std f ->
  flist_compiles std (Functor f q) = true /\ key_compiles std (Functor f q) = true
  /\ dispatcher_compiles std (Functor f q) = false.
Proof.
  intros std f q Hs.
  assert (Hd : declares (Functor f q) f) by (exists (Functor f q); split; [auto|right; constructor]).
  destruct (C72_key std (Functor f q)) as [Hk Hfl]; try discriminate.
  split; [apply Hfl; eauto|]. split; [apply Hk; eauto|].
  destruct (dispatcher_compiles std (Functor f q)) eqn:E; [|reflexivity].
  apply C72_dispatcher_partial in E. destruct E as [g [Hg _]]. discriminate Hg.
Qed.

(** C72: [replace] keeps the convention of the keyring: it is accepted exactly
    for the callbacks from which an action can be made and whose declaration has
    the same return and parameter types. *)
Theorem C72_replace : forall std s t,
  replace_compiles std s t = true <->
  exists f, declares t f /\ simple std f /\ called_as t f
            /\ (forall u, ~ In (ByRef u) (fn_params f))
            /\ fn_ret f = s_ret s /\ fn_params f = s_params s.
Proof.
  intros std s t. unfold replace_compiles.
  destruct (C70_signature std t) as [r [_ [-> Hs]]]. split.
  - intros H. destruct r as [s'|]; [|discriminate H]. apply andb_true_iff in H. destruct H as [He Ha].
    apply sig_eqb_eq in He. subst s'. apply C72_action in Ha. destruct Ha as [f [Hd [Hsm [Hc Hb]]]].
    assert (Hx : Some s = Some (mk_signature (fn_ret f) (fn_params f))) by (apply Hs; eauto).
    injection Hx as ->. exists f. cbn [s_ret s_params]. repeat split; auto; apply Hsm.
  - intros [f [Hd [Hsm [Hc [Hb [Hr Hp]]]]]].
    assert (Hx : r = Some (mk_signature (fn_ret f) (fn_params f))) by (apply Hs; eauto).
    rewrite Hx. apply andb_true_iff. split.
    + apply sig_eqb_eq. destruct s. cbn in Hr, Hp. rewrite Hr, Hp. reflexivity.
    + apply C72_action. eauto.
Qed.

(** In particular the packets of the keyring are read with the same types; but a
    callback which differs by a [const &] only, for which the packets would be the
    same, is refused. *)
Example C72_example :
  action_compiles Cpp17 (Lref (Functor ex_lambda ex_const_call)) = true
  /\ is_invocable Cpp17 (MemberPointer ex_function ex_const_call) = true
  /\ action_compiles Cpp17 (MemberPointer ex_function ex_const_call) = false
  /\ action_compiles Cpp17 (Function (mk_fn None [ByRef (TSig 4)] false false)) = false
  /\ dispatcher_compiles Cpp17 (Function ex_function) = true
  /\ replace_compiles Cpp17 (mk_signature (Some (TSig 4)) [ByValue (TSig 2)])
       (Functor ex_function ex_const_call) = true
  /\ replace_compiles Cpp17 (mk_signature (Some (TSig 4)) [ByValue (TSig 2)])
       (Functor ex_lambda ex_const_call) = false.
Proof. vm_compute. repeat split. Qed.

Print Assumptions C70_signature.
Print Assumptions C70_standards_partial.
Print Assumptions C70_standards_refuted.
Print Assumptions C71_process.
Print Assumptions C71_streams.
Print Assumptions C71_stronger.
Print Assumptions C71_requirements_refuted.
Print Assumptions C72_action.
Print Assumptions C72_key.
Print Assumptions C72_dispatcher_partial.
Print Assumptions C72_objects_refuted.
Print Assumptions C72_replace.
