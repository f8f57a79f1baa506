(** Facts about actions, keys and dispatchers. *)

From Coq Require Import List ZArith Lia Bool Arith.
From Verif Require Import Base CInt Spec IntModel Conditions MemFacts TypeLevel Serial TupleModel
  TypeLevelProofs IntProofs SignedProofs SerialProofs CodecFacts Bounds TupleProofs PropertiesTuple
  PropertiesTypes SpecRpc Rpc.
Import ListNotations.
Open Scope nat_scope.

(** ** Pulling and pushing *)

Lemma pull_length : forall (X : Type) (src : X -> res (X * Z)) n x x' bs,
  pull src n x = Ok (x', bs) -> length bs = n.
Proof.
  intros X src. induction n as [|n IH]; intros x x' bs H; cbn [pull] in H.
  - injection H as _ <-. reflexivity.
  - apply bind_ok in H. destruct H as ([x1 b] & _ & H). apply bind_ok in H. destruct H as ([x2 l] & H2 & H).
    injection H as _ <-. cbn. f_equal. eapply IH; eauto.
Qed.

Lemma pull_yields : forall (X : Type) (src : X -> res (X * Z)) bs x x',
  yields src x bs x' <-> pull src (length bs) x = Ok (x', bs).
Proof.
  intros X src. induction bs as [|b bs IH]; intros x x'; cbn [yields length pull].
  - split; [intros ->; reflexivity|congruence].
  - split.
    + intros (x1 & H1 & H2). rewrite H1. cbn [bind]. apply IH in H2. rewrite H2. reflexivity.
    + intros H. apply bind_ok in H. destruct H as ([x1 b1] & H1 & H).
      apply bind_ok in H. destruct H as ([x2 l] & H2 & H).
      assert (x2 = x' /\ b1 = b /\ l = bs) as (-> & -> & ->) by (repeat split; congruence).
      exists x1. split; auto. apply IH. auto.
Qed.

Lemma pull_app : forall (X : Type) (src : X -> res (X * Z)) a b x,
  pull src (a + b) x = ('(x1, l1) <- pull src a x;; '(x2, l2) <- pull src b x1;; Ok (x2, l1 ++ l2)).
Proof.
  intros X src. induction a as [|a IH]; intros b x; cbn [pull Nat.add bind].
  - destruct (pull src b x) as [[x2 l2]|]; reflexivity.
  - destruct (src x) as [[x1 c]|f]; cbn [bind]; auto. rewrite IH.
    destruct (pull src a x1) as [[x2 l2]|f]; cbn [bind]; auto.
    destruct (pull src b x2) as [[x3 l3]|f]; cbn [bind]; auto.
Qed.

Lemma push_app : forall (X : Type) (dest : Z -> X -> res X) a b x,
  push dest (a ++ b) x = (x' <- push dest a x;; push dest b x').
Proof.
  intros X dest. induction a as [|c a IH]; intros b x; cbn [push app bind]; auto.
  destruct (dest c x) as [x1|f]; cbn [bind]; auto.
Qed.

Lemma take_wires : forall (S : Type) bs rest out (s : S),
  pull take_wire (length bs) (mk_wires (bs ++ rest) out s) = Ok (mk_wires rest out s, bs).
Proof.
  intros S. induction bs as [|b bs IH]; intros rest out s; cbn [length pull app]; auto.
  unfold take_wire at 1. cbn [w_in bind w_out w_user]. rewrite IH. reflexivity.
Qed.

Lemma give_wires : forall (S : Type) bs inp out (s : S),
  push give_wire bs (mk_wires inp out s) = Ok (mk_wires inp (out ++ bs) s).
Proof.
  intros S. induction bs as [|b bs IH]; intros inp out s; cbn [push]; rewrite ?app_nil_r; auto.
  unfold give_wire at 1. cbn [bind w_in w_out w_user]. rewrite IH, <- app_assoc. reflexivity.
Qed.

(** ** Tuples *)

Lemma skipn_skipn : forall (A : Type) a b (l : list A), skipn a (skipn b l) = skipn (b + a) l.
Proof.
  intros A a. induction b as [|b IH]; intros [|c l]; cbn; auto. destruct a; reflexivity.
Qed.

Lemma put_each_push : forall (X : Type) (dest : destination X) bs x, put_each dest bs x = push dest bs x.
Proof.
  intros X dest. induction bs as [|b bs IH]; intros x; cbn [put_each push]; auto.
  destruct (dest b x); cbn [bind]; auto.
Qed.

Lemma fill_pull : forall (X : Type) (src : source X) n off x mem, off + n <= length mem ->
  fill src n off x mem = ('(x', bs) <- pull src n x;; Ok (x', splice mem off bs)).
Proof.
  intros X src. induction n as [|n IH]; intros off x mem Hl; cbn [fill pull bind].
  - rewrite splice_nil. reflexivity.
  - destruct (src x) as [[x1 b]|f]; cbn [bind]; auto.
    rewrite store_ok by lia. cbn [bind]. rewrite IH by (rewrite splice_length; cbn; lia).
    destruct (pull src n x1) as [[x2 bs]|f] eqn:Hp; cbn [bind]; auto.
    do 2 f_equal. apply pull_length in Hp.
    change (b :: bs) with ([b] ++ bs).
    rewrite <- (splice_splice_app mem off [b] bs) by (cbn; lia).
    f_equal. cbn. lia.
Qed.

Section Tuples.
  Variables (p : platform) (e : endianess) (m : signed_mode).
  Hypothesis Hp : wf_platform p.
  Context {X : Type}.

  Lemma tuple_size_wire : forall ts, Forall layout_ok ts -> tuple_size ts = wire_sizes ts.
  Proof.
    intros ts H. unfold tuple_size, wire_sizes. rewrite sum17_list_sum, map_serialization_size; auto.
  Qed.

  Lemma tys_layout : forall ts, Forall (ty_ok p e m) ts -> Forall layout_ok ts.
  Proof. intros ts H. eapply Forall_impl; [|exact H]. intros t Ht. apply Ht. Qed.

  Lemma tys_wf : forall ts, Forall (ty_ok p e m) ts -> Forall wf_ty ts.
  Proof. intros ts H. eapply Forall_impl; [|exact H]. intros t Ht. apply Ht. Qed.

  Lemma construct_ok : forall ts args st, Forall (ty_ok p e m) ts -> Forall2 (encodable p m) ts args ->
    length st = wire_sizes ts -> construct p e m ts args st = Ok (enc_list e m ts args).
  Proof.
    intros ts args st Hok Ha Hl. unfold construct.
    pose proof (tuple_elements_ok p e m ts 0 Hok) as Hv.
    pose proof (lay_all p (tuple_at e m ts 0) args st Hp Hv) as L. cbn [tuple_at v_types v_begin v_e v_m] in L.
    rewrite L; auto.
    - rewrite splice_all; auto. rewrite enc_list_length by (eapply encodable_has; eauto). auto.
    - unfold in_bounds, total, wire_sizes in *. cbn [tuple_at v_begin v_types]. lia.
  Qed.

  Lemma read_tuple_ok : forall ts (src : source X) x, Forall (ty_ok p e m) ts ->
    read_tuple p e m ts src x = pull src (wire_sizes ts) x.
  Proof.
    intros ts src x Hok. unfold read_tuple.
    pose proof (tuple_size_wire ts (tys_layout ts Hok)) as Hs. rewrite Hs.
    unfold default_construct. rewrite construct_ok; auto.
    2:{ induction Hok; cbn [map]; constructor; auto. apply default_ok. apply H. apply IHHok.
        apply tuple_size_wire. apply tys_layout. auto. }
    2:{ apply indet_bytes_length. }
    cbn [bind]. rewrite fill_tuple_eq. cbn [tuple_at v_types v_begin]. rewrite Hs.
    assert (Hl : length (enc_list e m ts (map default_val ts)) = wire_sizes ts).
    { apply enc_list_length. clear Hs. induction Hok; cbn [map]; constructor; auto.
      apply (default_ok p m). apply H. }
    rewrite fill_pull by lia.
    destruct (pull src (wire_sizes ts) x) as [[x' bs]|f] eqn:E; cbn [bind]; auto.
    do 2 f_equal. apply pull_length in E. apply splice_all. congruence.
  Qed.

  Lemma dec_list_nth : forall ts bs i t, nth_error ts i = Some t ->
    nth_error (dec_list e m ts bs) i = Some (dec e m t (slice bs (offset_of ts i) (wire_size t))).
  Proof.
    induction ts as [|u ts IH]; intros bs [|i] t H; try discriminate; cbn [dec_list nth_error] in *.
    - injection H as ->. reflexivity.
    - rewrite (IH _ _ t H). do 2 f_equal. unfold slice, offset_of. cbn [firstn map].
      rewrite skipn_skipn. reflexivity.
  Qed.

  Lemma decodable_list_nth : forall ts bs i t, decodable_list p e m ts bs -> nth_error ts i = Some t ->
    decodable p e m t (slice bs (offset_of ts i) (wire_size t)).
  Proof.
    induction ts as [|u ts IH]; intros bs [|i] t Hd H; try discriminate; cbn [decodable_list nth_error] in *.
    - injection H as ->. apply Hd.
    - destruct Hd as [_ Hd]. specialize (IH _ i t Hd H). revert IH. unfold slice, offset_of.
      cbn [firstn map]. rewrite skipn_skipn. auto.
  Qed.

  Lemma dec_list_length : forall ts bs, length (dec_list e m ts bs) = length ts.
  Proof. induction ts; intros; cbn; auto. Qed.

  Lemma get_decodes : forall ts bs i t, Forall (ty_ok p e m) ts -> length bs = wire_sizes ts ->
    Forall is_byte bs -> decodable_list p e m ts bs -> nth_error ts i = Some t ->
    get p (tuple_at e m ts 0) i bs = Ok (dec e m t (slice bs (offset_of ts i) (wire_size t))).
  Proof.
    intros ts bs i t Hok Hl Hb Hd Hi.
    rewrite (get_ok p (tuple_at e m ts 0) i t); auto.
    - apply tuple_elements_ok. auto.
    - unfold in_bounds, total, wire_sizes in *. cbn [tuple_at v_begin v_types]. lia.
    - unfold pos. cbn [tuple_at v_begin v_types v_e v_m Nat.add]. apply decodable_list_nth; auto.
  Qed.

  Lemma invoke_decodes : forall (A : Type) ts bs (f : list val -> X -> X * A) x,
    Forall (ty_ok p e m) ts -> length bs = wire_sizes ts -> Forall is_byte bs ->
    decodable_list p e m ts bs ->
    invoke p (tuple_at e m ts 0) f bs x = Ok (f (dec_list e m ts bs) x).
  Proof.
    intros A ts bs f x Hok Hl Hb Hd. unfold invoke.
    rewrite (get_each_all p (tuple_at e m ts 0) bs (dec_list e m ts bs)); auto.
    - apply dec_list_length.
    - intros i v Hv. destruct (nth_error ts i) as [t|] eqn:Ht.
      + rewrite (dec_list_nth _ _ _ _ Ht) in Hv. injection Hv as <-. apply get_decodes; auto.
      + apply nth_error_None in Ht.
        assert (i < length (dec_list e m ts bs)) by (apply nth_error_Some; congruence).
        rewrite dec_list_length in H. lia.
  Qed.

  Lemma write_tuple_ok : forall ts args (dest : destination X) x, Forall (ty_ok p e m) ts ->
    Forall2 (encodable p m) ts args ->
    write_tuple p e m ts args dest x = push dest (enc_list e m ts args) x.
  Proof.
    intros ts args dest x Hok Ha. unfold write_tuple.
    pose proof (tuple_size_wire ts (tys_layout ts Hok)) as Hs. rewrite Hs.
    rewrite construct_ok; auto. 2:apply indet_bytes_length.
    cbn [bind]. rewrite content_eq. cbn [tuple_at v_begin v_types]. rewrite Hs.
    assert (Hl : length (enc_list e m ts args) = wire_sizes ts).
    { apply enc_list_length. eapply encodable_has; eauto. }
    rewrite load_range_ok by lia. cbn [bind]. rewrite slice_0_all by auto. apply put_each_push.
  Qed.
End Tuples.

(** ** Actions *)

(** A type usable as return type, a value usable as result. *)
Definition ret_ty_ok (p : platform) (e : endianess) (m : signed_mode) (ret : option ty) : Prop :=
  match ret with
  | None => True
  | Some t => ty_ok p e m t
  end.
Definition ret_encodable (p : platform) (m : signed_mode) (ret : option ty) (v : val) : Prop :=
  match ret with
  | None => True
  | Some t => encodable p m t v
  end.

Definition sig_ok (p : platform) (e : endianess) (m : signed_mode) (s : signature) : Prop :=
  Forall (ty_ok p e m) (sig_params s) /\ ret_ty_ok p e m (sig_ret s).

(** A callback which, on arguments of its parameter types, returns a value of
    its return type which can be encoded. *)
Definition func_ok {X : Type} (p : platform) (m : signed_mode) (f : func X) : Prop :=
  forall args x, Forall2 has_type (sig_params (f_sig f)) args ->
    ret_encodable p m (sig_ret (f_sig f)) (snd (f_call f args x)).

Lemma call_static : forall p (X : Type) e m (f : func X) src dest x,
  call p e m f src dest x = static_wrapper p e m f src dest x.
Proof.
  intros. unfold call, static_wrapper, insert, write_tuple. destruct (sig_ret (f_sig f)); reflexivity.
Qed.

(** What an action does. *)
Definition call_spec {X : Type} (e : endianess) (m : signed_mode) (f : func X) (src : source X)
    (dest : destination X) (x : X) : res X :=
  '(x1, bs) <- pull src (wire_sizes (sig_params (f_sig f))) x;;
  let (x2, r) := f_call f (dec_list e m (sig_params (f_sig f)) bs) x1 in
  push dest (response e m (sig_ret (f_sig f)) r) x2.

Lemma insert_ok : forall p (X : Type) e m (dest : destination X) t v x,
  wf_platform p -> ty_ok p e m t -> encodable p m t v ->
  insert p e m dest t v x = push dest (enc e m t v) x.
Proof.
  intros p X e m dest t v x Hp Ht Hv. unfold insert. rewrite write_tuple_ok; auto.
  cbn [enc_list]. rewrite app_nil_r. reflexivity.
Qed.

Lemma call_ok : forall p (X : Type) e m (f : func X) src dest x,
  wf_platform p -> sig_ok p e m (f_sig f) ->
  (forall x1 bs, pull src (wire_sizes (sig_params (f_sig f))) x = Ok (x1, bs) ->
     Forall is_byte bs /\ decodable_list p e m (sig_params (f_sig f)) bs
     /\ ret_encodable p m (sig_ret (f_sig f)) (snd (f_call f (dec_list e m (sig_params (f_sig f)) bs) x1))) ->
  call p e m f src dest x = call_spec e m f src dest x.
Proof.
  intros p X e m f src dest x Hp [Hps Hr] H. unfold call, call_spec.
  rewrite !read_tuple_ok by auto.
  destruct (pull src (wire_sizes (sig_params (f_sig f))) x) as [[x1 bs]|flt] eqn:E; cbn [bind].
  2:{ destruct (sig_ret (f_sig f)); reflexivity. }
  destruct (H x1 bs eq_refl) as (Hb & Hd & He). clear H. apply pull_length in E.
  rewrite !(invoke_decodes p e m) by auto. cbn [bind].
  destruct (f_call f (dec_list e m (sig_params (f_sig f)) bs) x1) as [x2 r] eqn:Ef. cbn [snd] in He.
  destruct (sig_ret (f_sig f)) as [t|]; cbn [response push ret_encodable ret_ty_ok] in *; auto.
  apply insert_ok; auto.
Qed.

Lemma call_pull_fault : forall p (X : Type) e m (f : func X) src dest x flt,
  wf_platform p -> sig_ok p e m (f_sig f) ->
  pull src (wire_sizes (sig_params (f_sig f))) x = Fault flt ->
  call p e m f src dest x = Fault flt.
Proof.
  intros p X e m f src dest x flt Hp Hs H. rewrite call_ok; auto.
  - unfold call_spec. rewrite H. reflexivity.
  - intros x1 bs E. congruence.
Qed.

(** The model of an action which is not empty. *)
Definition action_model {X : Type} (a : action X) : option (model X) :=
  match a with
  | Storage o => o
  | NoStorage c => Some c
  end.

Lemma run_call : forall p (X : Type) (a : action X) c src dest x, action_model a = Some c ->
  run p a src dest x = call p (m_e c) (m_m c) (m_func c) src dest x.
Proof.
  intros p X [[c'|]|c'] c src dest x H; cbn in *; try discriminate; injection H as ->;
    auto using call_static.
Qed.

(** ** Keyrings and dispatchers *)

Definition keyring_ok {X : Type} (p : platform) (kr : keyring X) : Prop :=
  (Z.of_nat (length (kr_funcs kr)) < 2 ^ 64)%Z
  /\ Forall (fun nf => sig_ok p (kr_e kr) (kr_m kr) (f_sig (snd nf))) (kr_funcs kr).

(** [index_t] holds every index. *)
Lemma index_size : forall (X : Type) (kr : keyring X), (Z.of_nat (length (kr_funcs kr)) < 2 ^ 64)%Z ->
  1 <= kr_index_size kr <= 8
  /\ (Z.of_nat (length (kr_funcs kr)) < space (kr_index_size kr))%Z
  /\ kr_size kr = length (kr_funcs kr).
Proof.
  intros X kr H. unfold kr_size, kr_index_size.
  destruct (C25_smallest_index_type (Z.of_nat (length (kr_funcs kr)))) as (H1 & H2 & _);
    [split; [apply Nat2Z.is_nonneg|exact H]|].
  set (w := smallest_unsigned (Z.of_nat (length (kr_funcs kr)))) in *.
  split; [cbn in H1; lia|]. split.
  - rewrite <- H2 at 1. rewrite space_pow2. unfold bits. apply Z.mod_pos_bound.
    apply Z.pow_pos_nonneg; [reflexivity|clear; lia].
  - rewrite H2. apply Nat2Z.id.
Qed.

Lemma index_ty_ok : forall p e m (X : Type) (kr : keyring X),
  (Z.of_nat (length (kr_funcs kr)) < 2 ^ 64)%Z -> ty_ok p e m (TUns (kr_index_size kr)).
Proof.
  intros p e m X kr H. destruct (index_size X kr H) as (H1 & _). unfold ty_ok. cbn. lia.
Qed.

Lemma get_index_ok : forall p (X : Type) (d : dispatcher X) src x,
  wf_platform p -> (Z.of_nat (length (kr_funcs (d_keyring d))) < 2 ^ 64)%Z ->
  (forall x1 bs, pull src (kr_index_size (d_keyring d)) x = Ok (x1, bs) -> Forall is_byte bs) ->
  get_index p d src x =
  ('(x1, bs) <- pull src (kr_index_size (d_keyring d)) x;;
   Ok (x1, Z.to_nat (wire_value (kr_e (d_keyring d)) bs))).
Proof.
  intros p X d src x Hp Hl Hb. unfold get_index.
  set (e := kr_e (d_keyring d)). set (m := kr_m (d_keyring d)). set (w := kr_index_size (d_keyring d)) in *.
  assert (Hok : Forall (ty_ok p e m) [TUns w]) by (constructor; auto; apply index_ty_ok; auto).
  rewrite read_tuple_ok by auto.
  replace (wire_sizes [TUns w]) with w by (cbn; lia).
  destruct (pull src w x) as [[x1 bs]|f] eqn:E; cbn [bind]; auto.
  rewrite (get_decodes p e m Hp [TUns w] bs 0 (TUns w)); auto.
  - cbn [bind dec]. unfold offset_of. cbn [firstn map list_sum fold_right wire_size].
    apply pull_length in E. rewrite slice_0_all by auto. reflexivity.
  - apply pull_length in E. cbn. lia.
  - eapply Hb; eauto.
  - cbn. auto.
Qed.

(** A request whose bytes are those of index [i]. *)
Lemma wire_index : forall (X : Type) (kr : keyring X) e i,
  (Z.of_nat (length (kr_funcs kr)) < 2 ^ 64)%Z -> i < length (kr_funcs kr) ->
  Z.to_nat (wire_value e (wire_bytes e (kr_index_size kr) (Z.of_nat i))) = i.
Proof.
  intros X kr e i H Hi. destruct (index_size X kr H) as (_ & H2 & _).
  rewrite wire_value_bytes, Z.mod_small by lia. apply Nat2Z.id.
Qed.

(** The callback at the index of the key obtained with its name. *)
Lemma kr_get_nth : forall (X : Type) (kr : keyring X) name f k, kr_get kr name f = Some k ->
  In (name, f) (kr_funcs kr) ->
  nth_error (kr_funcs kr) (k_index k) = Some (name, f)
  /\ (forall j g, nth_error (kr_funcs kr) j = Some (name, g) -> j = k_index k)
  /\ k = mk_key (kr_index_size kr) (k_index k) (f_sig f) (kr_e kr) (kr_m kr).
Proof.
  intros X kr name f k H Hin. unfold kr_get in H.
  destruct (find17 Nat.eqb (map fst (kr_funcs kr)) name) as [i|] eqn:E; [|discriminate].
  assert (Ek : k = mk_key (kr_index_size kr) i (f_sig f) (kr_e kr) (kr_m kr)) by congruence.
  clear H. subst k. cbn [k_index].
  apply find17_some in E; [|intros; apply Nat.eqb_eq]. destruct E as [E1 E2].
  assert (U : forall j g, nth_error (kr_funcs kr) j = Some (name, g) -> j = i).
  { intros j g Hj. apply E2. rewrite nth_error_map, Hj. reflexivity. }
  apply In_nth_error in Hin. destruct Hin as [j Hj]. pose proof (U j f Hj). subst j. auto.
Qed.

Lemma request_enc : forall e m w i params args,
  enc_list e m (TUns w :: params) (VInt (Z.of_nat i) :: args) = request e m w i params args.
Proof. reflexivity. Qed.


Lemma set_nth_length : forall (A : Type) (l : list A) i a, length (set_nth l i a) = length l.
Proof. induction l; intros [|i] b; cbn; auto. Qed.

Lemma set_nth_same : forall (A : Type) (l : list A) i a, i < length l -> nth_error (set_nth l i a) i = Some a.
Proof. induction l; intros [|i] b H; cbn in *; try lia; auto. apply IHl. lia. Qed.

Lemma set_nth_other : forall (A : Type) (l : list A) i j a, i <> j ->
  nth_error (set_nth l i a) j = nth_error l j.
Proof. induction l; intros [|i] [|j] b H; cbn in *; try lia; auto. Qed.

Lemma sig_eqb_eq : forall a b, sig_eqb a b = true -> a = b.
Proof.
  intros [pa ra] [pb rb] H. unfold sig_eqb in H. cbn in H. apply andb_prop in H. destruct H as [H1 H2].
  apply tys_eqb_eq in H1. subst. f_equal. destruct ra, rb; cbn in H2; try discriminate; auto.
  f_equal. apply ty_eqb_eq. auto.
Qed.

Lemma sig_eqb_refl : forall a, sig_eqb a a = true.
Proof.
  intros [pa ra]. unfold sig_eqb. cbn. apply andb_true_intro. split; [apply tys_eqb_eq; auto|].
  destruct ra; cbn; auto using ty_eqb_refl.
Qed.

(** ** Dispatchers whose actions match their keyring *)

Definition conform_action {X : Type} (kr : keyring X) (ft : action_features) (s : signature) (a : action X)
    : Prop :=
  exists f, f_sig f = s /\ a = make_action ft (kr_e kr) (kr_m kr) f.

Definition conform {X : Type} (d : dispatcher X) : Prop :=
  Forall2 (conform_action (d_keyring d) (d_features d)) (kr_signatures (d_keyring d)) (d_actions d).

Lemma make_dispatcher_conform : forall (X : Type) (kr : keyring X) ft, conform (make_dispatcher kr ft).
Proof.
  intros X kr ft. unfold conform, make_dispatcher, kr_signatures. cbn [d_keyring d_features d_actions].
  induction (kr_funcs kr) as [|[n f] l IH]; cbn [map]; constructor; auto.
  exists f. auto.
Qed.

Lemma conform_length : forall (X : Type) (d : dispatcher X), conform d ->
  length (d_actions d) = length (kr_funcs (d_keyring d)).
Proof.
  intros X d H. apply Forall2_length in H. unfold kr_signatures in H. rewrite map_length in H. auto.
Qed.

Lemma conform_nth : forall (X : Type) (d : dispatcher X) i, conform d -> i < length (kr_funcs (d_keyring d)) ->
  exists nf f, nth_error (kr_funcs (d_keyring d)) i = Some nf
    /\ f_sig f = f_sig (snd nf)
    /\ nth_error (d_actions d) i
       = Some (make_action (d_features d) (kr_e (d_keyring d)) (kr_m (d_keyring d)) f).
Proof.
  intros X d i H Hi. destruct (nth_error (kr_funcs (d_keyring d)) i) as [nf|] eqn:E.
  2:{ apply nth_error_None in E. lia. }
  destruct (nth_error (d_actions d) i) as [a|] eqn:Ea.
  2:{ apply nth_error_None in Ea. rewrite (conform_length X d H) in Ea. lia. }
  assert (Es : nth_error (kr_signatures (d_keyring d)) i = Some (f_sig (snd nf))).
  { unfold kr_signatures. rewrite nth_error_map, E. reflexivity. }
  pose proof (Forall2_nth2 _ _ _ _ _ i _ _ H Es Ea) as (f & H1 & H2).
  exists nf, f. subst. auto.
Qed.

(** The new action installed by [replace]. *)
Definition replacing {X : Type} (r : replacement X) : func X :=
  match r with ByUnevaluated f | ByFunctor f => f end.

Lemma replace_inv : forall (X : Type) (d : dispatcher X) i r d', conform d -> replace d i r = Some (Ok d') ->
  i < length (kr_funcs (d_keyring d))
  /\ nth_error (kr_signatures (d_keyring d)) i = Some (f_sig (replacing r))
  /\ d' = mk_dispatcher (d_keyring d) (d_features d)
            (set_nth (d_actions d) i
               (make_action (d_features d) (kr_e (d_keyring d)) (kr_m (d_keyring d)) (replacing r))).
Proof.
  intros X d i r d' Hc H. unfold replace in H. rewrite at17_nth_error in H.
  destruct (nth_error (kr_signatures (d_keyring d)) i) as [s|] eqn:Es; [|discriminate].
  assert (Hi : i < length (kr_funcs (d_keyring d))).
  { assert (i < length (kr_signatures (d_keyring d))) by (apply nth_error_Some; congruence).
    unfold kr_signatures in H0. rewrite map_length in H0. auto. }
  destruct ((i <? d_size d) && _) eqn:Eb; [|discriminate]. apply andb_prop in Eb. destruct Eb as [_ Eb].
  apply sig_eqb_eq in Eb. subst s. split; auto. split; auto.
  assert (Hla : i <? length (d_actions d) = true).
  { apply Nat.ltb_lt. rewrite (conform_length X d Hc). auto. }
  unfold assign_action in H. rewrite Hla in H.
  destruct r as [f|f]; cbn [replacing] in *.
  - congruence.
  - destruct (d_features d); [|discriminate]. cbn [make_action]. congruence.
Qed.

Lemma replace_conform : forall (X : Type) (d : dispatcher X) i r d', conform d ->
  replace d i r = Some (Ok d') -> conform d' /\ d_keyring d' = d_keyring d /\ d_features d' = d_features d.
Proof.
  intros X d i r d' Hc H. destruct (replace_inv X d i r d' Hc H) as (Hi & Hs & ->).
  cbn [d_keyring d_features]. split; auto. unfold conform. cbn [d_keyring d_features d_actions].
  apply Forall2_nth_intro.
  - rewrite set_nth_length. apply Forall2_length in Hc. auto.
  - intros j s a Hj Ha. destruct (Nat.eq_dec i j) as [->|Hne].
    + rewrite set_nth_same in Ha by (rewrite (conform_length X d Hc); auto).
      injection Ha as <-. exists (replacing r). split; auto. congruence.
    + rewrite set_nth_other in Ha by auto. eapply Forall2_nth2; eauto.
Qed.
