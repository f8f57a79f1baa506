(** Property C93: when the keyrings of a caller and of a callee, which differ in
    any way (format, number of callbacks, signatures), make a working pair. *)

From Coq Require Import List ZArith Bool Arith Lia ZifyBool ZifyNat.
From Verif Require Import Base CInt Spec IntModel Conditions MemFacts TypeLevel Serial TupleModel
  TypeLevelProofs IntProofs SignedProofs SerialProofs CodecFacts Bounds TupleProofs SpecRpc Rpc RpcProofs
  Hosts Closed PropertiesTypes PropertiesInt PropertiesTuple PropertiesRpc PropertiesFormats PropertiesRegroup.
Import ListNotations.
Open Scope nat_scope.

(** What a callback returns, as a list: nothing for [void]. *)
Definition returned (r : option ty) : list ty := match r with Some t => [t] | None => [] end.

Definition given_back (r : option val) : list Z := match r with Some v => numbers v | None => [] end.

(** A callback of the caller and one of the callee: the parameters agree from
    the caller to the callee, the returned values from the callee to the caller. *)
Definition matching (e : endianess) (m : signed_mode) (e' : endianess) (m' : signed_mode) (s s' : signature) : Prop :=
  understood e m e' m' (sig_params s) (sig_params s')
  /\ understood e' m' e m (returned (sig_ret s')) (returned (sig_ret s)).

(** Both formats can express the returned value. *)
Definition answerable (p q : platform) (m m' : signed_mode) (r : option ty) (v : val) : Prop :=
  ret_encodable p m r v /\ ret_encodable q m' r v.

(** ** Sizes of indices *)

Lemma smallest_mono : forall a b, (0 <= a <= b)%Z -> (b < 2 ^ 64)%Z -> smallest_unsigned a <= smallest_unsigned b.
Proof.
  intros a b Hab Hb. change (2 ^ 64)%Z with 18446744073709551616%Z in *.
  assert (Z1 : forall x, (0 <= x)%Z -> smallest_unsigned x
             = if (x <? 256)%Z then 1 else if (x <? 65536)%Z then 2 else if (x <? 4294967296)%Z then 4 else 8).
  { intros x Hx. unfold smallest_unsigned, try_promote.
    change (2 ^ (8 * Z.of_nat 4))%Z with 4294967296%Z. change (2 ^ (8 * Z.of_nat 2))%Z with 65536%Z.
    change (2 ^ (8 * Z.of_nat 1))%Z with 256%Z.
    assert (M : forall b, (0 < b)%Z -> (x mod b =? x)%Z = (x <? b)%Z).
    { intros c Hc. destruct (Z.ltb_spec x c).
      - rewrite Z.mod_small by lia. apply Z.eqb_refl.
      - apply Z.eqb_neq. pose proof (Z.mod_pos_bound x c Hc). lia. }
    rewrite !M by lia. reflexivity. }
  rewrite !Z1 by lia.
  destruct (Z.ltb_spec a 256), (Z.ltb_spec b 256), (Z.ltb_spec a 65536), (Z.ltb_spec b 65536),
    (Z.ltb_spec a 4294967296), (Z.ltb_spec b 4294967296); lia.
Qed.

(** Bytes which make the number 0 are all 0. *)
Lemma zero_bytes : forall e bs, Forall is_byte bs -> wire_value e bs = 0%Z -> Forall (eq 0%Z) bs.
Proof.
  assert (L : forall bs, Forall is_byte bs -> wire_value LITTLE bs = 0%Z -> Forall (eq 0%Z) bs).
  { intros bs H. induction H as [|b bs Hb H IH]; intros E; auto.
    change (b + 256 * wire_value LITTLE bs = 0)%Z in E. unfold is_byte in Hb.
    pose proof (wire_value_bounds LITTLE bs H) as B. 
    constructor; [lia|]. apply IH. lia. }
  intros [|] bs H E; [apply L; auto|].
  assert (R : Forall (eq 0%Z) (rev bs)).
  { apply L; [apply Forall_rev; auto|]. cbn [wire_value] in *. rewrite <- fold_left_rev_right in E.
    etransitivity; [|exact E]. clear. induction (rev bs); cbn [fold_right]; auto. rewrite IHl. lia. }
  apply Forall_rev in R. rewrite rev_involutive in R. auto.
Qed.

(** No integers, no bytes. *)
Lemma no_integers : forall t, wf_ty t -> (integers t = [] <-> wire_size t = 0).
Proof.
  intros t W. rewrite <- integers_size. pose proof (integers_wf t W) as Wi. pose proof (integers_leaf t) as Li.
  destruct (integers t) as [|a l]; [tauto|]. split; [discriminate|]. intros H. exfalso.
  inversion Wi; subst. inversion Li; subst.
  change (wire_sizes (a :: l)) with (wire_size a + wire_sizes l) in H.
  destruct a; cbn [leaf wf_ty wire_size] in *; try contradiction; lia.
Qed.

(** ** Callbacks which record their arguments and answer what their state says *)

Definition echo (s : signature) : func (list (list val) * val) :=
  mk_func s (fun args x => ((args :: fst x, snd x), snd x)).

Definition echoes (sigs : list signature) : list (nat * func (list (list val) * val)) :=
  combine (seq 0 (length sigs)) (map echo sigs).

Lemma echoes_sigs : forall sigs, map (fun nf => f_sig (snd nf)) (echoes sigs) = sigs.
Proof.
  intros sigs. unfold echoes. generalize 0. induction sigs as [|s sigs IH]; intros k; cbn; auto.
  f_equal. apply IH.
Qed.

Lemma echoes_nth : forall sigs i s, nth_error sigs i = Some s -> nth_error (echoes sigs) i = Some (i, echo s).
Proof.
  intros sigs i s. unfold echoes. change i with (0 + i) at 3. generalize 0. revert i.
  induction sigs as [|s' sigs IH]; intros [|i] k H; try discriminate; cbn in *.
  - rewrite Nat.add_0_r. congruence.
  - rewrite (IH i (Datatypes.S k) H). do 2 f_equal. lia.
Qed.

Lemma recorders_key : forall e m sigs i s, nth_error sigs i = Some s ->
  exists k, kr_get (mk_keyring e m (recorders sigs)) i (recorder s) = Some k
            /\ k_sig k = s /\ k_e k = e /\ k_m k = m.
Proof.
  intros e m sigs i s Hi. pose proof (recorders_nth sigs i s Hi) as Hni.
  unfold kr_get. cbn [kr_funcs]. rewrite (find17_nodup nat Nat.eqb i _ i).
  - eexists. split; [reflexivity|]. auto.
  - intros. apply Nat.eqb_eq.
  - rewrite nth_error_map, Hni. reflexivity.
  - rewrite recorders_names. apply seq_NoDup.
Qed.

(** ** What a dispatch which ends at the right callback tells *)

Lemma dispatch_inv : forall (S : Type) q (kr : keyring S) ft packet rest s x i name f,
  wf_platform q -> keyring_ok q kr -> Forall is_byte packet -> Forall is_byte rest ->
  nth_error (kr_funcs kr) i = Some (name, f) ->
  dispatch q (make_dispatcher (lift_keyring kr) ft) take_wire give_wire (mk_wires (packet ++ rest) [] s) = Ok (x, i) ->
  w_in x = rest ->
  length packet = kr_index_size kr + wire_sizes (sig_params (f_sig f))
  /\ Z.to_nat (wire_value (kr_e kr) (firstn (kr_index_size kr) packet)) = i
  /\ w_user x = fst (f_call f (dec_list (kr_e kr) (kr_m kr) (sig_params (f_sig f))
                                 (skipn (kr_index_size kr) packet)) s).
Proof.
  intros S q kr ft packet rest s x i name f Hq Hk Hpb Hrb Hi Hd Hx.
  set (w := kr_index_size kr) in *. set (ts := sig_params (f_sig f)) in *.
  assert (Hs : sig_ok q (kr_e kr) (kr_m kr) (f_sig f)).
  { destruct Hk as [_ F]. rewrite Forall_forall in F. apply (F (name, f) (nth_error_In _ _ Hi)). }
  set (inp := packet ++ rest) in *.
  assert (Hib : Forall is_byte inp) by (apply Forall_app; auto).
  destruct (Nat.lt_ge_cases (length inp) w) as [H|H].
  { rewrite dispatch_short in Hd by auto. discriminate. }
  pose proof Hib as Hib'. rewrite <- (firstn_skipn w inp) in Hd, Hib'. apply Forall_app in Hib'. destruct Hib' as [Hb1 Hb2].
  rewrite dispatch_wires in Hd by (auto; apply firstn_length_le; auto).
  set (j := Z.to_nat _) in *.
  assert (Hj : j = i).
  { destruct (nth_error (kr_funcs kr) j) as [nf|].
    - apply bind_ok in Hd. destruct Hd as (y & _ & Hd). congruence.
    - congruence. }
  rewrite Hj, Hi in Hd. cbn [snd] in Hd. apply bind_ok in Hd. destruct Hd as (y & Hc & Hd).
  assert (y = x) by congruence. subst y. clear Hd.
  destruct (Nat.lt_ge_cases (length (skipn w inp)) (wire_sizes ts)) as [H2|H2].
  { rewrite (call_pull_fault q _ _ _ (lift_func f) _ _ _ NoInput) in Hc; auto; [discriminate|].
    apply pull_short. rewrite lift_sig. auto. }
  rewrite <- (firstn_skipn (wire_sizes ts) (skipn w inp)) in Hc, Hb2.
  apply Forall_app in Hb2. destruct Hb2 as [Hb2 _].
  apply call_wires_inv in Hc; auto; [|apply firstn_length_le; auto].
  destruct Hc as [Hc1 Hc2]. rewrite skipn_length in H2.
  assert (Hl : length inp = length packet + length rest) by (apply app_length).
  assert (El : length packet = w + wire_sizes ts).
  { rewrite Hx in Hc1. apply (f_equal (@length Z)) in Hc1. rewrite !skipn_length in Hc1. lia. }
  split; auto. split.
  - rewrite <- Hj. unfold j, inp. do 2 f_equal. rewrite firstn_app.
    replace (w - length packet) with 0 by lia. rewrite app_nil_r. reflexivity.
  - rewrite Hc2. fold ts. do 3 f_equal. unfold inp.
    rewrite skipn_app. replace (w - length packet) with 0 by lia. cbn [skipn].
    apply firstn_app_len. rewrite skipn_length. lia.
Qed.

(** What a response which was read tells. *)
Lemma key_read_inv : forall p k t bs x r, wf_platform p -> ty_ok p (k_e k) (k_m k) t -> sig_ret (k_sig k) = Some t ->
  Forall is_byte bs -> key_read p k take_wire (mk_wires bs [] tt) = Ok (x, r) ->
  wire_size t <= length bs /\ w_in x = skipn (wire_size t) bs
  /\ r = Some (dec (k_e k) (k_m k) t (firstn (wire_size t) bs)).
Proof.
  intros p k t bs x r Hp Ht Hs Hb H. unfold key_read in H. rewrite Hs, read_tuple_ok in H by auto.
  assert (Ew : wire_sizes [t] = wire_size t) by (cbn; lia). rewrite Ew in H.
  destruct (Nat.lt_ge_cases (length bs) (wire_size t)) as [Hlt|Hge].
  { rewrite pull_short in H by (cbn [w_in]; lia). discriminate. }
  split; auto. rewrite <- (firstn_skipn (wire_size t) bs) in H, Hb. apply Forall_app in Hb. destruct Hb as [Hb _].
  assert (Lf : length (firstn (wire_size t) bs) = wire_size t) by (apply firstn_length_le; lia).
  rewrite pull_wires in H by auto. cbn [bind] in H.
  apply bind_ok in H. destruct H as (v & H1 & H2). injection H2 as <- <-. split; auto.
  apply (read_element_inv p (k_e k) (k_m k) [t] _ 0 t) in H1; auto; [|lia].
  rewrite slice_0_all in H1 by lia. congruence.
Qed.

(** ** C93 *)

(** A caller and a callee with keyrings of their own.  Every request of the
    caller runs the callback of the callee with the same index on the same
    numbers, both streams stay framed and the caller gets the numbers which the
    callback returned, if and only if the callee has as many callbacks at
    least, the indices have the same size and the same byte order (or one byte),
    and the callbacks match one by one. *)
Theorem C93_exact : forall p q e m e' m' sigs sigs',
  wf_platform p -> wf_platform q -> sigs <> [] ->
  (Z.of_nat (length sigs) < 2 ^ 64)%Z -> (Z.of_nat (length sigs') < 2 ^ 64)%Z ->
  Forall (sig_ok p e m) sigs -> Forall (sig_ok q e' m') sigs' ->
  let w := smallest_unsigned (Z.of_nat (length sigs)) in
  (length sigs <= length sigs' /\ smallest_unsigned (Z.of_nat (length sigs')) = w /\ (e = e' \/ w = 1)
   /\ (forall i s s', nth_error sigs i = Some s -> nth_error sigs' i = Some s' -> matching e m e' m' s s')
   <->
   forall (S S' : Type) (funcs : list (nat * func S)) (funcs' : list (nat * func S')) ft i name f k args s rest rest',
     map (fun nf => f_sig (snd nf)) funcs = sigs -> map (fun nf => f_sig (snd nf)) funcs' = sigs' ->
     nth_error funcs i = Some (name, f) -> kr_get (mk_keyring e m funcs) name f = Some k ->
     Forall2 (encodable p m) (sig_params (f_sig f)) args -> Forall2 (encodable q m') (sig_params (f_sig f)) args ->
     (forall name' f' args', nth_error funcs' i = Some (name', f') ->
        answerable p q m m' (sig_ret (f_sig f')) (snd (f_call f' args' s))) ->
     Forall is_byte rest -> Forall is_byte rest' ->
     exists name' f' packet args' resp r,
       nth_error funcs' i = Some (name', f')
       /\ key_write p k args give_wire (mk_wires [] [] tt) = Ok (mk_wires [] packet tt)
       /\ Forall2 has_type (sig_params (f_sig f')) args' /\ flat_map numbers args' = flat_map numbers args
       /\ dispatch q (make_dispatcher (lift_keyring (mk_keyring e' m' funcs')) ft) take_wire give_wire
            (mk_wires (packet ++ rest) [] s)
          = Ok (mk_wires rest resp (fst (f_call f' args' s)), i)
       /\ key_read p k take_wire (mk_wires (resp ++ rest') [] tt) = Ok (mk_wires rest' [] tt, r)
       /\ given_back r = given_back (option_map (fun _ => snd (f_call f' args' s)) (sig_ret (f_sig f')))).
Proof.
  intros p q e m e' m' sigs sigs' Hp Hq Hne Hl Hl' Hsp Hsq w. split.
  - intros (Hlen & Hw & Hx & Hm) S S' funcs funcs' ft i name f k args s rest rest' Es Es' Hi Hg Hap Haq Hr Hb Hb'.
    set (kr := mk_keyring e m funcs) in *. set (kr' := mk_keyring e' m' funcs').
    pose proof (sigs_ok S p e m sigs funcs Es Hl Hsp) as Kp. fold kr in Kp.
    pose proof (sigs_ok S' q e' m' sigs' funcs' Es' Hl' Hsq) as Kq. fold kr' in Kq.
    assert (Ew : kr_index_size kr = w).
    { unfold kr_index_size. cbn [kr kr_funcs]. unfold w. rewrite <- Es, map_length. reflexivity. }
    assert (Ew' : kr_index_size kr' = w).
    { unfold kr_index_size. cbn [kr' kr_funcs]. rewrite <- Hw, <- Es', map_length. reflexivity. }
    assert (Hlt : i < length funcs) by (apply nth_error_Some; congruence).
    rewrite <- Es, <- Es', !map_length in Hlen.
    destruct (nth_error funcs' i) as [[name' f']|] eqn:Hi'; [|apply nth_error_None in Hi'; lia].
    assert (Hss : nth_error sigs i = Some (f_sig f)) by (rewrite <- Es, nth_error_map, Hi; reflexivity).
    assert (Hss' : nth_error sigs' i = Some (f_sig f')) by (rewrite <- Es', nth_error_map, Hi'; reflexivity).
    destruct (Hm i _ _ Hss Hss') as [U V].
    assert (Sp : sig_ok p e m (f_sig f)) by (rewrite Forall_forall in Hsp; apply Hsp; eapply nth_error_In; eauto).
    assert (Sq : sig_ok q e' m' (f_sig f')) by (rewrite Forall_forall in Hsq; apply Hsq; eapply nth_error_In; eauto).
    destruct (understood_args p q _ _ _ _ _ _ args (tys_wf _ _ _ _ (proj1 Sp)) U Hap Haq) as (args' & Ha' & Hn & E).
    destruct (Hr name' f' args' eq_refl) as [Hrp Hrq].
    set (v := snd (f_call f' args' s)) in *.
    destruct (kr_get_nth S kr name f k Hg (nth_error_In _ _ Hi)) as (_ & _ & Ek).
    assert (Hks : k_sig k = f_sig f /\ k_e k = e /\ k_m k = m) by (rewrite Ek; auto).
    destruct Hks as (Eks & Eke & Ekm).
    assert (Rd : exists r, key_read p k take_wire (mk_wires (response e' m' (sig_ret (f_sig f')) v ++ rest') [] tt)
                   = Ok (mk_wires rest' [] tt, r)
                 /\ given_back r = given_back (option_map (fun _ => v) (sig_ret (f_sig f')))).
    { destruct Sp as [_ Sp]. destruct Sq as [_ Sq].
      destruct (sig_ret (f_sig f')) as [t'|] eqn:Er';
        cbn [response option_map given_back returned ret_encodable ret_ty_ok] in *;
        destruct (sig_ret (f_sig f)) as [t|] eqn:Er; cbn [returned ret_ty_ok] in *.
      - destruct (proj1 (C89_responses q p e' m' e m t' t k Hq Hp Sq Sp ltac:(congruence) Eke Ekm) V v rest' Hrq Hrp Hb')
          as (resp & v' & H1 & H2 & _ & H4).
        rewrite insert_ok in H1 by auto. rewrite give_wires in H1. injection H1 as <-.
        exists (Some v'). split; auto.
      - unfold understood in V. cbn [flat_map] in V. rewrite app_nil_r in V. assert (Hz : integers t' = []) by (inversion V; auto).
        assert (L0 : length (enc e' m' t' v) = 0).
        { rewrite enc_length by apply Hrq. apply no_integers; auto. apply Sq. }
        destruct (enc e' m' t' v); [|discriminate].
        exists None. unfold key_read. rewrite Eks, Er. split; auto. cbn [given_back].
        assert (N0 : length (numbers v) = 0) by (rewrite (numbers_count t' v) by apply Hrq; rewrite Hz; reflexivity).
        destruct (numbers v); [auto|discriminate].
      - unfold understood in V. cbn [flat_map] in V. rewrite app_nil_r in V. assert (Hz : integers t = []) by (inversion V; auto).
        assert (D : encodable p (k_m k) t (default_val t)) by (apply default_ok; apply Sp).
        assert (L0 : wire_size t = 0) by (apply no_integers; auto; apply Sp).
        exists (Some (default_val t)). split.
        + rewrite (C28_returns _ p k take_wire _ (mk_wires rest' [] tt) (default_val t));
            rewrite ?Eks, ?Er, ?Eke, ?Ekm; auto.
          * rewrite Ekm in D. exact D.
          * cbn [wire_size_ret response].
            assert (Len : length (enc e m t (default_val t)) = wire_size t) by (apply enc_length; apply D).
            destruct (enc e m t (default_val t)); [|rewrite L0 in Len; discriminate].
            apply (pull_wires (wire_size t) []). auto.
        + cbn [given_back].
          assert (N0 : length (numbers (default_val t)) = 0)
            by (rewrite (numbers_count t _) by apply D; rewrite Hz; reflexivity).
          destruct (numbers (default_val t)); [auto|discriminate].
      - exists None. unfold key_read. rewrite Eks, Er. auto. }
    destruct Rd as (r & Hrd & Hrn).
    exists name', f'. eexists. exists args'. eexists. exists r.
    split; auto. split; [apply (packet_sent p kr i name f k args); auto|].
    split; [eapply encodable_has; eauto|]. split; auto. split; [|split; [exact Hrd|exact Hrn]].
    replace (request (kr_e kr) (kr_m kr) (kr_index_size kr) i (sig_params (f_sig f)) args)
      with (request (kr_e kr') (kr_m kr') (kr_index_size kr') i (sig_params (f_sig f')) args').
    + apply (request_served q kr' ft i name' f' args' s rest Hq Kq Hi'); auto.
    + unfold request. cbn [kr kr' kr_e kr_m]. fold kr kr'. rewrite E, Ew, Ew'. f_equal.
      destruct Hx as [->|Hx]; auto. rewrite Hx. apply wire_bytes_1.
  - intros H.
    set (kr := mk_keyring e m (recorders sigs)). set (kr' := mk_keyring e' m' (echoes sigs')).
    pose proof (sigs_ok _ p e m sigs _ (recorders_sigs sigs) Hl Hsp) as Kp. fold kr in Kp.
    pose proof (sigs_ok _ q e' m' sigs' _ (echoes_sigs sigs') Hl' Hsq) as Kq. fold kr' in Kq.
    set (w' := smallest_unsigned (Z.of_nat (length sigs'))) in *.
    assert (Ew : kr_index_size kr = w).
    { unfold kr_index_size. cbn [kr kr_funcs]. unfold w. rewrite <- (recorders_sigs sigs) at 2. rewrite map_length. reflexivity. }
    assert (Ew' : kr_index_size kr' = w').
    { unfold kr_index_size. cbn [kr' kr_funcs]. unfold w'. rewrite <- (echoes_sigs sigs') at 2. rewrite map_length. reflexivity. }
    assert (Hw : 1 <= w <= 8).
    { destruct (index_size _ _ (proj1 Kp)) as (Hw & _). rewrite Ew in Hw. auto. }
    (* the callee has the callback, and all requests are understood *)
    assert (R : forall i s args v rest',
              nth_error sigs i = Some s ->
              Forall2 (encodable p m) (sig_params s) args -> Forall2 (encodable q m') (sig_params s) args ->
              (forall s', nth_error sigs' i = Some s' -> answerable p q m m' (sig_ret s') v) ->
              Forall is_byte rest' ->
              exists s' k resp r, nth_error sigs' i = Some s' /\ (k_sig k = s /\ k_e k = e /\ k_m k = m)
                /\ length (request e m w i (sig_params s) args) = w' + wire_sizes (sig_params s')
                /\ Z.to_nat (wire_value e' (firstn w' (request e m w i (sig_params s) args))) = i
                /\ flat_map numbers (dec_list e' m' (sig_params s') (skipn w' (request e m w i (sig_params s) args)))
                   = flat_map numbers args
                /\ dispatch q (make_dispatcher (lift_keyring kr') ANY) take_wire give_wire
                     (mk_wires (request e m w i (sig_params s) args ++ []) [] ([], v))
                   = Ok (mk_wires [] resp ([dec_list e' m' (sig_params s')
                                              (skipn w' (request e m w i (sig_params s) args))], v), i)
                /\ key_read p k take_wire (mk_wires (resp ++ rest') [] tt) = Ok (mk_wires rest' [] tt, r)
                /\ given_back r = given_back (option_map (fun _ => v) (sig_ret s'))).
    { intros i s args v rest' Hi Hap Haq Hv Hb'.
      destruct (recorders_key e m sigs i s Hi) as (k & Hk & Hks).
      pose proof (recorders_nth sigs i s Hi) as Hni.
      destruct (H _ _ (recorders sigs) (echoes sigs') ANY i i (recorder s) k args ([], v) [] rest'
                  (recorders_sigs sigs) (echoes_sigs sigs') Hni Hk Hap Haq)
        as (name' & f' & packet & args' & resp & r & H1 & H2 & H3 & H4 & H5 & H6 & H7); auto.
      { intros name' f' args' Hn. destruct (nth_error sigs' i) as [s'|] eqn:Hs'.
        - rewrite (echoes_nth sigs' i s' Hs') in Hn. injection Hn as <- <-. cbn [echo f_sig f_call snd]. auto.
        - apply nth_error_None in Hs'.
          assert (Z : nth_error (echoes sigs') i = None).
          { apply nth_error_None. rewrite <- (echoes_sigs sigs'), map_length in Hs'. auto. }
          congruence. }
      destruct (nth_error sigs' i) as [s'|] eqn:Hs'.
      2:{ apply nth_error_None in Hs'. rewrite <- (echoes_sigs sigs'), map_length in Hs'.
          apply nth_error_None in Hs'. congruence. }
      rewrite (echoes_nth sigs' i s' Hs') in H1. injection H1 as <- <-.
      rewrite (packet_sent p kr i i (recorder s) k args) in H2 by auto.
      cbn [kr kr_e kr_m] in H2. fold kr in H2. rewrite Ew in H2. cbn [recorder f_sig] in H2. injection H2 as <-.
      exists s', k, resp, r. split; auto. split; auto.
      fold kr' in H5.
      assert (Hpb : Forall is_byte (request e m w i (sig_params s) args)).
      { unfold request. apply Forall_app. split; [apply wire_bytes_bytes|apply enc_list_bytes]. }
      destruct (dispatch_inv _ q kr' ANY _ [] _ _ i i (echo s') Hq Kq Hpb (Forall_nil _) (echoes_nth sigs' i s' Hs') H5 eq_refl)
        as (I1 & I2 & I3).
      rewrite Ew' in I1, I2, I3. cbn [kr' kr_e kr_m echo f_sig f_call fst snd w_user] in *.
      injection I3 as I3. rewrite <- I3. split; auto. }
    assert (D : forall s, In s sigs -> Forall2 (encodable p m) (sig_params s) (map default_val (sig_params s))
                                       /\ Forall2 (encodable q m') (sig_params s) (map default_val (sig_params s))).
    { intros s Hs. assert (W : Forall wf_ty (sig_params s)).
      { rewrite Forall_forall in Hsp. eapply tys_wf. apply (Hsp s Hs). }
      clear -W. induction W; cbn [map]; split; constructor; try apply IHW; apply default_ok; auto. }
    assert (A : forall i, exists v, forall s', nth_error sigs' i = Some s' -> answerable p q m m' (sig_ret s') v).
    { intros i. destruct (nth_error sigs' i) as [s'|] eqn:Hs'.
      - exists (match sig_ret s' with Some t => default_val t | None => VInt 0 end). intros s0 E0. injection E0 as <-.
        assert (Hss : sig_ok q e' m' s') by (rewrite Forall_forall in Hsq; apply Hsq; eapply nth_error_In; eauto).
        destruct Hss as [_ Hr]. destruct (sig_ret s'); split; cbn [ret_encodable ret_ty_ok] in *; auto;
          apply default_ok; apply Hr.
      - exists (VInt 0). discriminate. }
    assert (Hlen : length sigs <= length sigs').
    { destruct (Nat.le_gt_cases (length sigs) (length sigs')) as [|Hgt]; auto. exfalso.
      destruct (nth_error sigs (length sigs')) as [s|] eqn:Hs; [|apply nth_error_None in Hs; lia].
      destruct (D s (nth_error_In _ _ Hs)) as [D1 D2]. destruct (A (length sigs')) as [v Hv].
      destruct (R _ s _ v [] Hs D1 D2 Hv (Forall_nil _)) as (s' & _ & _ & _ & Hs' & _).
      assert (length sigs' < length sigs') by (apply nth_error_Some; congruence). lia. }
    assert (Hww : w <= w') by (apply smallest_mono; lia).
    (* the indices have the same size: request 0 with arguments all of whose bytes are 1 *)
    assert (Eww : w' = w).
    { destruct (Nat.eq_dec w' w) as [|Hneq]; auto. exfalso.
      destruct sigs as [|s sigs0]; [congruence|]. clear Hne.
      assert (W : Forall wf_ty (sig_params s)) by (inversion Hsp; subst; eapply tys_wf; apply H2).
      assert (Wi : Forall wf_ty (flat_map integers (sig_params s))).
      { clear -W. induction W; cbn [flat_map]; auto. apply Forall_app. split; auto. apply integers_wf. auto. }
      assert (Li : Forall leaf (flat_map integers (sig_params s))).
      { clear. induction (sig_params s); cbn [flat_map]; auto. apply Forall_app. split; auto. apply integers_leaf. }
      assert (O : forall p m', Forall2 (fits p m') (flat_map integers (sig_params s))
                                 (map (ones m) (flat_map integers (sig_params s)))).
      { clear -Wi Li. intros p m'. induction Li; cbn [map]; constructor; inversion Wi; subst; auto. apply ones_fits; auto. }
      destruct (regroup_list p m (sig_params s) _ (O p m)) as (args & Hap & En).
      assert (Haq : Forall2 (encodable q m') (sig_params s) args).
      { apply fit_encodable_list; [eapply encodable_has; eauto|]. rewrite En. auto. }
      assert (Ee : enc_list e m (sig_params s) args = repeat 1%Z (wire_sizes (sig_params s))).
      { rewrite enc_list_flat, En by (eapply encodable_has; eauto). rewrite <- integers_sizes.
        clear -Li Wi. induction Li; auto. inversion Wi; subst. cbn [map enc_list]. rewrite ones_enc by auto.
        rewrite IHLi by auto. change (wire_sizes (x :: l)) with (wire_size x + wire_sizes l).
        rewrite repeat_app. reflexivity. }
      destruct (A 0) as [v Hv].
      destruct (R 0 s args v [] eq_refl Hap Haq Hv (Forall_nil _)) as (s' & _ & _ & _ & _ & _ & L1 & L2 & _).
      unfold request in L1, L2. rewrite Ee in L1, L2. rewrite app_length, wire_bytes_length, repeat_length in L1.
      set (n := wire_sizes (sig_params s)) in *.
      assert (Hpb : Forall is_byte (firstn w' (wire_bytes e w (Z.of_nat 0) ++ repeat 1%Z n))).
      { assert (F : Forall is_byte (wire_bytes e w (Z.of_nat 0) ++ repeat 1%Z n)).
        { apply Forall_app. split; [apply wire_bytes_bytes|]. apply Forall_repeat. unfold is_byte. lia. }
        rewrite <- (firstn_skipn w') in F. apply Forall_app in F. apply F. }
      pose proof (wire_value_bounds e' _ Hpb) as B.
      assert (Zr : wire_value e' (firstn w' (wire_bytes e w (Z.of_nat 0) ++ repeat 1%Z n)) = 0%Z) by lia.
      apply zero_bytes in Zr; auto. rewrite Forall_forall in Zr.
      assert (In1 : In 1%Z (firstn w' (wire_bytes e w (Z.of_nat 0) ++ repeat 1%Z n))).
      { rewrite firstn_app, wire_bytes_length. apply in_or_app. right.
        destruct (w' - w) as [|d] eqn:Hd; [lia|]. destruct n as [|n']; [lia|]. cbn. auto. }
      specialize (Zr _ In1). discriminate. }
    split; auto. split; auto.
    assert (Hx : e = e' \/ w = 1).
    { destruct (Nat.eq_dec w 1) as [E1|E1]; auto. apply uns_differ; auto.
      assert (H1 : 1 < length sigs).
      { destruct (Nat.lt_ge_cases 1 (length sigs)); auto. exfalso. apply E1. unfold w.
        destruct (length sigs) as [|[|]]; [reflexivity|reflexivity|lia]. }
      destruct (nth_error sigs 1) as [s|] eqn:Hs; [|apply nth_error_None in Hs; lia].
      destruct (D s (nth_error_In _ _ Hs)) as [D1 D2]. destruct (A 1) as [v Hv].
      destruct (R 1 s _ v [] Hs D1 D2 Hv (Forall_nil _)) as (s' & _ & _ & _ & _ & _ & _ & L2 & _).
      rewrite Eww in L2. unfold request in L2. rewrite firstn_app_len in L2 by apply wire_bytes_length.
      change (Z.of_nat 1) with 1%Z in L2.
      pose proof (wire_value_bounds e' (wire_bytes e w 1) (wire_bytes_bytes e w 1)). lia. }
    split; auto. intros i s s' Hs Hs'.
    assert (Sp : sig_ok p e m s) by (rewrite Forall_forall in Hsp; apply Hsp; eapply nth_error_In; eauto).
    assert (Sq : sig_ok q e' m' s') by (rewrite Forall_forall in Hsq; apply Hsq; eapply nth_error_In; eauto).
    assert (Szs : wire_sizes (sig_params s) = wire_sizes (sig_params s')).
    { destruct (D s (nth_error_In _ _ Hs)) as [D1 D2]. destruct (A i) as [v Hv].
      destruct (R i s _ v [] Hs D1 D2 Hv (Forall_nil _)) as (s0 & _ & _ & _ & Hs0 & _ & L1 & _).
      assert (s0 = s') by congruence. subst s0. unfold request in L1. rewrite app_length, wire_bytes_length in L1.
      rewrite (enc_list_length e m (sig_params s)), Eww in L1 by (eapply encodable_has; eauto).
      apply Nat.add_cancel_l in L1. exact L1. }
    assert (U : understood e m e' m' (sig_params s) (sig_params s')).
    { apply (args_understood p q); auto; [eapply tys_wf; apply Sp|eapply tys_wf; apply Sq|].
      intros args Hap Haq. destruct (A i) as [v Hv].
      destruct (R i s _ v [] Hs Hap Haq Hv (Forall_nil _)) as (s0 & _ & _ & _ & Hs0 & _ & _ & _ & L3 & _).
      assert (s0 = s') by congruence. subst s0. rewrite Eww in L3. unfold request in L3.
      rewrite skipn_app_len in L3 by apply wire_bytes_length. auto. }
    split; auto.
    (* the response, now that the request is known to be served *)
    assert (V : forall v rest', answerable p q m m' (sig_ret s') v -> Forall is_byte rest' ->
              exists k r, (k_sig k = s /\ k_e k = e /\ k_m k = m)
                /\ key_read p k take_wire (mk_wires (response e' m' (sig_ret s') v ++ rest') [] tt)
                   = Ok (mk_wires rest' [] tt, r)
                /\ given_back r = given_back (option_map (fun _ => v) (sig_ret s'))).
    { intros v rest' Hv Hb'. destruct (D s (nth_error_In _ _ Hs)) as [D1 D2].
      destruct (R i s _ v rest' Hs D1 D2) as (s0 & k & resp & r & Hs0 & Hk & _ & _ & _ & Hd & Hrd & Hg); auto.
      { intros s0 E0. assert (s0 = s') by congruence. subst s0. auto. }
      assert (s0 = s') by congruence. subst s0.
      exists k, r. split; auto. split; auto.
      destruct (understood_args p q _ _ _ _ _ _ _ (tys_wf _ _ _ _ (proj1 Sp)) U D1 D2) as (args' & Ha' & Hn & E).
      assert (Er : request e m w i (sig_params s) (map default_val (sig_params s))
                   = request e' m' w i (sig_params s') args').
      { unfold request. rewrite E. f_equal. destruct Hx as [->|Hx]; auto. rewrite Hx. apply wire_bytes_1. }
      pose proof (request_served q kr' ANY i i (echo s') args' ([], v) [] Hq Kq (echoes_nth sigs' i s' Hs') Ha') as Rs.
      cbn [echo f_sig f_call snd fst kr' kr_e kr_m] in Rs. fold kr' in Rs.
      rewrite Ew', Eww in Rs. rewrite Er, Rs in Hd by apply Hv.
      assert (resp = response e' m' (sig_ret s') v) by congruence. subst resp. auto. }
    clear R A. destruct Sp as [_ Sp]. destruct Sq as [_ Sq].
    unfold matching. unfold answerable in V.
    destruct (sig_ret s') as [t'|]; cbn [returned response option_map given_back ret_encodable ret_ty_ok] in *;
      destruct (sig_ret s) as [t|] eqn:Er; cbn [returned ret_ty_ok] in *.
    + apply (proj2 (C89_responses q p e' m' e m t' t (mk_key w i s e m) Hq Hp Sq Sp Er eq_refl eq_refl)).
      intros v rest' Hvq Hvp Hb'. destruct (V v rest' (conj Hvp Hvq) Hb') as (k & r & (K1 & K2 & K3) & Hrd & Hg).
      assert (Ekr : key_read p (mk_key w i s e m) take_wire (mk_wires (enc e' m' t' v ++ rest') [] tt)
                    = Ok (mk_wires rest' [] tt, r)).
      { rewrite <- Hrd. unfold key_read. cbn [k_sig k_e k_m]. rewrite K1, K2, K3. reflexivity. }
      assert (Hbs : Forall is_byte (enc e' m' t' v ++ rest')) by (apply Forall_app; split; auto; apply enc_bytes).
      destruct (key_read_inv p (mk_key w i s e m) t _ _ _ Hp Sp Er Hbs Ekr) as (I1 & _ & ->).
      eexists. eexists. split; [rewrite insert_ok by auto; apply give_wires|].
      split; [exact Ekr|]. split; [|exact Hg]. apply dec_has_type; [apply Sp|apply firstn_length_le; auto|].
      cbn [k_e k_m]. rewrite <- (firstn_skipn (wire_size t)) in Hbs. apply Forall_app in Hbs. apply Hbs.
    + assert (Dq : encodable q m' t' (default_val t')) by (apply default_ok; apply Sq).
      destruct (V (default_val t') []) as (k & r & (K1 & K2 & K3) & Hrd & _); auto.
      { split; auto. apply default_ok. apply Sq. }
      unfold key_read in Hrd. rewrite K1, Er in Hrd. rewrite app_nil_r in Hrd.
      assert (E0 : enc e' m' t' (default_val t') = []) by congruence.
      assert (Z0 : wire_size t' = 0) by (rewrite <- (enc_length e' m' t' (default_val t')), E0 by apply Dq; reflexivity).
      apply no_integers in Z0; [|apply Sq]. unfold understood. cbn [flat_map]. rewrite Z0. constructor.
    + destruct (V (VInt 0) []) as (k & r & (K1 & K2 & K3) & Hrd & _); auto.
      assert (St : ty_ok p (k_e k) (k_m k) t) by (rewrite K2, K3; auto).
      destruct (key_read_inv p k t _ _ _ Hp St ltac:(congruence) (Forall_nil _) Hrd) as (I1 & _).
      assert (Z0 : wire_size t = 0) by (cbn [length] in I1; lia).
      apply no_integers in Z0; [|apply Sp]. unfold understood. cbn [flat_map]. rewrite Z0. constructor.
    + constructor.
Qed.

(** The same about one callback alone is false: a caller of 256 callbacks (its
    indices have two bytes) and a callee of one (its index has one byte), in
    big endian.  The second byte of the index 0 completes the argument, a
    [std::uint8_t], to the [std::uint16_t] of the same value which the callee
    expects. *)
Theorem C93_single_callback_refuted : exists e m sigs sigs' s s',
  Forall (sig_ok pc_native e m) sigs /\ Forall (sig_ok pc_native e m) sigs'
  /\ nth_error sigs 0 = Some s /\ nth_error sigs' 0 = Some s'
  /\ ~ matching e m e m s s'
  /\ smallest_unsigned (Z.of_nat (length sigs)) <> smallest_unsigned (Z.of_nat (length sigs'))
  /\ forall k args rest, kr_get (mk_keyring e m (recorders sigs)) 0 (recorder s) = Some k ->
       Forall2 (encodable pc_native m) (sig_params s) args -> Forall is_byte rest ->
       exists packet,
         key_write pc_native k args give_wire (mk_wires [] [] tt) = Ok (mk_wires [] packet tt)
         /\ dispatch pc_native (make_dispatcher (lift_keyring (mk_keyring e m (recorders sigs'))) ANY) take_wire give_wire
              (mk_wires (packet ++ rest) [] []) = Ok (mk_wires rest [] [args], 0).
Proof.
  set (s := mk_sig [TUns 1] None). set (s' := mk_sig [TUns 2] None).
  assert (Ks : forall w, 1 <= w <= 2 -> sig_ok pc_native BIG TWOS_COMPLEMENT (mk_sig [TUns w] None)).
  { intros w Hw. split; cbn [sig_params sig_ret ret_ty_ok]; [|exact I]. constructor; [|constructor].
    assert (D : w = 1 \/ w = 2) by lia. destruct D as [-> | ->]; tyoks. }
  assert (K1 : Forall (sig_ok pc_native BIG TWOS_COMPLEMENT) (repeat s 256)) by (apply Forall_repeat, Ks; lia).
  assert (K2 : Forall (sig_ok pc_native BIG TWOS_COMPLEMENT) [s']) by (constructor; [apply Ks; lia|constructor]).
  exists BIG, TWOS_COMPLEMENT, (repeat s 256), [s'], s, s'.
  split; auto. split; auto. split; [reflexivity|]. split; [reflexivity|].
  split. { intros [U _]. inversion U as [|? ? ? ? X _]. destruct X as [X _]. discriminate. }
  split; [vm_compute; discriminate|].
  intros k args rest Hk Ha Hb.
  assert (Kr1 : keyring_ok pc_native (mk_keyring BIG TWOS_COMPLEMENT (recorders (repeat s 256)))).
  { apply (sigs_ok _ _ _ _ (repeat s 256) _ (recorders_sigs _)); auto. reflexivity. }
  assert (Kr2 : keyring_ok pc_native (mk_keyring BIG TWOS_COMPLEMENT (recorders [s']))).
  { apply (sigs_ok _ _ _ _ [s'] _ (recorders_sigs _)); auto. reflexivity. }
  pose proof pc_native_wf as Wp.
  eexists. split; [apply (packet_sent pc_native (mk_keyring BIG TWOS_COMPLEMENT (recorders (repeat s 256))) 0 0 (recorder s) k args); auto|].
  pose proof (request_served pc_native _ ANY 0 0 (recorder s') args [] rest Wp Kr2 eq_refl) as R.
  cbn [recorder f_sig f_call fst snd sig_params s' s kr_e kr_m sig_ret response] in *.
  inversion Ha as [|? v ? l Hv Hn]; subst. inversion Hn; subst. destruct v as [a|]; [|destruct Hv as [[] _]].
  assert (Ra : (0 <= a < 256)%Z) by apply Hv.
  replace (request _ _ _ 0 [TUns 1] _) with
    (request BIG TWOS_COMPLEMENT (kr_index_size (mk_keyring BIG TWOS_COMPLEMENT (recorders [mk_sig [TUns 2] None]))) 0
       [TUns 2] [VInt a]).
  - apply R; [|exact I]. constructor; [|constructor]. split; cbn [has_type all_signed]; auto.
    change (space 2) with 65536%Z. lia.
  - unfold request. change (kr_index_size (mk_keyring _ _ (recorders [_]))) with 1.
    replace (kr_index_size _) with 2 by (vm_compute; reflexivity).
    cbn [enc_list enc wire_bytes seq rev map app]. unfold digit.
    change (256 ^ Z.of_nat 1)%Z with 256%Z. change (256 ^ Z.of_nat 0)%Z with 1%Z.
    rewrite (Z.div_small a 256), Z.div_1_r by lia. reflexivity.
Qed.

(** [f(std::uint16_t, bool) -> std::int32_t] and [g(std::uint8_t (&)[2]) -> void]
    called; the callee has [f(struct { std::uint16_t, bool }) -> std::int32_t],
    [g(std::uint8_t, std::uint8_t) -> void] and one more. *)
Definition ex_sigs : list signature :=
  [mk_sig [TUns 2; TBool] (Some (TSig 4)); mk_sig [TArr (TUns 1) 2] None].
Definition ex_sigs' : list signature :=
  [mk_sig [TUser 4 [TUns 2; TBool]] (Some (TSig 4)); mk_sig [TUns 1; TUns 1] None; mk_sig [] (Some TBool)].

Example C93_example :
  Forall (sig_ok pc_native BIG TWOS_COMPLEMENT) ex_sigs /\ Forall (sig_ok avr_portable BIG TWOS_COMPLEMENT) ex_sigs'
  /\ (forall i s s', nth_error ex_sigs i = Some s -> nth_error ex_sigs' i = Some s' ->
        matching BIG TWOS_COMPLEMENT BIG TWOS_COMPLEMENT s s')
  /\ key_write pc_native (mk_key 1 0 (mk_sig [TUns 2; TBool] (Some (TSig 4))) BIG TWOS_COMPLEMENT) [VInt 258; VInt 1]
       give_wire (mk_wires [] [] tt) = Ok (mk_wires [] [0; 1; 2; 1]%Z tt)
  /\ dispatch avr_portable (make_dispatcher (lift_keyring (mk_keyring BIG TWOS_COMPLEMENT (echoes ex_sigs'))) ANY)
       take_wire give_wire (mk_wires [0; 1; 2; 1; 9]%Z [] ([], VInt (-2)))
     = Ok (mk_wires [9]%Z [255; 255; 255; 254]%Z ([[VList [VInt 258; VInt 1]]], VInt (-2)), 0)
  /\ key_read pc_native (mk_key 1 0 (mk_sig [TUns 2; TBool] (Some (TSig 4))) BIG TWOS_COMPLEMENT) take_wire
       (mk_wires [255; 255; 255; 254; 7]%Z [] tt) = Ok (mk_wires [7]%Z [] tt, Some (VInt (-2)))
  /\ ~ matching BIG TWOS_COMPLEMENT LITTLE TWOS_COMPLEMENT (hd (mk_sig [] None) ex_sigs) (hd (mk_sig [] None) ex_sigs').
Proof.
  split; [unfold ex_sigs; list_cases; split; cbn [sig_params sig_ret ret_ty_ok]; tyoks|].
  split; [unfold ex_sigs'; list_cases; split; cbn [sig_params sig_ret ret_ty_ok]; tyoks|].
  split.
  { intros [|[|[|i]]] s s' H H'; try discriminate; injection H as <-; injection H' as <-;
      split; unfold understood; cbn; repeat constructor; auto. }
  split; [vm_compute; reflexivity|]. split; [vm_compute; reflexivity|]. split; [vm_compute; reflexivity|].
  intros [U _]. unfold understood in U. cbn in U. inversion U as [|? ? ? ? X _]. destruct X as [_ [X|X]]; discriminate.
Qed.

(** A callee which lost its first callback: requests for the first run the
    second, and the bytes left are taken for the next request. *)
Example C93_removed :
  ~ (forall i s s', nth_error ex_sigs i = Some s -> nth_error (tl ex_sigs) i = Some s' ->
       matching BIG TWOS_COMPLEMENT BIG TWOS_COMPLEMENT s s')
  /\ dispatch avr_portable (make_dispatcher (lift_keyring (mk_keyring BIG TWOS_COMPLEMENT (echoes (tl ex_sigs)))) ANY)
       take_wire give_wire (mk_wires [0; 1; 2; 1; 9]%Z [] ([], VInt (-2)))
     = Ok (mk_wires [1; 9]%Z [] ([[VList [VInt 1; VInt 2]]], VInt (-2)), 0).
Proof.
  split; [|vm_compute; reflexivity]. intros H. destruct (H 0 _ _ eq_refl eq_refl) as [U _].
  unfold understood in U. cbn in U. inversion U as [|? ? ? ? X _]. destruct X as [X _]. discriminate.
Qed.

Print Assumptions C93_exact.
Print Assumptions C93_single_callback_refuted.
