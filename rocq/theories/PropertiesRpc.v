(** Properties C24, C28 to C34, C53, and C47 for plain dispatchers. *)

From Coq Require Import List ZArith Lia Bool Arith.
From Verif Require Import Base CInt Spec IntModel Conditions MemFacts TypeLevel Serial TupleModel
  TypeLevelProofs IntProofs SignedProofs SerialProofs CodecFacts Bounds TupleProofs SpecRpc Rpc RpcProofs
  Hosts Closed PropertiesTypes.
Import ListNotations.
Open Scope nat_scope.

(** Callbacks over a user state, seen as callbacks over the wires. *)
Definition lift_func {S : Type} (f : func S) : func (wires S) :=
  mk_func (f_sig f) (fun args w =>
    let (s, r) := f_call f args (w_user w) in (mk_wires (w_in w) (w_out w) s, r)).

Definition lift_keyring {S : Type} (kr : keyring S) : keyring (wires S) :=
  mk_keyring (kr_e kr) (kr_m kr) (map (fun nf => (fst nf, lift_func (snd nf))) (kr_funcs kr)).

(** A keyring for the examples, over a state which records the calls. *)
Definition log : Type := list (nat * list val).
Definition ex_add : func log :=
  mk_func (mk_sig [TSig 2; TUns 1] (Some (TSig 4)))
    (fun args s => ((0, args) :: s,
       match args with [VInt a; VInt b] => VInt (a + b) | _ => VInt 0 end)).
Definition ex_notify : func log :=
  mk_func (mk_sig [] None) (fun args s => ((1, args) :: s, VInt 0)).
Definition ex_swap : func log :=
  mk_func (mk_sig [TUser 4 [TUns 1; TSig 2]] (Some (TArr (TUns 1) 2)))
    (fun args s => ((2, args) :: s, VList [VInt 7; VInt 9])).
Definition ex_keyring : keyring log :=
  mk_keyring BIG TWOS_COMPLEMENT [(10, ex_add); (20, ex_notify); (30, ex_swap)].
Definition ex_key_add : key := mk_key 1 0 (f_sig ex_add) BIG TWOS_COMPLEMENT.
Definition ex_key_notify : key := mk_key 1 1 (f_sig ex_notify) BIG TWOS_COMPLEMENT.
Definition ex_key_swap : key := mk_key 1 2 (f_sig ex_swap) BIG TWOS_COMPLEMENT.

Lemma ex_keyring_ok : keyring_ok pc_native ex_keyring.
Proof.
  split; [vm_compute; reflexivity|]. unfold ex_keyring. cbn [kr_funcs kr_e kr_m].
  list_cases; split; cbn [snd f_sig sig_params sig_ret ex_add ex_notify ex_swap ret_ty_ok]; tyoks.
Qed.

(** ** C24 *)

Theorem C24_packet : forall (X : Type) p (kr : keyring X) name f k args dest (x : X),
  wf_platform p -> keyring_ok p kr -> In (name, f) (kr_funcs kr) -> kr_get kr name f = Some k ->
  Forall2 (encodable p (kr_m kr)) (sig_params (f_sig f)) args ->
  exists i, nth_error (kr_funcs kr) i = Some (name, f)
    /\ key_write p k args dest x
       = push dest (request (kr_e kr) (kr_m kr) (kr_index_size kr) i (sig_params (f_sig f)) args) x
    /\ length (request (kr_e kr) (kr_m kr) (kr_index_size kr) i (sig_params (f_sig f)) args)
       = kr_index_size kr + wire_sizes (sig_params (f_sig f)).
Proof.
  intros X p kr name f k args dest x Hp [Hl Hsigs] Hin Hk Ha.
  destruct (kr_get_nth X kr name f k Hk Hin) as (Hi & _ & Ek). exists (k_index k). split; auto.
  assert (Hs : sig_ok p (kr_e kr) (kr_m kr) (f_sig f)).
  { rewrite Forall_forall in Hsigs. apply (Hsigs (name, f) Hin). }
  assert (Hlt : k_index k < length (kr_funcs kr)) by (apply nth_error_Some; congruence).
  destruct (index_size X kr Hl) as (_ & Hsp & _). split.
  - unfold key_write. rewrite Ek at 1 2 3 4 6. cbn [k_index_size k_sig k_e k_m].
    rewrite write_tuple_ok; auto.
    + constructor; [apply index_ty_ok; auto|apply Hs].
    + constructor; auto. split; cbn [has_type all_signed]; auto. lia.
  - unfold request. rewrite app_length, wire_bytes_length. f_equal.
    apply enc_list_length. eapply encodable_has; eauto.
Qed.

Example C24_example :
  kr_get ex_keyring 10 ex_add = Some ex_key_add
  /\ Forall2 (encodable pc_native TWOS_COMPLEMENT) (sig_params (f_sig ex_add)) [VInt (-2); VInt 5]
  /\ key_write pc_native ex_key_add [VInt (-2); VInt 5] give_wire (mk_wires [] [] tt)
     = Ok (mk_wires [] [0; 255; 254; 5]%Z tt).
Proof. split; [vm_compute; reflexivity|]. split; [encs|]. vm_compute. reflexivity. Qed.

(** ** C28 *)

Theorem C28_consumes : forall (X : Type) p k src (x : X),
  wf_platform p -> ret_ty_ok p (k_e k) (k_m k) (sig_ret (k_sig k)) ->
  (forall x1 bs, pull src (wire_size_ret (sig_ret (k_sig k))) x = Ok (x1, bs) ->
     Forall is_byte bs
     /\ match sig_ret (k_sig k) with Some t => decodable p (k_e k) (k_m k) t bs | None => True end) ->
  key_read p k src x =
  ('(x1, bs) <- pull src (wire_size_ret (sig_ret (k_sig k))) x;;
   Ok (x1, option_map (fun t => dec (k_e k) (k_m k) t bs) (sig_ret (k_sig k)))).
Proof.
  intros X p k src x Hp Hr H. unfold key_read.
  destruct (sig_ret (k_sig k)) as [t|]; cbn [wire_size_ret option_map ret_ty_ok] in *; [|reflexivity].
  assert (Hok : Forall (ty_ok p (k_e k) (k_m k)) [t]) by auto.
  rewrite read_tuple_ok by auto. replace (wire_sizes [t]) with (wire_size t) by (cbn; lia).
  destruct (pull src (wire_size t) x) as [[x1 bs]|f] eqn:E; cbn [bind]; auto.
  destruct (H x1 bs eq_refl) as [Hb Hd]. apply pull_length in E.
  assert (Hf : firstn (wire_size t) bs = bs) by (apply firstn_all2; lia).
  rewrite (get_decodes p (k_e k) (k_m k) Hp [t] bs 0 t); auto.
  - cbn [bind]. unfold slice, offset_of. cbn [firstn skipn map list_sum fold_right]. rewrite Hf. reflexivity.
  - cbn. lia.
  - cbn [decodable_list]. rewrite Hf. auto.
Qed.

Theorem C28_returns : forall (X : Type) p k src (x x' : X) v,
  wf_platform p -> ret_ty_ok p (k_e k) (k_m k) (sig_ret (k_sig k)) ->
  ret_encodable p (k_m k) (sig_ret (k_sig k)) v ->
  pull src (wire_size_ret (sig_ret (k_sig k))) x = Ok (x', response (k_e k) (k_m k) (sig_ret (k_sig k)) v) ->
  key_read p k src x = Ok (x', option_map (fun _ => v) (sig_ret (k_sig k))).
Proof.
  intros X p k src x x' v Hp Hr He Hpull. rewrite C28_consumes; auto.
  - rewrite Hpull. cbn [bind]. destruct (sig_ret (k_sig k)) as [t|]; cbn [option_map response] in *; auto.
    do 3 f_equal. apply (dec_enc p); auto. apply Hr.
  - intros x1 bs H. rewrite Hpull in H. injection H as <- <-.
    destruct (sig_ret (k_sig k)) as [t|]; cbn [response ret_encodable ret_ty_ok] in *; [|auto].
    split; [apply enc_bytes|]. apply encodable_decodable; auto. apply Hr.
Qed.

Example C28_example :
  key_read pc_native ex_key_add take_wire (mk_wires [255; 255; 255; 251; 77]%Z [] tt)
  = Ok (mk_wires [77]%Z [] tt, Some (VInt (-5)))
  /\ key_read pc_native ex_key_notify take_wire (mk_wires [77]%Z [] tt) = Ok (mk_wires [77]%Z [] tt, None).
Proof. split; vm_compute; reflexivity. Qed.

(** ** C29 *)

Theorem C29_read_call_write : forall (X : Type) p (a : action X) c src dest x,
  wf_platform p -> action_model a = Some c ->
  let f := m_func c in let e := m_e c in let m := m_m c in
  let params := sig_params (f_sig f) in let ret := sig_ret (f_sig f) in
  sig_ok p e m (f_sig f) ->
  (forall x1 bs, pull src (wire_sizes params) x = Ok (x1, bs) ->
     Forall is_byte bs /\ decodable_list p e m params bs
     /\ ret_encodable p m ret (snd (f_call f (dec_list e m params bs) x1))) ->
  run p a src dest x =
  ('(x1, bs) <- pull src (wire_sizes params) x;;
   let (x2, r) := f_call f (dec_list e m params bs) x1 in
   push dest (response e m ret r) x2).
Proof.
  intros X p a c src dest x Hp Hc f e m params ret Hs H.
  rewrite (run_call p X a c) by auto. apply call_ok; auto.
Qed.

(** Reading fails: the callback is not called. *)
Theorem C29_no_input : forall (X : Type) p (a : action X) c src dest x flt,
  wf_platform p -> action_model a = Some c -> sig_ok p (m_e c) (m_m c) (f_sig (m_func c)) ->
  pull src (wire_sizes (sig_params (f_sig (m_func c)))) x = Fault flt ->
  run p a src dest x = Fault flt.
Proof.
  intros X p a c src dest x flt Hp Hc Hs H. rewrite (run_call p X a c) by auto. apply call_pull_fault; auto.
Qed.

(** An empty action does nothing. *)
Theorem C29_empty : forall (X : Type) p src dest (x : X), run p (Storage None) src dest x = Ok x.
Proof. reflexivity. Qed.

Example C29_example :
  let a := make_action WEAK_REFERENCE BIG TWOS_COMPLEMENT (lift_func ex_add) in
  run pc_native a take_wire give_wire (mk_wires [255; 254; 5; 88]%Z [] [])
  = Ok (mk_wires [88]%Z [0; 0; 0; 3]%Z [(0, [VInt (-2); VInt 5])])
  /\ decodable_list pc_native BIG TWOS_COMPLEMENT [TSig 2; TUns 1] [255; 254; 5]%Z.
Proof. split; [vm_compute; reflexivity|]. range. Qed.

(** ** C30 *)

Theorem C30_policies_partial : forall (X : Type) p (kr : keyring X) src dest x,
  dispatch p (make_dispatcher kr ANY) src dest x = dispatch p (make_dispatcher kr WEAK_REFERENCE) src dest x.
Proof.
  intros X p kr src dest x. unfold dispatch.
  change (get_index p (make_dispatcher kr ANY) src x) with (get_index p (make_dispatcher kr WEAK_REFERENCE) src x).
  destruct (get_index p (make_dispatcher kr WEAK_REFERENCE) src x) as [[x1 i]|f]; cbn [bind]; auto.
  change (d_size (make_dispatcher kr ANY)) with (d_size (make_dispatcher kr WEAK_REFERENCE)).
  destruct (i <? d_size (make_dispatcher kr WEAK_REFERENCE)); auto.
  unfold action_at, make_dispatcher. cbn [d_actions]. rewrite !nth_error_map.
  destruct (nth_error (kr_funcs kr) i) as [nf|]; cbn [option_map bind]; [|reflexivity].
  cbn [make_action run]. rewrite call_static. reflexivity.
Qed.

(** The sizes agree exactly when [sizeof] is the encoded size. *)
Theorem C30_sizes_partial : forall (X : Type) p e m (f : func X), sig_ok p e m (f_sig f) ->
  (input_size (make_action ANY e m f) = input_size (make_action WEAK_REFERENCE e m f)
   <-> list_sum (map sizeof (sig_params (f_sig f))) = wire_sizes (sig_params (f_sig f)))
  /\ (output_size (make_action ANY e m f) = output_size (make_action WEAK_REFERENCE e m f)
      <-> match sig_ret (f_sig f) with Some t => sizeof t = wire_size t | None => True end).
Proof.
  intros X p e m f [Hps Hr]. cbn [make_action input_size output_size m_func].
  rewrite tuple_size_wire by (eapply tys_layout; eauto). unfold parameters_size. rewrite sum17_list_sum.
  split; [split; [congruence|intros ->; reflexivity]|].
  unfold return_type_size, flatten_tuple. destruct (sig_ret (f_sig f)) as [t|]; cbn [ret_ty_ok] in Hr.
  - rewrite tuple_size_wire by (constructor; auto; apply Hr). unfold wire_sizes. cbn [map list_sum fold_right].
    rewrite Nat.add_0_r. split; [congruence|intros ->; reflexivity].
  - split; auto.
Qed.

(** What each of them is: with storage, the encoded sizes; without, [sizeof]. *)
Theorem C30_announced : forall (X : Type) p e m (f : func X), sig_ok p e m (f_sig f) ->
  input_size (make_action ANY e m f) = Ok (wire_sizes (sig_params (f_sig f)))
  /\ input_size (make_action WEAK_REFERENCE e m f) = Ok (list_sum (map sizeof (sig_params (f_sig f))))
  /\ output_size (make_action ANY e m f) = Ok match sig_ret (f_sig f) with Some t => wire_size t | None => 0 end
  /\ output_size (make_action WEAK_REFERENCE e m f) = Ok match sig_ret (f_sig f) with Some t => sizeof t | None => 0 end.
Proof.
  intros X p e m f [Hps Hr]. cbn [make_action input_size output_size m_func].
  rewrite tuple_size_wire by (eapply tys_layout; eauto). unfold parameters_size. rewrite sum17_list_sum.
  split; [reflexivity|]. split; [reflexivity|].
  unfold return_type_size, flatten_tuple. destruct (sig_ret (f_sig f)) as [t|]; cbn [ret_ty_ok] in Hr.
  - rewrite tuple_size_wire by (constructor; auto; apply Hr). unfold wire_sizes. cbn [map list_sum fold_right].
    rewrite Nat.add_0_r. split; reflexivity.
  - split; reflexivity.
Qed.

(** 3 bytes are announced by one policy, 4 by the other. *)
Theorem C30_sizes_refuted : exists p e m (f : func log), wf_platform p /\ sig_ok p e m (f_sig f)
  /\ input_size (make_action ANY e m f) = Ok 3 /\ input_size (make_action WEAK_REFERENCE e m f) = Ok 4.
Proof.
  exists pc_native, BIG, TWOS_COMPLEMENT, ex_swap. split; [apply pc_native_wf|].
  split; [split; cbn [ex_swap f_sig sig_params sig_ret ret_ty_ok]; tyoks|]. split; reflexivity.
Qed.

Example C30_example :
  list_sum (map sizeof (sig_params (f_sig ex_add))) = wire_sizes (sig_params (f_sig ex_add))
  /\ dispatch pc_native (make_dispatcher (lift_keyring ex_keyring) ANY) take_wire give_wire
       (mk_wires [1; 2; 3]%Z [] [])
     = Ok (mk_wires [2; 3]%Z [] [(1, [])], 1).
Proof. split; [reflexivity|]. vm_compute. reflexivity. Qed.

(** ** C31 *)

Lemma lift_sig : forall (S : Type) (f : func S), f_sig (lift_func f) = f_sig f.
Proof. reflexivity. Qed.

Lemma lift_funcs_length : forall (S : Type) (kr : keyring S),
  length (kr_funcs (lift_keyring kr)) = length (kr_funcs kr).
Proof. intros. cbn. apply map_length. Qed.

(** The caller [p] and the callee [q] may be different machines, with different
    storage policies; [s] is the state of the callee, [rest] and [rest'] are
    the bytes which follow the request and the response. *)
Theorem C31_remote_call : forall (S : Type) p q (kr : keyring S) ft name f k args s rest rest',
  wf_platform p -> wf_platform q -> keyring_ok p (lift_keyring kr) -> keyring_ok q (lift_keyring kr) ->
  In (name, f) (kr_funcs kr) -> kr_get (lift_keyring kr) name (lift_func f) = Some k ->
  Forall2 (encodable p (kr_m kr)) (sig_params (f_sig f)) args ->
  Forall2 (encodable q (kr_m kr)) (sig_params (f_sig f)) args ->
  let (s', r) := f_call f args s in
  ret_encodable p (kr_m kr) (sig_ret (f_sig f)) r -> ret_encodable q (kr_m kr) (sig_ret (f_sig f)) r ->
  exists i packet resp,
    nth_error (kr_funcs kr) i = Some (name, f)
    (* the request *)
    /\ key_write p k args give_wire (mk_wires [] [] tt) = Ok (mk_wires [] packet tt)
    (* its processing: the callback ran once, on [args] *)
    /\ dispatch q (make_dispatcher (lift_keyring kr) ft) take_wire give_wire (mk_wires (packet ++ rest) [] s)
       = Ok (mk_wires rest resp s', i)
    (* the reading of the response *)
    /\ key_read p k take_wire (mk_wires (resp ++ rest') [] tt)
       = Ok (mk_wires rest' [] tt, option_map (fun _ => r) (sig_ret (f_sig f))).
Proof.
  intros S p q kr ft name f k args s rest rest' Hp Hq Hkp Hkq Hin Hk Hap Haq.
  destruct (f_call f args s) as [s' r] eqn:Ef. intros Hrp Hrq.
  assert (Hin' : In (name, lift_func f) (kr_funcs (lift_keyring kr))).
  { cbn [lift_keyring kr_funcs]. apply (in_map (fun nf => (fst nf, lift_func (snd nf))) _ _ Hin). }
  destruct (C24_packet (wires unit) p
              (mk_keyring (kr_e kr) (kr_m kr)
                 (map (fun nf => (fst nf, mk_func (f_sig (snd nf)) (fun _ w => (w, VInt 0)))) (kr_funcs kr)))
              name (mk_func (f_sig f) (fun _ w => (w, VInt 0))) k args give_wire (mk_wires [] [] tt) Hp)
    as (i & Hi & Hw & _).
  { destruct Hkp as [L F]. split; [cbn in *; rewrite map_length in *; auto|].
    cbn [lift_keyring kr_funcs kr_e kr_m] in *. rewrite Forall_map in *. exact F. }
  { cbn [kr_funcs]. apply (in_map (fun nf => (fst nf, mk_func (f_sig (snd nf)) (fun _ w => (w, VInt 0)))) _ _ Hin). }
  { rewrite <- Hk. unfold kr_get, kr_index_size, lift_keyring. cbn [kr_funcs kr_e kr_m].
    rewrite !map_length, !map_map. reflexivity. }
  { cbn [kr_m f_sig]. auto. }
  cbn [kr_funcs kr_e kr_m f_sig] in Hi, Hw. rewrite nth_error_map in Hi.
  destruct (nth_error (kr_funcs kr) i) as [[n g]|] eqn:Hi0; [|discriminate]. cbn [option_map fst snd] in Hi.
  assert (Hn : n = name) by congruence. subst n.
  destruct (kr_get_nth _ _ _ _ _ Hk Hin') as (Hik & Hu & Ek).
  assert (Hii : i = k_index k).
  { apply (Hu i (lift_func g)). cbn [lift_keyring kr_funcs]. rewrite nth_error_map, Hi0. reflexivity. }
  assert (Hg : g = f).
  { pose proof Hin as Hin2. apply In_nth_error in Hin2. destruct Hin2 as [j Hj].
    assert (j = k_index k).
    { apply (Hu j (lift_func f)). cbn [lift_keyring kr_funcs]. rewrite nth_error_map, Hj. reflexivity. }
    assert (j = i) by congruence. subst j. congruence. }
  subst g. clear Hi.
  set (w := kr_index_size (lift_keyring kr)) in *.
  assert (Ew : forall (Y : Type) (l : list (nat * func Y)), length l = length (kr_funcs kr) ->
             kr_index_size (mk_keyring (kr_e kr) (kr_m kr) l) = w).
  { intros Y l Hl. unfold w, kr_index_size. cbn [kr_funcs lift_keyring]. rewrite map_length, Hl. reflexivity. }
  rewrite Ew in Hw by apply map_length.
  set (req := request (kr_e kr) (kr_m kr) w i (sig_params (f_sig f)) args) in *.
  set (resp := response (kr_e kr) (kr_m kr) (sig_ret (f_sig f)) r).
  exists i, req, resp. split; auto. split.
  { rewrite Hw. apply give_wires. }
  destruct Hkq as [Lq Fq].
  assert (Hsq : sig_ok q (kr_e kr) (kr_m kr) (f_sig f)).
  { rewrite Forall_forall in Fq. apply (Fq _ Hin'). }
  assert (Hlt : i < length (kr_funcs (lift_keyring kr))).
  { rewrite lift_funcs_length. apply nth_error_Some. congruence. }
  destruct (index_size _ _ Lq) as (_ & _ & Hsize).
  split.
  - unfold dispatch. rewrite get_index_ok; auto.
    2:{ cbn [make_dispatcher d_keyring]. fold w. intros x1 bs H.
        assert (E : pull take_wire w (mk_wires (req ++ rest) [] s)
                    = Ok (mk_wires (enc_list (kr_e kr) (kr_m kr) (sig_params (f_sig f)) args ++ rest) [] s,
                          wire_bytes (kr_e kr) w (Z.of_nat i))).
        { unfold req, request. rewrite <- app_assoc.
          rewrite <- (wire_bytes_length (kr_e kr) w (Z.of_nat i)) at 1. apply take_wires. }
        rewrite E in H. injection H as <- <-. apply wire_bytes_bytes. }
    cbn [make_dispatcher d_keyring]. fold w.
    assert (E : pull take_wire w (mk_wires (req ++ rest) [] s)
                = Ok (mk_wires (enc_list (kr_e kr) (kr_m kr) (sig_params (f_sig f)) args ++ rest) [] s,
                      wire_bytes (kr_e kr) w (Z.of_nat i))).
    { unfold req, request. rewrite <- app_assoc.
      rewrite <- (wire_bytes_length (kr_e kr) w (Z.of_nat i)) at 1. apply take_wires. }
    rewrite E. cbn [bind]. change (kr_e (lift_keyring kr)) with (kr_e kr).
    unfold w. rewrite wire_index by auto. unfold d_size. cbn [make_dispatcher d_keyring]. rewrite Hsize.
    destruct (Nat.ltb_spec i (length (kr_funcs (lift_keyring kr)))); [|lia].
    unfold action_at. cbn [make_dispatcher d_actions]. rewrite nth_error_map.
    assert (Hni : nth_error (kr_funcs (lift_keyring kr)) i = Some (name, lift_func f)) by congruence.
    rewrite Hni. cbn [option_map bind snd].
    set (ts := sig_params (f_sig f)) in *.
    assert (Hel : length (enc_list (kr_e kr) (kr_m kr) ts args) = wire_sizes ts).
    { apply enc_list_length. eapply encodable_has; eauto. }
    assert (Epull : pull take_wire (wire_sizes ts)
                      (mk_wires (enc_list (kr_e kr) (kr_m kr) ts args ++ rest) [] s)
                    = Ok (mk_wires rest [] s, enc_list (kr_e kr) (kr_m kr) ts args)).
    { rewrite <- Hel. apply take_wires. }
    assert (Hwf : Forall wf_ty ts) by (eapply tys_wf; apply Hsq).
    assert (Edec : dec_list (kr_e kr) (kr_m kr) ts (enc_list (kr_e kr) (kr_m kr) ts args) = args).
    { apply (dec_list_enc_list q); auto. }
    rewrite (C29_read_call_write _ q _ (mk_model (kr_e kr) (kr_m kr) (lift_func f))); auto.
    + cbn [m_e m_m m_func]. rewrite lift_sig. fold ts. rewrite Epull. cbn [bind]. rewrite Edec.
      cbn [lift_func f_call w_user w_in w_out]. rewrite Ef. fold resp.
      rewrite give_wires. reflexivity.
    + destruct ft; reflexivity.
    + cbn [m_e m_m m_func]. rewrite lift_sig. fold ts. intros x1 bs H1. rewrite Epull in H1.
      injection H1 as <- <-. split; [apply enc_list_bytes|].
      split; [apply encodable_decodable_list; auto|].
      rewrite Edec. cbn [lift_func f_call w_user w_in w_out]. rewrite Ef. auto.
  - destruct Hkp as [Lp Fp].
    assert (Hsp : sig_ok p (kr_e kr) (kr_m kr) (f_sig f)).
    { rewrite Forall_forall in Fp. apply (Fp _ Hin'). }
    assert (Eks : k_sig k = f_sig f) by (rewrite Ek; reflexivity).
    assert (Eke : k_e k = kr_e kr) by (rewrite Ek; reflexivity).
    assert (Ekm : k_m k = kr_m kr) by (rewrite Ek; reflexivity).
    rewrite <- Eks.
    apply C28_returns; rewrite ?Eks, ?Eke, ?Ekm; auto; [apply Hsp|].
    fold resp.
    assert (Hrl : length resp = wire_size_ret (sig_ret (f_sig f))).
    { unfold resp, response, wire_size_ret, ret_encodable in *. destruct (sig_ret (f_sig f)); auto.
      apply enc_length. apply Hrp. }
    rewrite <- Hrl. apply take_wires.
Qed.

Example C31_example :
  keyring_ok pc_native (lift_keyring ex_keyring)
  /\ keyring_ok avr_portable (lift_keyring ex_keyring)
  /\ kr_get (lift_keyring ex_keyring) 10 (lift_func ex_add) = Some ex_key_add
  /\ Forall2 (encodable avr_portable TWOS_COMPLEMENT) (sig_params (f_sig ex_add)) [VInt (-2); VInt 5]
  /\ f_call ex_add [VInt (-2); VInt 5] [] = ([(0, [VInt (-2); VInt 5])], VInt 3)
  /\ ret_encodable avr_portable TWOS_COMPLEMENT (sig_ret (f_sig ex_add)) (VInt 3).
Proof.
  split; [|split; [|split; [|split; [|split]]]].
  - destruct ex_keyring_ok as [H1 H2]. split; [vm_compute; reflexivity|].
    unfold lift_keyring. cbn [kr_funcs kr_e kr_m]. rewrite Forall_map. exact H2.
  - split; [vm_compute; reflexivity|]. cbn [lift_keyring ex_keyring kr_funcs kr_e kr_m map fst snd].
    list_cases; split; cbn [snd f_sig sig_params sig_ret lift_func ex_add ex_notify ex_swap ret_ty_ok]; tyoks.
  - vm_compute. reflexivity.
  - encs.
  - reflexivity.
  - split; range.
Qed.

(** ** C32 *)

Theorem C32_invalid_index : forall (X : Type) p (d : dispatcher X) src dest x x1 bs,
  wf_platform p -> (Z.of_nat (length (kr_funcs (d_keyring d))) < 2 ^ 64)%Z ->
  pull src (kr_index_size (d_keyring d)) x = Ok (x1, bs) -> Forall is_byte bs ->
  let i := wire_value (kr_e (d_keyring d)) bs in
  (Z.of_nat (length (kr_funcs (d_keyring d))) <= i)%Z ->
  dispatch p d src dest x = Ok (x1, Z.to_nat i) /\ get_action p d src x = Ok (x1, None).
Proof.
  intros X p d src dest x x1 bs Hp Hl Hpull Hb i Hi.
  destruct (index_size X (d_keyring d) Hl) as (_ & _ & Hs).
  unfold dispatch, get_action. rewrite get_index_ok; auto.
  2:{ intros x2 l H. rewrite Hpull in H. injection H as _ <-. auto. }
  rewrite Hpull. cbn [bind]. fold i. unfold d_size. rewrite Hs.
  destruct (Nat.ltb_spec (Z.to_nat i) (length (kr_funcs (d_keyring d)))); [lia|]. auto.
Qed.

(** A valid one designates the action. *)
Theorem C32_valid_index : forall (X : Type) p (d : dispatcher X) src x x1 bs,
  wf_platform p -> (Z.of_nat (length (kr_funcs (d_keyring d))) < 2 ^ 64)%Z ->
  pull src (kr_index_size (d_keyring d)) x = Ok (x1, bs) -> Forall is_byte bs ->
  let i := wire_value (kr_e (d_keyring d)) bs in
  (i < Z.of_nat (length (kr_funcs (d_keyring d))))%Z ->
  get_action p d src x = Ok (x1, Some (Z.to_nat i)).
Proof.
  intros X p d src x x1 bs Hp Hl Hpull Hb i Hi.
  destruct (index_size X (d_keyring d) Hl) as (_ & _ & Hs).
  assert (Hi0 : (0 <= i)%Z) by (unfold i; pose proof (wire_value_bounds (kr_e (d_keyring d)) bs Hb); lia).
  unfold get_action. rewrite get_index_ok; auto.
  2:{ intros x2 l H. rewrite Hpull in H. injection H as _ <-. auto. }
  rewrite Hpull. cbn [bind]. fold i. unfold d_size. rewrite Hs.
  destruct (Nat.ltb_spec (Z.to_nat i) (length (kr_funcs (d_keyring d)))); [auto|lia].
Qed.

Example C32_example :
  dispatch pc_native (make_dispatcher (lift_keyring ex_keyring) ANY) take_wire give_wire
    (mk_wires [3; 1; 2]%Z [] []) = Ok (mk_wires [1; 2]%Z [] [], 3)
  /\ get_action pc_native (make_dispatcher (lift_keyring ex_keyring) ANY) take_wire (mk_wires [3; 1; 2]%Z [] [])
     = Ok (mk_wires [1; 2]%Z [] [], None).
Proof. split; vm_compute; reflexivity. Qed.

(** ** C33 *)

(** What compiles. *)
Theorem C33_compiles : forall (X : Type) (d : dispatcher X) i r,
  (Z.of_nat (length (kr_funcs (d_keyring d))) < 2 ^ 64)%Z -> conform d ->
  ((exists d', replace d i r = Some (Ok d'))
   <-> (exists nf, nth_error (kr_funcs (d_keyring d)) i = Some nf /\ f_sig (snd nf) = f_sig (replacing r))
       /\ match r with ByFunctor _ => d_features d = ANY | ByUnevaluated _ => True end).
Proof.
  intros X d i r Hl Hc. destruct (index_size X (d_keyring d) Hl) as (_ & _ & Hs). split.
  - intros [d' H]. destruct (replace_inv X d i r d' Hc H) as (Hi & Hsig & _). split.
    + unfold kr_signatures in Hsig. rewrite nth_error_map in Hsig.
      destruct (nth_error (kr_funcs (d_keyring d)) i) as [nf|]; [|discriminate]. exists nf. split; auto.
      cbn [option_map] in Hsig. congruence.
    + destruct r; auto. unfold replace in H. destruct (at17 _ i); [|discriminate].
      destruct ((i <? d_size d) && _); [|discriminate]. destruct (d_features d); [auto|discriminate].
  - intros [(nf & Hn & Hsig) Hf].
    assert (Hi : i < length (kr_funcs (d_keyring d))) by (apply nth_error_Some; congruence).
    unfold replace. rewrite at17_nth_error. unfold kr_signatures. rewrite nth_error_map, Hn.
    cbn [option_map]. unfold d_size. rewrite Hs, Hsig.
    fold (replacing r). rewrite sig_eqb_refl.
    destruct (Nat.ltb_spec i (length (kr_funcs (d_keyring d)))); [|lia]. cbn [andb].
    unfold assign_action. rewrite (conform_length X d Hc).
    destruct (Nat.ltb_spec i (length (kr_funcs (d_keyring d)))); [|lia].
    destruct r; [eexists; reflexivity|]. rewrite Hf. eexists. reflexivity.
Qed.

Theorem C33_replace : forall (X : Type) p (d : dispatcher X) i r d',
  (Z.of_nat (length (kr_funcs (d_keyring d))) < 2 ^ 64)%Z -> conform d -> replace d i r = Some (Ok d') ->
  (* indices are read the same way *)
  (forall src x, get_index p d' src x = get_index p d src x)
  (* index [i] runs the new callback *)
  /\ (forall src dest x x1, get_index p d src x = Ok (x1, i) ->
        dispatch p d' src dest x
        = (x2 <- call p (kr_e (d_keyring d)) (kr_m (d_keyring d)) (replacing r) src dest x1;; Ok (x2, i)))
  (* the other ones do what they did *)
  /\ (forall src dest x, (forall x1, get_index p d src x <> Ok (x1, i)) ->
        dispatch p d' src dest x = dispatch p d src dest x)
  (* sizes do not change *)
  /\ (forall j, (a <- action_at d' j;; input_size a) = (a <- action_at d j;; input_size a)
             /\ (a <- action_at d' j;; output_size a) = (a <- action_at d j;; output_size a))
  (* and another replacement may follow *)
  /\ conform d'.
Proof.
  intros X p d i r d' Hl Hc H. destruct (index_size X (d_keyring d) Hl) as (_ & _ & Hs).
  destruct (replace_conform X d i r d' Hc H) as (Hc' & _).
  destruct (replace_inv X d i r d' Hc H) as (Hi & Hsig & Hd').
  assert (Hla : i < length (d_actions d)) by (rewrite (conform_length X d Hc); auto).
  split; [subst; reflexivity|]. split; [|split; [|split; [|auto]]].
  - intros src dest x x1 Hgi. unfold dispatch.
    assert (E : get_index p d' src x = Ok (x1, i)) by (rewrite <- Hgi; subst; reflexivity).
    rewrite E. cbn [bind]. replace (d_size d') with (d_size d) by (subst; reflexivity).
    unfold d_size. rewrite Hs. destruct (Nat.ltb_spec i (length (kr_funcs (d_keyring d)))); [|lia].
    unfold action_at. subst d'. cbn [d_actions]. rewrite set_nth_same by auto. cbn [bind].
    destruct (d_features d); cbn [make_action run m_e m_m m_func]; rewrite ?call_static; reflexivity.
  - intros src dest x Hgi. unfold dispatch.
    assert (E : get_index p d' src x = get_index p d src x) by (subst; reflexivity). rewrite E.
    destruct (get_index p d src x) as [[x1 j]|]; cbn [bind]; auto.
    assert (Hne : i <> j) by (intros ->; apply (Hgi x1); reflexivity).
    replace (d_size d') with (d_size d) by (subst; reflexivity).
    destruct (j <? d_size d); auto. unfold action_at. subst d'. cbn [d_actions].
    rewrite set_nth_other by auto. reflexivity.
  - intros j. unfold action_at. subst d'. cbn [d_actions]. destruct (Nat.eq_dec i j) as [->|Hne].
    + rewrite set_nth_same by auto.
      destruct (conform_nth X d j Hc Hi) as (nf & f & Hnf & Hf & Ha). rewrite Ha. cbn [bind].
      assert (Es : f_sig (replacing r) = f_sig f).
      { unfold kr_signatures in Hsig. rewrite nth_error_map, Hnf in Hsig. cbn [option_map] in Hsig. congruence. }
      destruct (d_features d); cbn [make_action input_size output_size m_func]; rewrite Es; auto.
    + rewrite set_nth_other by auto. auto.
Qed.

(** A client program: a sequence of replacements. *)
Fixpoint replace_all {X : Type} (d : dispatcher X) (ops : list (nat * replacement X)) : option (res (dispatcher X)) :=
  match ops with
  | [] => Some (Ok d)
  | (i, r) :: ops' =>
      match replace d i r with
      | Some (Ok d') => replace_all d' ops'
      | o => o
      end
  end.

(** The callback behind an index after a sequence of replacements. *)
Fixpoint current {X : Type} (i : nat) (f : func X) (ops : list (nat * replacement X)) : func X :=
  match ops with
  | [] => f
  | (j, r) :: ops' => current i (if j =? i then replacing r else f) ops'
  end.

Theorem C33_histories : forall (X : Type) p (kr : keyring X) ft ops d,
  (Z.of_nat (length (kr_funcs kr)) < 2 ^ 64)%Z ->
  replace_all (make_dispatcher kr ft) ops = Some (Ok d) ->
  forall src dest x x1 i name f, get_index p (make_dispatcher kr ft) src x = Ok (x1, i) ->
    nth_error (kr_funcs kr) i = Some (name, f) ->
    dispatch p d src dest x = (x2 <- call p (kr_e kr) (kr_m kr) (current i f ops) src dest x1;; Ok (x2, i)).
Proof.
  intros X p kr ft ops d Hl H src dest x x1 i name f Hgi Hn.
  assert (Hi : i < length (kr_funcs kr)) by (apply nth_error_Some; congruence).
  (* generalise the starting dispatcher *)
  assert (G : forall d0 f0, conform d0 -> d_keyring d0 = kr ->
            nth_error (d_actions d0) i = Some (make_action (d_features d0) (kr_e kr) (kr_m kr) f0) ->
            get_index p d0 src x = Ok (x1, i) -> replace_all d0 ops = Some (Ok d) ->
            dispatch p d src dest x
            = (x2 <- call p (kr_e kr) (kr_m kr) (current i f0 ops) src dest x1;; Ok (x2, i))).
  { clear H Hgi Hn. induction ops as [|[j r] ops IH]; intros d0 f0 Hc Hkr Ha Hgi H; cbn [replace_all current] in *.
    - assert (d0 = d) by congruence. subst d0. unfold dispatch. rewrite Hgi. cbn [bind].
      destruct (index_size X (d_keyring d)) as (_ & _ & Hs); [congruence|].
      unfold d_size. rewrite Hs, Hkr. destruct (Nat.ltb_spec i (length (kr_funcs kr))); [|lia].
      unfold action_at. rewrite Ha. cbn [bind].
      destruct (d_features d); cbn [make_action run m_e m_m m_func]; rewrite ?call_static; reflexivity.
    - destruct (replace d0 j r) as [[d1|]|] eqn:E; try discriminate.
      destruct (replace_conform X d0 j r d1 Hc E) as (Hc1 & Hk1 & Hf1).
      destruct (replace_inv X d0 j r d1 Hc E) as (Hj & Hsig & Hd1).
      apply (IH d1); auto.
      + congruence.
      + rewrite Hf1. rewrite Hd1. cbn [d_actions]. rewrite Hkr. destruct (Nat.eqb_spec j i) as [->|Hne].
        * apply set_nth_same. rewrite (conform_length X d0 Hc), Hkr. auto.
        * rewrite set_nth_other by auto. auto.
      + rewrite <- Hgi. rewrite Hd1. reflexivity. }
  apply (G (make_dispatcher kr ft) f); auto.
  - apply make_dispatcher_conform.
  - cbn [make_dispatcher d_actions d_features]. rewrite nth_error_map, Hn. reflexivity.
Qed.

Definition ex_sub : func log :=
  mk_func (mk_sig [TSig 2; TUns 1] (Some (TSig 4)))
    (fun args s => ((3, args) :: s,
       match args with [VInt a; VInt b] => VInt (a - b) | _ => VInt 0 end)).

Example C33_example :
  let d := make_dispatcher (lift_keyring ex_keyring) WEAK_REFERENCE in
  conform d
  /\ exists d', replace d 0 (ByUnevaluated (lift_func ex_sub)) = Some (Ok d')
     /\ dispatch pc_native d' take_wire give_wire (mk_wires [0; 255; 254; 5]%Z [] [])
        = Ok (mk_wires [] [255; 255; 255; 249]%Z [(3, [VInt (-2); VInt 5])], 0)
     /\ replace d 1 (ByUnevaluated (lift_func ex_sub)) = None.
Proof.
  cbn zeta. split; [apply make_dispatcher_conform|]. eexists. split; [reflexivity|].
  split; vm_compute; reflexivity.
Qed.

(** ** C34 *)

Theorem C34_hook : forall (X : Type) p ft k (f : func X) src dest x x1 v,
  wf_platform p -> sig_ok p (k_e k) (k_m k) (f_sig f) ->
  (* the hook takes what the callback returns *)
  sig_params (f_sig f) = match sig_ret (k_sig k) with Some t => [t] | None => [] end ->
  ret_encodable p (k_m k) (sig_ret (k_sig k)) v ->
  pull src (wire_size_ret (sig_ret (k_sig k))) x = Ok (x1, response (k_e k) (k_m k) (sig_ret (k_sig k)) v) ->
  let args := match sig_ret (k_sig k) with Some _ => [v] | None => [] end in
  let (x2, r) := f_call f args x1 in
  ret_encodable p (k_m k) (sig_ret (f_sig f)) r ->
  run p (with_hook ft k f) src dest x = push dest (response (k_e k) (k_m k) (sig_ret (f_sig f)) r) x2.
Proof.
  intros X p ft k f src dest x x1 v Hp Hs Hpar Hv Hpull args. destruct (f_call f args x1) as [x2 r] eqn:Ef.
  intros Hr.
  assert (Em : action_model (with_hook ft k f) = Some (mk_model (k_e k) (k_m k) f)) by (destruct ft; reflexivity).
  assert (Ews : wire_sizes (sig_params (f_sig f)) = wire_size_ret (sig_ret (k_sig k))).
  { rewrite Hpar. destruct (sig_ret (k_sig k)); cbn; lia. }
  assert (Hok : Forall (ty_ok p (k_e k) (k_m k)) (sig_params (f_sig f))) by apply Hs.
  assert (Hdec : dec_list (k_e k) (k_m k) (sig_params (f_sig f)) (response (k_e k) (k_m k) (sig_ret (k_sig k)) v) = args
                 /\ Forall is_byte (response (k_e k) (k_m k) (sig_ret (k_sig k)) v)
                 /\ decodable_list p (k_e k) (k_m k) (sig_params (f_sig f))
                      (response (k_e k) (k_m k) (sig_ret (k_sig k)) v)).
  { unfold args. rewrite Hpar in *. destruct (sig_ret (k_sig k)) as [t|]; cbn [response ret_encodable] in *.
    - assert (Ht : ty_ok p (k_e k) (k_m k) t) by (inversion Hok; auto).
      assert (E : enc (k_e k) (k_m k) t v = enc_list (k_e k) (k_m k) [t] [v]) by (cbn; rewrite app_nil_r; auto).
      rewrite E. split; [|split].
      + apply (dec_list_enc_list p); auto. constructor; auto. apply Ht.
      + apply enc_list_bytes.
      + apply encodable_decodable_list; auto. constructor; auto. apply Ht.
    - cbn. auto. }
  destruct Hdec as (Hdec & Hbytes & Hdecodable).
  rewrite (C29_read_call_write X p _ _ src dest x Hp Em); cbn [m_func m_e m_m]; auto.
  - rewrite Ews, Hpull. cbn [bind]. rewrite Hdec, Ef. reflexivity.
  - rewrite Ews. intros y bs H. rewrite Hpull in H. injection H as <- <-. rewrite Hdec, Ef. auto.
Qed.

(** The overload which discards the result. *)
Theorem C34_input_only : forall (X : Type) p k (f : func X) src x,
  run_input_only p (with_hook ANY k f) src x = run p (with_hook ANY k f) src (fun _ y => Ok y) x.
Proof. reflexivity. Qed.

Example C34_example :
  let hook := mk_func (mk_sig [TSig 4] None) (fun args (w : wires log) => (mk_wires (w_in w) (w_out w) [(9, args)], VInt 0)) in
  run pc_native (with_hook ANY ex_key_add hook) take_wire give_wire (mk_wires [255; 255; 255; 251]%Z [] [])
  = Ok (mk_wires [] [] [(9, [VInt (-5)])]).
Proof. vm_compute. reflexivity. Qed.

(** ** C53 *)

Theorem C53_sizes_partial : forall (X : Type) p k e m (f : func X) args,
  wf_platform p -> f_sig f = k_sig k -> sig_ok p e m (k_sig k) ->
  Forall2 has_type (sig_params (k_sig k)) args ->
  let produced := length (request e m (k_index_size k) (k_index k) (sig_params (k_sig k)) args) in
  let consumed := wire_sizes (sig_params (k_sig k)) in
  let agree := list_sum (map sizeof (sig_params (k_sig k))) = wire_sizes (sig_params (k_sig k)) in
  (* the size announced by [action] is always the right one *)
  input_size (make_action ANY e m f) = Ok consumed
  (* the others are right iff [sizeof] is the encoded size *)
  /\ (payload_length k = produced <-> agree)
  /\ (input_size (make_action WEAK_REFERENCE e m f) = Ok consumed <-> agree).
Proof.
  intros X p k e m f args Hp Hf [Hs _] Ha produced consumed agree.
  cbn [make_action input_size m_func]. rewrite Hf.
  rewrite tuple_size_wire by (eapply tys_layout; eauto). split; auto.
  unfold payload_length, parameters_size. rewrite sum17_list_sum.
  assert (Hl : produced = k_index_size k + wire_sizes (sig_params (k_sig k))).
  { unfold produced, request. rewrite app_length, wire_bytes_length. f_equal. apply enc_list_length. auto. }
  split; [unfold agree; lia|]. unfold agree, consumed. split; [congruence|intros ->; reflexivity].
Qed.

(** Integers and arrays of integers satisfy the condition. *)
Theorem C53_integers_partial : forall ts, Forall (fun t => wf_ty t /\ integers_only t) ts ->
  list_sum (map sizeof ts) = wire_sizes ts.
Proof.
  intros ts H. unfold wire_sizes. f_equal. induction H; cbn [map]; auto. f_equal; auto.
  destruct H. apply C10_integer_arrays; auto.
Qed.

Theorem C53_refuted : exists (k : key) (f : func log) args, exists packet,
  f_sig f = k_sig k
  /\ key_write pc_native k args give_wire (mk_wires [] [] tt) = Ok (mk_wires [] packet tt)
  /\ length packet = 4 /\ payload_length k = 5
  /\ input_size (make_action WEAK_REFERENCE BIG TWOS_COMPLEMENT f) = Ok 4
  /\ input_size (make_action ANY BIG TWOS_COMPLEMENT f) = Ok 3.
Proof.
  exists ex_key_swap, ex_swap, [VList [VInt 1; VInt (-1)]]. eexists. split; [reflexivity|].
  split; [vm_compute; reflexivity|]. repeat split; reflexivity.
Qed.

Example C53_example :
  list_sum (map sizeof (sig_params (k_sig ex_key_add))) = wire_sizes (sig_params (k_sig ex_key_add))
  /\ payload_length ex_key_add = 4
  /\ Forall (fun t => wf_ty t /\ integers_only t) (sig_params (k_sig ex_key_add)).
Proof. repeat split; repeat constructor; cbn; lia. Qed.

(** ** C47, plain dispatchers *)

Definition lift_in_place {S : Type} (f : func S) : func (in_place S) :=
  mk_func (f_sig f) (fun args w =>
    let (s, r) := f_call f args (ip_world w) in (mk_in_place (ip_mem w) (ip_in w) (ip_out w) s, r)).

Definition lift_keyring_in_place {S : Type} (kr : keyring S) : keyring (in_place S) :=
  mk_keyring (kr_e kr) (kr_m kr) (map (fun nf => (fst nf, lift_in_place (snd nf))) (kr_funcs kr)).

Lemma pull_in_place : forall (S : Type) n mem i o (s : S), i + n <= length mem ->
  pull in_place_source n (mk_in_place mem i o s) = Ok (mk_in_place mem (i + n) o s, slice mem i n).
Proof.
  intros S. induction n as [|n IH]; intros mem i o s H; cbn [pull].
  - rewrite Nat.add_0_r. reflexivity.
  - unfold in_place_source at 1, iterator_source. cbn [ip_mem ip_in ip_out ip_world].
    destruct (nth_error mem i) as [b|] eqn:E.
    2:{ apply nth_error_None in E. lia. }
    unfold load. rewrite E. cbn [bind]. rewrite IH by lia. cbn [bind]. do 2 f_equal.
    + f_equal. lia.
    + unfold slice. rewrite (skipn_nth_cons _ mem i b E). reflexivity.
Qed.

Lemma push_in_place : forall (S : Type) bs mem i o (s : S), o + length bs <= length mem ->
  push in_place_destination bs (mk_in_place mem i o s)
  = Ok (mk_in_place (splice mem o bs) i (o + length bs) s).
Proof.
  intros S. induction bs as [|b bs IH]; intros mem i o s H; cbn [push length] in *.
  - rewrite splice_nil, Nat.add_0_r. reflexivity.
  - unfold in_place_destination at 1, iterator_destination. cbn [ip_mem ip_in ip_out ip_world].
    rewrite store_ok by lia. cbn [bind]. rewrite IH by (rewrite splice_length; cbn; lia).
    do 2 f_equal; [|lia]. change (b :: bs) with ([b] ++ bs).
    rewrite <- (splice_splice_app mem o [b] bs) by (cbn; lia). f_equal. cbn. lia.
Qed.

(** The request is at [i] and the response goes to [o] of the same memory,
    wherever they are: the result is the response of the callback applied to
    the arguments of the request, as with [mk_wires] (C31). *)
Theorem C47_dispatcher_in_place : forall (S : Type) p (kr : keyring S) ft idx name f args mem i o s,
  wf_platform p -> keyring_ok p (lift_keyring_in_place kr) ->
  nth_error (kr_funcs kr) idx = Some (name, f) ->
  Forall2 (encodable p (kr_m kr)) (sig_params (f_sig f)) args ->
  let req := request (kr_e kr) (kr_m kr) (kr_index_size (lift_keyring_in_place kr)) idx (sig_params (f_sig f)) args in
  slice mem i (length req) = req -> i + length req <= length mem ->
  let (s', r) := f_call f args s in
  ret_encodable p (kr_m kr) (sig_ret (f_sig f)) r ->
  let resp := response (kr_e kr) (kr_m kr) (sig_ret (f_sig f)) r in
  o + length resp <= length mem ->
  dispatch p (make_dispatcher (lift_keyring_in_place kr) ft) in_place_source in_place_destination
    (mk_in_place mem i o s)
  = Ok (mk_in_place (splice mem o resp) (i + length req) (o + length resp) s', idx).
Proof.
  intros S p kr ft idx name f args mem i o s Hp [Hl Hsigs] Hn Ha req Hreq Hi.
  destruct (f_call f args s) as [s' r] eqn:Ef. intros Hr resp Ho.
  set (kr' := lift_keyring_in_place kr) in *. set (w := kr_index_size kr') in *.
  set (ts := sig_params (f_sig f)) in *. set (e := kr_e kr) in *. set (m := kr_m kr) in *.
  assert (Hn' : nth_error (kr_funcs kr') idx = Some (name, lift_in_place f)).
  { unfold kr'. cbn [lift_keyring_in_place kr_funcs]. rewrite nth_error_map, Hn. reflexivity. }
  assert (Hs : sig_ok p e m (f_sig f)).
  { rewrite Forall_forall in Hsigs. apply (Hsigs (name, lift_in_place f)). eapply nth_error_In; eauto. }
  assert (Hlt : idx < length (kr_funcs kr')) by (apply nth_error_Some; congruence).
  destruct (index_size _ kr' Hl) as (_ & _ & Hsize).
  assert (Hel : length (enc_list e m ts args) = wire_sizes ts).
  { apply enc_list_length. eapply encodable_has; eauto. }
  assert (Hrl : length req = w + wire_sizes ts).
  { unfold req, request. rewrite app_length, wire_bytes_length. lia. }
  assert (E1 : slice mem i w = wire_bytes e w (Z.of_nat idx)).
  { transitivity (slice req 0 w).
    - transitivity (slice (slice mem i (length req)) 0 w); [|rewrite Hreq; reflexivity].
      rewrite slice_slice by lia. f_equal. lia.
    - unfold req, request. rewrite slice_app_l by (rewrite wire_bytes_length; lia).
      apply slice_0_all. rewrite wire_bytes_length. reflexivity. }
  assert (E2 : slice mem (i + w) (wire_sizes ts) = enc_list e m ts args).
  { transitivity (slice req w (wire_sizes ts)).
    - transitivity (slice (slice mem i (length req)) w (wire_sizes ts)); [|rewrite Hreq; reflexivity].
      rewrite slice_slice by lia. f_equal.
    - unfold req, request. unfold slice. rewrite skipn_app, skipn_all2 by (rewrite wire_bytes_length; lia).
      rewrite wire_bytes_length, Nat.sub_diag. cbn [skipn app]. apply firstn_all2. lia. }
  unfold dispatch. rewrite get_index_ok; auto; cbn [make_dispatcher d_keyring]; fold w.
  2:{ intros x1 bs H. rewrite pull_in_place in H by lia. injection H as <- <-. rewrite E1. apply wire_bytes_bytes. }
  rewrite pull_in_place by lia. cbn [bind]. change (kr_e kr') with e. rewrite E1.
  assert (Ei : Z.to_nat (wire_value e (wire_bytes e w (Z.of_nat idx))) = idx) by (apply (wire_index _ kr'); auto).
  rewrite Ei. unfold d_size. cbn [make_dispatcher d_keyring]. rewrite Hsize.
  destruct (Nat.ltb_spec idx (length (kr_funcs kr'))); [|lia].
  unfold action_at. cbn [make_dispatcher d_actions]. rewrite nth_error_map, Hn'. cbn [option_map bind snd].
  assert (Hdec : dec_list e m ts (enc_list e m ts args) = args).
  { apply (dec_list_enc_list p); auto. eapply tys_wf. apply Hs. }
  rewrite (C29_read_call_write _ p _ (mk_model e m (lift_in_place f))); auto; cbn [m_e m_m m_func].
  - change (f_sig (lift_in_place f)) with (f_sig f). fold ts. rewrite pull_in_place by lia. cbn [bind].
    rewrite E2, Hdec. cbn [lift_in_place f_call ip_world ip_mem ip_in ip_out]. rewrite Ef.
    fold resp. rewrite push_in_place by auto. cbn [bind]. do 3 f_equal. lia.
  - destruct ft; reflexivity.
  - change (f_sig (lift_in_place f)) with (f_sig f). fold ts. intros x1 bs H1.
    rewrite pull_in_place in H1 by lia. injection H1 as <- <-. rewrite E2. split; [apply enc_list_bytes|].
    split; [apply encodable_decodable_list; auto; eapply tys_wf; apply Hs|].
    rewrite Hdec. cbn [lift_in_place f_call ip_world ip_mem ip_in ip_out]. rewrite Ef. auto.
Qed.

(** Same start: the response overwrites the request. *)
Example C47_dispatcher_example :
  dispatch pc_native (make_dispatcher (lift_keyring_in_place ex_keyring) ANY) in_place_source in_place_destination
    (mk_in_place [0; 255; 254; 5; 66; 66]%Z 0 0 [])
  = Ok (mk_in_place [0; 0; 0; 3; 66; 66] 4 4 [(0%nat, [VInt (-2); VInt 5])], 0%nat)%Z.
Proof. vm_compute. reflexivity. Qed.

Print Assumptions C24_packet.
Print Assumptions C28_consumes.
Print Assumptions C28_returns.
Print Assumptions C29_read_call_write.
Print Assumptions C29_no_input.
Print Assumptions C30_policies_partial.
Print Assumptions C30_sizes_partial.
Print Assumptions C30_announced.
Print Assumptions C30_sizes_refuted.
Print Assumptions C31_remote_call.
Print Assumptions C32_invalid_index.
Print Assumptions C32_valid_index.
Print Assumptions C33_compiles.
Print Assumptions C33_replace.
Print Assumptions C33_histories.
Print Assumptions C34_hook.
Print Assumptions C53_sizes_partial.
Print Assumptions C53_integers_partial.
Print Assumptions C53_refuted.
Print Assumptions C47_dispatcher_in_place.
