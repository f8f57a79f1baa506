(** Property C81: tuples invoked on keys, and chains of devices which pass
    requests on. *)

From Coq Require Import List ZArith Bool Arith Lia.
From Verif Require Import Base CInt IntModel TypeLevel Serial TupleModel Rpc Relay Spec SpecRpc Conditions
  IntProofs SerialProofs CodecFacts TupleProofs RpcProofs Hosts Closed TypeLevelProofs PropertiesTuple PropertiesTypes PropertiesRpc.
Import ListNotations.
Open Scope nat_scope.

(** ** Tuples invoked on keys *)

Lemma enc_dec_list : forall e m ts bs, Forall wf_ty ts -> length bs = wire_sizes ts -> Forall is_byte bs ->
  canonical e m (TUser 0 ts) bs -> enc_list e m ts (dec_list e m ts bs) = bs.
Proof.
  intros e m ts bs Hw Hl Hb Hc. rewrite <- (enc_user e m 0), <- (dec_user e m 0). apply enc_dec; auto.
  apply wf_ty_user. exact Hw.
Qed.

(** [t.invoke(k)] is the request with the values of [t], which may have another
    format than [k].  If the formats are the same, the request is the index
    followed by the bytes of [t], unless they are not those of any value (negative
    zeros, booleans which are neither 0 nor 1). *)
Theorem C81_invoke : forall (X : Type) p e m (kr : keyring X) name f k bs dest (x : X),
  let ts := sig_params (f_sig f) in
  wf_platform p -> keyring_ok p kr -> In (name, f) (kr_funcs kr) -> kr_get kr name f = Some k ->
  Forall (ty_ok p e m) ts -> length bs = wire_sizes ts -> Forall is_byte bs -> decodable_list p e m ts bs ->
  Forall2 (encodable p (kr_m kr)) ts (dec_list e m ts bs) ->
  exists i, nth_error (kr_funcs kr) i = Some (name, f)
    /\ invoke_key p (tuple_at e m ts 0) k dest bs x
       = push dest (request (kr_e kr) (kr_m kr) (kr_index_size kr) i ts (dec_list e m ts bs)) x
    /\ (e = kr_e kr -> m = kr_m kr -> canonical e m (TUser 0 ts) bs ->
        request (kr_e kr) (kr_m kr) (kr_index_size kr) i ts (dec_list e m ts bs)
        = wire_bytes (kr_e kr) (kr_index_size kr) (Z.of_nat i) ++ bs).
Proof.
  intros X p e m kr name f k bs dest x ts Hp Hk Hin Hg Ht Hl Hb Hd He.
  destruct (C24_packet X p kr name f k (dec_list e m ts bs) dest x Hp Hk Hin Hg He) as (i & Hi & Hw & _).
  exists i. split; auto. split.
  - unfold invoke_key, invoke. rewrite (get_each_all p (tuple_at e m ts 0) bs (dec_list e m ts bs)).
    + cbn [bind]. exact Hw.
    + apply dec_list_length.
    + intros j v Hj. destruct (nth_error ts j) as [t|] eqn:Et.
      * rewrite (dec_list_nth e m _ _ _ _ Et) in Hj. injection Hj as <-. apply get_decodes; auto.
      * apply nth_error_None in Et. assert (j < length (dec_list e m ts bs)) by (apply nth_error_Some; congruence).
        rewrite dec_list_length in H. lia.
  - intros -> -> Hc. unfold request. rewrite enc_dec_list; auto. eapply tys_wf; eauto.
Qed.

(** ** Chains *)

Definition hop_ok {S : Type} (h : hop S) (f : func S) (args : list val) (s : S) : Prop :=
  let r := snd (f_call f args s) in
  wf_platform (h_caller h) /\ wf_platform (h_callee h)
  /\ keyring_ok (h_caller h) (hop_keyring h f) /\ keyring_ok (h_callee h) (hop_keyring h f)
  /\ NoDup (map fst (h_before h ++ (h_name h, f) :: h_after h))
  /\ Forall2 (encodable (h_caller h) (h_m h)) (sig_params (f_sig f)) args
  /\ Forall2 (encodable (h_callee h) (h_m h)) (sig_params (f_sig f)) args
  /\ ret_encodable (h_caller h) (h_m h) (sig_ret (f_sig f)) r
  /\ ret_encodable (h_callee h) (h_m h) (sig_ret (f_sig f)) r.

(** A call through a link is a call. *)
Lemma one_hop : forall (S : Type) (h : hop S) (f : func S) args s, hop_ok h f args s ->
  call_through h f args s
  = let (s', r) := f_call f args s in Ok (s', option_map (fun _ => r) (sig_ret (f_sig f))).
Proof.
  intros S h f args s (Hp & Hq & Hkp & Hkq & Hn & Hap & Haq & Hrp & Hrq).
  set (kr := mk_keyring (h_e h) (h_m h) (h_before h ++ (h_name h, f) :: h_after h)).
  assert (Hin : In (h_name h, f) (kr_funcs kr)) by (apply in_or_app; right; left; reflexivity).
  assert (E : kr_get (hop_keyring h f) (h_name h) (on_wires f)
    = Some (mk_key (kr_index_size (hop_keyring h f)) (length (h_before h)) (f_sig f) (h_e h) (h_m h))).
  { unfold kr_get.
    assert (M : map fst (kr_funcs (hop_keyring h f)) = map fst (h_before h ++ (h_name h, f) :: h_after h)).
    { unfold hop_keyring. cbn [kr_funcs]. rewrite map_map. reflexivity. }
    rewrite M, (find17_nodup nat Nat.eqb (h_name h) _ (length (h_before h))); [reflexivity|apply Nat.eqb_eq| |exact Hn].
    rewrite map_app, nth_error_app2 by (rewrite map_length; auto). rewrite map_length, Nat.sub_diag. reflexivity. }
  unfold call_through. rewrite E.
  pose proof (C31_remote_call S (h_caller h) (h_callee h) kr (h_features h) (h_name h) f _ args s [] []
                Hp Hq Hkp Hkq Hin E Hap Haq) as G.
  destruct (f_call f args s) as [s' r] eqn:Ef. cbn [snd] in Hrp, Hrq.
  destruct (G Hrp Hrq) as (i & packet & resp & _ & G1 & G2 & G3). clear G.
  rewrite G1. cbn [bind w_out]. rewrite app_nil_r in G2, G3.
  change (make_dispatcher (hop_keyring h f) (h_features h)) with (make_dispatcher (lift_keyring kr) (h_features h)).
  rewrite G2. cbn [bind w_out w_user]. rewrite G3. reflexivity.
Qed.

Lemma chain_sig : forall (S : Type) (hs : list (hop S)) (f : func S), f_sig (chain hs f) = f_sig f.
Proof. induction hs as [|h hs IH]; intros f; cbn [chain relay f_sig]; auto. Qed.

(** What is asked of a chain: at each link, the keyring is one the library can be
    used with, has no two callbacks with the same name, and both sides can send the
    arguments and the result of the call. *)
Fixpoint chain_ok {S : Type} (hs : list (hop S)) (f : func S) (args : list val) (s : S) : Prop :=
  match hs with
  | [] => True
  | h :: hs' =>
      let kr := hop_keyring h (chain hs' f) in
      let r := snd (f_call f args s) in
      wf_platform (h_caller h) /\ wf_platform (h_callee h)
      /\ keyring_ok (h_caller h) kr /\ keyring_ok (h_callee h) kr /\ NoDup (map fst (kr_funcs kr))
      /\ Forall2 (encodable (h_caller h) (h_m h)) (sig_params (f_sig f)) args
      /\ Forall2 (encodable (h_callee h) (h_m h)) (sig_params (f_sig f)) args
      /\ ret_encodable (h_caller h) (h_m h) (sig_ret (f_sig f)) r
      /\ ret_encodable (h_callee h) (h_m h) (sig_ret (f_sig f)) r
      /\ chain_ok hs' f args s
  end.

Lemma chain_calls : forall (S : Type) (hs : list (hop S)) (f : func S) args s, chain_ok hs f args s ->
  (fst (f_call (chain hs f) args s) = fst (f_call f args s)
   /\ (sig_ret (f_sig f) <> None -> snd (f_call (chain hs f) args s) = snd (f_call f args s)))
  /\ match hs with
     | [] => True
     | h :: hs' => call_through h (chain hs' f) args s
         = let (s', r) := f_call f args s in Ok (s', option_map (fun _ => r) (sig_ret (f_sig f)))
     end.
Proof.
  intros S hs f args s. induction hs as [|h hs IH]; intros H; [auto|].
  cbn [chain_ok] in H. destruct H as (Hp & Hq & Hkp & Hkq & Hn & Hap & Haq & Hrp & Hrq & Hc).
  destruct (IH Hc) as [[I1 I2] _]. clear IH.
  assert (R : forall p m, ret_encodable p m (sig_ret (f_sig f)) (snd (f_call f args s)) ->
              ret_encodable p m (sig_ret (f_sig f)) (snd (f_call (chain hs f) args s))).
  { intros p m. unfold ret_encodable. destruct (sig_ret (f_sig f)) as [t|]; auto.
    rewrite I2 by congruence. auto. }
  assert (O : hop_ok h (chain hs f) args s).
  { unfold hop_ok. rewrite chain_sig.
    unfold hop_keyring in Hn. cbn [kr_funcs] in Hn. rewrite map_map in Hn.
    exact (conj Hp (conj Hq (conj Hkp (conj Hkq (conj Hn (conj Hap (conj Haq (conj (R _ _ Hrp) (R _ _ Hrq))))))))). }
  apply one_hop in O. cbn [chain relay f_call]. rewrite O, chain_sig.
  destruct (f_call (chain hs f) args s) as [s' r]. destruct (f_call f args s) as [s0 r0]. cbn [fst snd] in I1, I2. subst s'.
  destruct (sig_ret (f_sig f)) as [t|]; cbn [option_map fst snd]; [rewrite I2 by congruence|];
    repeat split; auto; congruence.
Qed.

(** A call through any chain of devices, each with its own host, keyring, format and
    storage policy, meets no undefined behaviour and has the effect and the result of
    the call itself. *)
Theorem C81_chain : forall (S : Type) (h : hop S) (hs : list (hop S)) (f : func S) args s,
  chain_ok (h :: hs) f args s ->
  call_through h (chain hs f) args s
  = Ok (fst (f_call f args s), option_map (fun _ => snd (f_call f args s)) (sig_ret (f_sig f))).
Proof.
  intros S h hs f args s H. destruct (chain_calls S (h :: hs) f args s H) as [_ E]. rewrite E.
  destruct (f_call f args s). reflexivity.
Qed.

(** A tuple whose format is not that of the key, and one whose format is. *)
Example C81_invoke_example :
  invoke_key pc_native (tuple_at LITTLE ONES_COMPLEMENT [TSig 2; TUns 1] 0) ex_key_add give_wire [253; 255; 5]%Z
    (mk_wires [] [] tt)
  = Ok (mk_wires [] [0; 255; 254; 5]%Z tt)
  /\ invoke_key pc_native (tuple_at BIG TWOS_COMPLEMENT [TSig 2; TUns 1] 0) ex_key_add give_wire [255; 254; 5]%Z
       (mk_wires [] [] tt)
     = Ok (mk_wires [] [0; 255; 254; 5]%Z tt)
  /\ decodable_list pc_native LITTLE ONES_COMPLEMENT [TSig 2; TUns 1] [253; 255; 5]%Z
  /\ Forall2 (encodable pc_native TWOS_COMPLEMENT) [TSig 2; TUns 1]
       (dec_list LITTLE ONES_COMPLEMENT [TSig 2; TUns 1] [253; 255; 5]%Z)
  /\ canonical BIG TWOS_COMPLEMENT (TUser 0 [TSig 2; TUns 1]) [255; 254; 5]%Z.
Proof.
  split; [vm_compute; reflexivity|]. split; [vm_compute; reflexivity|].
  split; [|split].
  - cbn. repeat split; try discriminate; lia.
  - encs.
  - cbn. repeat split; try discriminate; lia.
Qed.

(** From a PC to a microcontroller, which passes the call on to a PowerPC with
    another format and another keyring. *)
Definition ex_chain : list (hop log) :=
  [mk_hop pc_native avr_portable WEAK_REFERENCE BIG TWOS_COMPLEMENT 10 [(20, ex_notify)] [(30, ex_swap)];
   mk_hop avr_portable ppc_native ANY LITTLE ONES_COMPLEMENT 7 [] [(20, ex_notify)]].

Example C81_chain_example :
  chain_ok ex_chain ex_add [VInt (-2); VInt 5] []
  /\ f_call (chain ex_chain ex_add) [VInt (-2); VInt 5] [] = ([(0, [VInt (-2); VInt 5])], VInt 3).
Proof.
  split; [|vm_compute; reflexivity].
  cbn [chain_ok ex_chain h_caller h_callee h_m hop_keyring kr_funcs].
  repeat match goal with |- _ /\ _ => split end; try apply pc_native_wf; try apply avr_portable_wf; try apply ppc_native_wf;
    try exact I.
  all: try (split; [vm_compute; reflexivity|]; cbn [h_before h_after h_name app map fst snd kr_funcs kr_e kr_m hop_keyring h_e h_m];
    list_cases; split;
    cbn [snd f_sig sig_params sig_ret on_wires relay chain ex_add ex_notify ex_swap ret_ty_ok]; tyoks).
  all: try (cbn; repeat constructor; cbn; intuition discriminate).
  all: try (cbn [f_sig ex_add sig_params]; encs).
  all: try (split; range).
Qed.

(** A link on which the result cannot be sent breaks the chain: with ones'
    complement there is no -2^31. *)
Definition ex_min : func log := mk_func (mk_sig [] (Some (TSig 4))) (fun args s => ((5, args) :: s, VInt (- 2 ^ 31))).
Definition ex_lossy : hop log := mk_hop pc_native pc_native ANY LITTLE ONES_COMPLEMENT 1 [] [].

Theorem C81_refuted : exists (S : Type) (h : hop S) (f : func S) args s,
  wf_platform (h_caller h) /\ wf_platform (h_callee h)
  /\ keyring_ok (h_caller h) (hop_keyring h f) /\ keyring_ok (h_callee h) (hop_keyring h f)
  /\ NoDup (map fst (kr_funcs (hop_keyring h f)))
  /\ Forall2 (encodable (h_callee h) (h_m h)) (sig_params (f_sig f)) args
  /\ call_through h f args s <> Ok (fst (f_call f args s), Some (snd (f_call f args s))).
Proof.
  exists log, ex_lossy, ex_min, [], [].
  repeat match goal with |- _ /\ _ => split end; try apply pc_native_wf.
  all: try (split; [vm_compute; reflexivity|]; cbn [h_before h_after h_name app map fst snd kr_funcs kr_e kr_m hop_keyring h_e h_m];
    list_cases; split;
    cbn [snd f_sig sig_params sig_ret on_wires ex_min ret_ty_ok]; tyoks).
  - cbn. repeat constructor. cbn. tauto.
  - constructor.
  - vm_compute. discriminate.
Qed.

Print Assumptions C81_invoke.
Print Assumptions C81_chain.
Print Assumptions C81_refuted.
