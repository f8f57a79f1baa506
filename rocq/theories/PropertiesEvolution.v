(** Property C88: a callee may be given more callbacks without its callers
    being rebuilt, as long as the type of the indices does not change. *)

From Coq Require Import List ZArith Bool Arith Lia ZifyBool ZifyNat.
From Verif Require Import Base CInt Spec IntModel Conditions MemFacts TypeLevel Serial TupleModel
  TypeLevelProofs IntProofs SignedProofs SerialProofs CodecFacts Bounds TupleProofs SpecRpc Rpc RpcProofs
  Hosts Closed PropertiesTypes PropertiesInt PropertiesTuple PropertiesRpc PropertiesFormats.
Import ListNotations.
Open Scope nat_scope.

(** The caller [p] was built with [kr], the callee [q] with [kr'].  Both have
    the same format, and callbacks of the same signature at index [i]. *)
Definition shared {S S' : Type} (kr : keyring S) (kr' : keyring S') (i name name' : nat) (f : func S)
    (f' : func S') : Prop :=
  kr_e kr' = kr_e kr /\ kr_m kr' = kr_m kr
  /\ nth_error (kr_funcs kr) i = Some (name, f) /\ nth_error (kr_funcs kr') i = Some (name', f')
  /\ f_sig f' = f_sig f.

(** Same type of indices: the requests of the caller are those of the key of
    the callee, whatever the other callbacks are. *)
Theorem C88_same_packets : forall (S S' : Type) p (kr : keyring S) (kr' : keyring S') i name name' f f' k k' args,
  wf_platform p -> keyring_ok p kr -> keyring_ok p kr' -> shared kr kr' i name name' f f' ->
  kr_get kr name f = Some k -> kr_get kr' name' f' = Some k' ->
  Forall2 (encodable p (kr_m kr)) (sig_params (f_sig f)) args ->
  (kr_index_size kr' = kr_index_size kr
   <-> key_write p k args give_wire (mk_wires [] [] tt) = key_write p k' args give_wire (mk_wires [] [] tt)).
Proof.
  intros S S' p kr kr' i name name' f f' k k' args Hp Hk Hk' (He & Hm & Hi & Hi' & Hs) Hg Hg' Ha.
  rewrite (packet_sent p kr i name f k args) by auto.
  rewrite (packet_sent p kr' i name' f' k' args) by (auto; rewrite Hm, Hs; auto).
  rewrite He, Hm, Hs. split; intros H.
  - rewrite H. reflexivity.
  - injection H as H. apply (f_equal (@length Z)) in H. unfold request in H.
    rewrite !app_length, !wire_bytes_length in H. lia.
Qed.

(** They are served, and the response is understood. *)
Theorem C88_served : forall (S S' : Type) p q (kr : keyring S) (kr' : keyring S') i name name' f f' k ft args s
    rest rest',
  wf_platform p -> wf_platform q -> keyring_ok p kr -> keyring_ok q kr' -> shared kr kr' i name name' f f' ->
  kr_get kr name f = Some k ->
  Forall2 (encodable p (kr_m kr)) (sig_params (f_sig f)) args ->
  Forall2 (encodable q (kr_m kr)) (sig_params (f_sig f)) args ->
  kr_index_size kr' = kr_index_size kr ->
  let (s', r) := f_call f' args s in
  ret_encodable p (kr_m kr) (sig_ret (f_sig f)) r -> ret_encodable q (kr_m kr) (sig_ret (f_sig f)) r ->
  exists packet resp,
    key_write p k args give_wire (mk_wires [] [] tt) = Ok (mk_wires [] packet tt)
    /\ dispatch q (make_dispatcher (lift_keyring kr') ft) take_wire give_wire (mk_wires (packet ++ rest) [] s)
       = Ok (mk_wires rest resp s', i)
    /\ key_read p k take_wire (mk_wires (resp ++ rest') [] tt)
       = Ok (mk_wires rest' [] tt, option_map (fun _ => r) (sig_ret (f_sig f))).
Proof.
  intros S S' p q kr kr' i name name' f f' k ft args s rest rest' Hp Hq Hk Hk' (He & Hm & Hi & Hi' & Hs) Hg Hap Haq Hw.
  destruct (f_call f' args s) as [s' r] eqn:Ef. intros Hrp Hrq.
  eexists. exists (response (kr_e kr) (kr_m kr) (sig_ret (f_sig f)) r).
  split; [apply (packet_sent p kr i name f k args); auto|]. split.
  - pose proof (request_served q kr' ft i name' f' args s rest Hq Hk' Hi') as R.
    rewrite He, Hm, Hs, Hw, Ef in R. cbn [fst snd] in R. apply R; auto.
  - destruct (kr_get_nth S kr name f k Hg (nth_error_In _ _ Hi)) as (_ & _ & Ek).
    assert (Hsp : sig_ok p (kr_e kr) (kr_m kr) (f_sig f)).
    { destruct Hk as [_ F]. rewrite Forall_forall in F. apply (F (name, f) (nth_error_In _ _ Hi)). }
    assert (Eks : k_sig k = f_sig f) by (rewrite Ek; reflexivity).
    assert (Eke : k_e k = kr_e kr) by (rewrite Ek; reflexivity).
    assert (Ekm : k_m k = kr_m kr) by (rewrite Ek; reflexivity).
    rewrite <- Eks.
    apply C28_returns; rewrite ?Eks, ?Eke, ?Ekm; auto; [apply Hsp|].
    apply pull_wires.
    unfold response, wire_size_ret, ret_encodable in *. destruct (sig_ret (f_sig f)); auto.
    apply enc_length. apply Hrp.
Qed.

(** Another type of indices: no request is served.  If the callee happens to
    find index [i], it takes more or fewer bytes than the request has, so what
    follows is out of step; it may also find another index, or wait for bytes
    which will not come. *)
Theorem C88_outgrown : forall (S S' : Type) p q (kr : keyring S) (kr' : keyring S') i name name' f f' k ft args s rest,
  wf_platform p -> wf_platform q -> keyring_ok p kr -> keyring_ok q kr' -> shared kr kr' i name name' f f' ->
  kr_get kr name f = Some k ->
  Forall2 (encodable p (kr_m kr)) (sig_params (f_sig f)) args -> Forall is_byte rest ->
  kr_index_size kr' <> kr_index_size kr ->
  exists packet,
    key_write p k args give_wire (mk_wires [] [] tt) = Ok (mk_wires [] packet tt)
    /\ forall x, dispatch q (make_dispatcher (lift_keyring kr') ft) take_wire give_wire
                   (mk_wires (packet ++ rest) [] s) = Ok (x, i) ->
         length (w_in x) + kr_index_size kr' = length rest + kr_index_size kr
         /\ length (w_in x) <> length rest.
Proof.
  intros S S' p q kr kr' i name name' f f' k ft args s rest Hp Hq Hk Hk' (He & Hm & Hi & Hi' & Hs) Hg Ha Hb Hw.
  eexists. split; [apply (packet_sent p kr i name f k args); auto|]. intros x Hd.
  set (packet := request _ _ _ _ _ _) in *.
  assert (Hl : length packet = kr_index_size kr + wire_sizes (sig_params (f_sig f))).
  { unfold packet, request. rewrite app_length, wire_bytes_length. f_equal.
    apply enc_list_length. eapply encodable_has; eauto. }
  assert (Hpb : Forall is_byte (packet ++ rest)).
  { apply Forall_app. split; auto. unfold packet, request. apply Forall_app.
    split; [apply wire_bytes_bytes|apply enc_list_bytes]. }
  set (inp := packet ++ rest) in *.
  assert (Hil : length inp = kr_index_size kr + wire_sizes (sig_params (f_sig f)) + length rest).
  { unfold inp. rewrite app_length. lia. }
  clearbody inp. clear packet Hl.
  destruct (Nat.lt_ge_cases (length inp) (kr_index_size kr')) as [H|H].
  { rewrite dispatch_short in Hd by auto. discriminate. }
  rewrite <- (firstn_skipn (kr_index_size kr') inp) in Hd, Hpb. apply Forall_app in Hpb. destruct Hpb as [Hb1 Hb2].
  rewrite dispatch_wires in Hd by (auto; apply firstn_length_le; auto).
  set (j := Z.to_nat _) in *.
  assert (Hj : j = i).
  { destruct (nth_error (kr_funcs kr') j) as [nf|].
    - apply bind_ok in Hd. destruct Hd as (y & _ & Hd). congruence.
    - congruence. }
  rewrite Hj, Hi' in Hd. cbn [snd] in Hd. apply bind_ok in Hd. destruct Hd as (y & Hc & Hd).
  assert (y = x) by congruence. subst y. clear Hd.
  assert (Hss : sig_ok q (kr_e kr') (kr_m kr') (f_sig f')).
  { destruct Hk' as [_ F]. rewrite Forall_forall in F. apply (F (name', f') (nth_error_In _ _ Hi')). }
  set (inp2 := skipn (kr_index_size kr') inp) in *.
  assert (Hl2 : length inp2 = length inp - kr_index_size kr') by (apply skipn_length).
  destruct (Nat.lt_ge_cases (length inp2) (wire_sizes (sig_params (f_sig f')))) as [H2|H2].
  { rewrite (call_pull_fault q _ _ _ (lift_func f') _ _ _ NoInput) in Hc; auto; [discriminate|].
    apply pull_short. rewrite lift_sig. auto. }
  rewrite <- (firstn_skipn (wire_sizes (sig_params (f_sig f'))) inp2) in Hc, Hb2.
  apply Forall_app in Hb2. destruct Hb2 as [Hb2 _].
  apply call_wires_inv in Hc; auto; [|apply firstn_length_le; auto].
  destruct Hc as [Hc _]. rewrite Hc, skipn_length, Hl2, Hil, Hs. rewrite Hl2, Hil, Hs in H2. lia.
Qed.

(** When the type of the indices is the same: both keyrings have fewer than
    256 callbacks, or neither, and so on.  (A keyring of 256 callbacks has
    indices of two bytes, although one would do.) *)
Theorem C88_sizes : forall (S S' : Type) (kr : keyring S) (kr' : keyring S'),
  let n := Z.of_nat (length (kr_funcs kr)) in let n' := Z.of_nat (length (kr_funcs kr')) in
  (n < 2 ^ 64)%Z -> (n' < 2 ^ 64)%Z ->
  (kr_index_size kr' = kr_index_size kr
   <-> forall b, In b [8; 16; 32]%Z -> (n < 2 ^ b <-> n' < 2 ^ b)%Z).
Proof.
  intros S S' kr kr' n n' Hn Hn'. unfold kr_index_size. fold n n'.
  assert (P : (0 <= n)%Z) by (unfold n; apply Nat2Z.is_nonneg).
  assert (P' : (0 <= n')%Z) by (unfold n'; apply Nat2Z.is_nonneg).
  clearbody n n'. change (2 ^ 64)%Z with 18446744073709551616%Z in *.
  assert (Z1 : forall x, (0 <= x)%Z -> smallest_unsigned x
             = if (x <? 256)%Z then 1 else if (x <? 65536)%Z then 2 else if (x <? 4294967296)%Z then 4 else 8).
  { intros x Hx. unfold smallest_unsigned, try_promote.
    change (2 ^ (8 * Z.of_nat 4))%Z with 4294967296%Z. change (2 ^ (8 * Z.of_nat 2))%Z with 65536%Z.
    change (2 ^ (8 * Z.of_nat 1))%Z with 256%Z.
    assert (M : forall b, (0 < b)%Z -> (x mod b =? x)%Z = (x <? b)%Z).
    { intros b Hb. destruct (Z.ltb_spec x b).
      - rewrite Z.mod_small by lia. apply Z.eqb_refl.
      - apply Z.eqb_neq. pose proof (Z.mod_pos_bound x b Hb). lia. }
    rewrite !M by lia. reflexivity. }
  rewrite !Z1 by auto. split.
  - intros H b [<-|[<-|[<-|[]]]];
      [change (2 ^ 8)%Z with 256%Z|change (2 ^ 16)%Z with 65536%Z|change (2 ^ 32)%Z with 4294967296%Z];
      destruct (Z.ltb_spec n' 256), (Z.ltb_spec n 256), (Z.ltb_spec n' 65536), (Z.ltb_spec n 65536),
        (Z.ltb_spec n' 4294967296), (Z.ltb_spec n 4294967296); lia.
  - intros H.
    pose proof (H 8%Z (or_introl eq_refl)) as H8. pose proof (H 16%Z (or_intror (or_introl eq_refl))) as H16.
    pose proof (H 32%Z (or_intror (or_intror (or_introl eq_refl)))) as H32. clear H.
    change (2 ^ 8)%Z with 256%Z in H8. change (2 ^ 16)%Z with 65536%Z in H16. change (2 ^ 32)%Z with 4294967296%Z in H32.
    destruct (Z.ltb_spec n' 256), (Z.ltb_spec n 256); try lia;
      destruct (Z.ltb_spec n' 65536), (Z.ltb_spec n 65536); try lia;
      destruct (Z.ltb_spec n' 4294967296), (Z.ltb_spec n 4294967296); lia.
Qed.

(** The keyring of the examples with a fourth callback, then with so many that
    the indices have two bytes. *)
Definition grown : keyring log :=
  mk_keyring BIG TWOS_COMPLEMENT (kr_funcs ex_keyring ++ [(40, ex_notify)]).
Definition outgrown : keyring log :=
  mk_keyring BIG TWOS_COMPLEMENT
    (kr_funcs ex_keyring ++ map (fun n => (40 + n, ex_notify)) (seq 0 253)).

Example C88_example :
  shared ex_keyring grown 0 10 10 ex_add ex_add
  /\ shared ex_keyring outgrown 0 10 10 ex_add ex_add
  /\ kr_index_size ex_keyring = 1 /\ kr_index_size grown = 1 /\ kr_index_size outgrown = 2
  /\ dispatch pc_native (make_dispatcher (lift_keyring grown) ANY) take_wire give_wire
       (mk_wires [0; 255; 254; 5]%Z [] [])
     = Ok (mk_wires [] [0; 0; 0; 3]%Z [(0, [VInt (-2); VInt 5])], 0)
  (* index 0x00FF: the last callback runs instead *)
  /\ dispatch pc_native (make_dispatcher (lift_keyring outgrown) ANY) take_wire give_wire
       (mk_wires [0; 255; 254; 5]%Z [] [])
     = Ok (mk_wires [254; 5]%Z [] [(1, [])], 255)
  (* small arguments: the right callback, and bytes which are missing *)
  /\ dispatch pc_native (make_dispatcher (lift_keyring outgrown) ANY) take_wire give_wire
       (mk_wires [0; 0; 7; 5]%Z [] [])
     = Fault NoInput.
Proof.
  split; [repeat split|]. split; [repeat split|]. vm_compute. repeat split.
Qed.

Print Assumptions C88_same_packets.
Print Assumptions C88_served.
Print Assumptions C88_outgrown.
Print Assumptions C88_sizes.
