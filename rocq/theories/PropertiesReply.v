(** Properties C44 (replies) and C47 (processing in place, buffered
    dispatchers). *)

From Coq Require Import List ZArith Lia Bool Arith.
From Verif Require Import Base CInt Spec IntModel Conditions MemFacts TypeLevel Serial TupleModel
  TypeLevelProofs IntProofs SignedProofs SerialProofs CodecFacts Bounds TupleProofs SpecRpc Rpc RpcProofs
  Hosts Closed PropertiesTypes PropertiesRpc Buffered SpecBuffered BufferedProofs PropertiesBuffered
  PropertiesBuffers PropertiesPackets.
Import ListNotations.
Open Scope nat_scope.

(** ** C44 *)

(** A key whose only parameter is an array of [n] bytes, [n] not zero. *)
Definition reply_key (k : key) (n : nat) : Prop :=
  sig_params (k_sig k) = [TArr (TUns 1) n] /\ 1 <= n /\ 1 <= k_index_size k <= 8
  /\ (Z.of_nat (k_index k) < space (k_index_size k))%Z.

(** The content of the local array: the response, then what was in the memory. *)
Definition reply_buffer (n : nat) (garbage out : list Z) : list Z :=
  out ++ skipn (length out) (firstn n (garbage ++ repeat 0%Z n)).

(** The request sent by [reply]. *)
Definition reply_request (k : key) (buf : list Z) : list Z :=
  wire_bytes (k_e k) (k_index_size k) (Z.of_nat (k_index k)) ++ buf.

Lemma push_array : forall bs mem i, i + length bs <= length mem ->
  push array_destination bs (mem, i) = Ok (splice mem i bs, i + length bs).
Proof.
  induction bs as [|b bs IH]; intros mem i H; cbn [push length] in *.
  - rewrite splice_nil, Nat.add_0_r. reflexivity.
  - unfold array_destination at 1, iterator_destination. cbn [fst snd].
    rewrite store_ok by lia. cbn [bind fst snd]. rewrite IH by (rewrite splice_length; cbn; lia).
    do 2 f_equal; [|lia]. change (b :: bs) with ([b] ++ bs).
    rewrite <- (splice_splice_app mem i [b] bs) by (cbn; lia). f_equal. cbn. lia.
Qed.

Lemma local_array_length : forall n garbage, length (firstn n (garbage ++ repeat 0%Z n)) = n.
Proof. intros. rewrite firstn_length, app_length, repeat_length. lia. Qed.

Lemma byte_array_ok : forall p e m n, 1 <= n -> ty_ok p e m (TArr (TUns 1) n).
Proof. intros. unfold ty_ok. cbn. repeat split; auto; lia. Qed.

Lemma is_byte_space : forall z, is_byte z <-> (0 <= z < space 1)%Z.
Proof. intros z. unfold is_byte. change (space 1) with 256%Z. tauto. Qed.

Lemma wire_bytes_byte : forall e z, is_byte z -> wire_bytes e 1 z = [z].
Proof.
  intros e z H. assert (E : digit z 0 = z).
  { unfold digit, is_byte in *. change (2 ^ (8 * Z.of_nat 0))%Z with 1%Z. rewrite Z.div_1_r. apply Z.mod_small. lia. }
  destruct e; cbn [wire_bytes seq rev map app]; rewrite E; reflexivity.
Qed.

Lemma enc_byte_array : forall e m n bs, Forall is_byte bs ->
  enc e m (TArr (TUns 1) n) (VList (map VInt bs)) = bs.
Proof.
  intros e m n bs H. cbn [enc]. induction H as [|b bs Hb H IH]; cbn [map flat_map]; auto.
  cbn [enc]. rewrite IH, wire_bytes_byte by auto. reflexivity.
Qed.

Lemma byte_array_encodable : forall p m bs, Forall is_byte bs ->
  encodable p m (TArr (TUns 1) (length bs)) (VList (map VInt bs)).
Proof.
  intros p m bs H. split; cbn [has_type all_signed].
  - split; [apply map_length|]. apply Forall_map. eapply Forall_impl; [|exact H]. intros z. apply is_byte_space.
  - induction H; cbn; auto.
Qed.

(** The bytes of a response are bytes. *)
Lemma received_out : forall (X : Type) fm bs (a : machine X) x a' x' s,
  Forall is_byte (mc_out a) -> received fm bs a x = (a', x', s) -> Forall is_byte (mc_out a').
Proof.
  intros X fm bs a x a' x' s H E. unfold received, serve in E. destruct (examine fm (mc_table a) bs) as [| |f payload].
  1,2: injection E as <- <- <-; exact H.
  destruct (f_call f _ x) as [y r]. injection E as <- <- <-. cbn [mc_out]. unfold response.
  destruct (ret f); [apply enc_bytes|constructor].
Qed.

Lemma mc_step_out : forall (X : Type) fm o (a : machine X) x a' x' v,
  Forall is_byte (mc_out a) -> mc_step fm o a x = Ok (a', x', v) -> Forall is_byte (mc_out a').
Proof.
  intros X fm o a x a' x' v H E. destruct o; cbn [mc_step] in E.
  - unfold mc_put in E. destruct (received fm (mc_in a ++ [byte]) a x) as [[a1 x1] s] eqn:E1.
    injection E as <- <- <-. eapply received_out; eauto.
  - unfold mc_get in E. destruct (mc_out a) eqn:Eo; injection E as <- <- <-; [rewrite Eo; constructor|].
    cbn [mc_out]. inversion H. auto.
  - injection E as <- <- <-. exact H.
  - unfold mc_read in E. ok_inv E q. destruct q as [[a1 x1] s]. ok_inv E0 q. destruct q as [x2 bs].
    injection E as <- <- <-. injection E0 as E0. eapply received_out; eauto.
  - unfold mc_write in E. ok_inv E q. destruct q as [a1 x1]. ok_inv E0 q. injection E0 as <- <-. injection E as <- <- <-.
    constructor.
  - unfold mc_process, mc_read in E. ok_inv E q. destruct q as [[a1 x1] s]. injection E as <- <- <-.
    ok_inv E0 q. destruct q as [[a2 x2] s2]. ok_inv E q. destruct q as [x3 bs]. injection E as E.
    pose proof (received_out X fm bs a x3 a2 x2 s2 H E) as H2.
    destruct s2; [injection E0 as <- <- <-; exact H2|injection E0 as <- <- <-; exact H2|].
    ok_inv E0 q. destruct q as [a3 x4]. injection E0 as <- <- <-. unfold mc_write in E2. ok_inv E2 q.
    injection E2 as <- <-. constructor.
  - injection E as <- <- <-. exact H.
  - injection E as <- <- <-. exact H.
  - injection E as <- <- <-. exact H.
Qed.

Lemma reached_out : forall (X : Type) p dbl (kr : keyring X) ft b a x,
  reached p dbl kr ft b a x -> Forall is_byte (mc_out a).
Proof.
  intros X p dbl kr ft b a x (g & g' & b0 & ops & x0 & vs & _ & _ & Hm & _).
  assert (H : Forall is_byte (mc_out (fresh kr))) by constructor.
  revert Hm H. generalize (fresh kr). revert x0 vs. induction ops as [|o ops IH]; intros x0 vs a0 Hm H; cbn [mc_run] in Hm.
  - injection Hm as <- <- <-. exact H.
  - ok_inv Hm q. destruct q as [[a1 x1] v]. ok_inv Hm q. destruct q as [[a2 x2] vs2]. injection Hm as <- <- <-.
    eapply IH; [exact E0|]. eapply mc_step_out; eauto.
Qed.

Lemma reply_buffer_bytes : forall n garbage out, Forall is_byte garbage -> Forall is_byte out ->
  Forall is_byte (reply_buffer n garbage out).
Proof.
  intros n garbage out Hg Ho. unfold reply_buffer. apply Forall_app. split; auto.
  apply skipn_bytes. apply Forall_forall. intros z Hz.
  assert (Hin : In z (garbage ++ repeat 0%Z n)).
  { rewrite <- (firstn_skipn n). apply in_or_app. auto. }
  apply in_app_or in Hin. destruct Hin as [Hin|Hin].
  - rewrite Forall_forall in Hg. auto.
  - apply repeat_spec in Hin. subst. unfold is_byte. lia.
Qed.

Lemma reply_buffer_length : forall n garbage out, length out <= n -> length (reply_buffer n garbage out) = n.
Proof.
  intros n garbage out H. unfold reply_buffer. rewrite app_length, skipn_length, local_array_length. lia.
Qed.

(** What [reply] does, in any state: either it sends a request for [k] whose
    argument is an array starting with the whole content of the output buffer,
    which is empty afterwards, or it does nothing. *)
Theorem C44_reply : forall (X : Type) p dbl (kr : keyring X) ft b a x dest k n garbage,
  wf_platform p -> keyring_ok p kr -> well_sized dbl kr ft -> reached p dbl kr ft b a x ->
  reply_key k n -> Forall is_byte garbage ->
  if (b_obuf_next b =? 0) && (length (mc_out a) <=? n) then
    match push dest (reply_request k (reply_buffer n garbage (mc_out a))) x with
    | Ok x' => exists b', reply p dest k garbage b x = Some (Ok (b', x', true))
        /\ reached p dbl kr ft b' (mk_machine (mc_in a) [] (mc_table a)) x' /\ is_loaded b' = false
    | Fault flt => reply p dest k garbage b x = Some (Fault flt)
    end
  else reply p dest k garbage b x = Some (Ok (b, x, false)).
Proof.
  intros X p dbl kr ft b a x dest k n garbage Hp Hk Hs H (Hpar & Hn1 & Hsz & Hidx) Hg.
  destruct (reached_represents p dbl kr ft Hp Hk Hs b a x H) as (ni & no & Hw & Hf & R).
  assert (Eb : b_obuf_next b + length (mc_out a) = b_obuf_bottom b) by apply R.
  assert (Esz : payload_length k - k_index_size k = n).
  { unfold payload_length, parameters_size. rewrite sum17_list_sum, Hpar.
    cbn [map list_sum fold_right]. rewrite sizeof_arr by lia. cbn [sizeof]. lia. }
  unfold reply. rewrite Hpar, Esz.
  destruct (Nat.eqb_spec (b_obuf_next b) 0) as [E0|E0]; cbn [andb negb]; [|reflexivity].
  rewrite E0 in Eb. cbn [Nat.add] in Eb. rewrite <- Eb.
  destruct (Nat.leb_spec (length (mc_out a)) n) as [Hle|Hle]; cbn [andb negb]; [|reflexivity].
  rewrite (write_to_ok kr ft ni no dbl Hw _ array_destination b a _ R).
  rewrite push_array by (rewrite local_array_length; lia). cbn [bind fst Nat.add].
  assert (Ebuf : splice (firstn n (garbage ++ repeat 0%Z n)) 0 (mc_out a) = reply_buffer n garbage (mc_out a)) by reflexivity.
  rewrite Ebuf. set (buf := reply_buffer n garbage (mc_out a)) in *.
  assert (Hbuf : Forall is_byte buf).
  { apply reply_buffer_bytes; auto. eapply reached_out; exact H. }
  assert (Hlen : length buf = n) by (apply reply_buffer_length; auto).
  assert (Ekw : key_write p k [VList (map VInt buf)] dest x = push dest (reply_request k buf) x).
  { unfold key_write. rewrite Hpar. rewrite write_tuple_ok; auto.
    - cbn [enc_list]. rewrite enc_byte_array by auto. cbn [enc]. rewrite app_nil_r. reflexivity.
    - constructor; [|constructor; [apply byte_array_ok; auto|constructor]]. unfold ty_ok. cbn. auto.
    - constructor; [|constructor; [|constructor]].
      + split; cbn [has_type all_signed]; auto. lia.
      + rewrite <- Hlen. apply byte_array_encodable. auto. }
  rewrite Ekw. destruct (push dest (reply_request k buf) x) as [x'|flt]; cbn [bind]; [|reflexivity].
  exists (advance b (length (mc_out a))). split; [reflexivity|].
  pose proof (reached_write p dbl kr ft Hp Hk Hs b a x (fun _ y => Ok y) H) as Hw1.
  assert (Epush : push (fun _ (y : X) => Ok y) (mc_out a) x = Ok x).
  { generalize (mc_out a). induction l; cbn [push bind]; auto. }
  rewrite Epush in Hw1. destruct Hw1 as (b1 & E1 & H1).
  rewrite (write_to_ok kr ft ni no dbl Hw _ _ b a x R), Epush in E1. cbn [bind] in E1.
  assert (b1 = advance b (length (mc_out a))) by congruence. subst b1.
  destruct (reached_step p dbl kr ft Hp Hk Hs (Outside (fun _ => x')) _ _ _
              (mk_machine (mc_in a) [] (mc_table a)) x' ONone H1) as (b2 & S2 & H2).
  { split; [exact I|right; exact I]. } { reflexivity. }
  cbn [step] in S2. assert (b2 = advance b (length (mc_out a))) by congruence. subst b2.
  split; [exact H2|]. rewrite (reached_loaded p dbl kr ft Hp Hk Hs _ _ _ H2). reflexivity.
Qed.

(** The call which completed a packet. *)
Definition resolves {X : Type} (p : platform) (b : buffered X) (x : X) (b1 : buffered X) (x1 : X) : Prop :=
  (exists byte, put p byte b x = Ok (b1, x1, RESOLVED_PACKET))
  \/ exists src, read_from p src b x = Ok (b1, x1, RESOLVED_PACKET).

Lemma put_resolved : forall (X : Type) p byte (b : buffered X) x b1 x1,
  put p byte b x = Ok (b1, x1, RESOLVED_PACKET) -> b_obuf_next b1 = 0.
Proof.
  intros X p byte b x b1 x1 H. unfold put in H. ok_inv H m. destruct (b_load_count b) as [|count]; [discriminate|].
  assert (Hcall : forall b2 y b3 y1, call_loaded p b2 y = Ok (b3, y1) -> b_obuf_next (X := X) b3 = 0).
  { intros b2 y b3 y1 Hc. unfold call_loaded in Hc. ok_inv Hc q. destruct q as [w1 index]. ok_inv Hc q1. ok_inv Hc q2.
    injection Hc as <- <-. reflexivity. }
  destruct (0 <? count); [discriminate|]. destruct (b_is_index_loaded b).
  - ok_inv H q. destruct q as [b2 y]. injection H as <- <-. eapply Hcall; eauto.
  - ok_inv H q. destruct q as [w index]. destruct (index <? d_size (b_dispatcher b)); [|discriminate].
    ok_inv H q1. ok_inv H q2. destruct (q2 =? 0); [|discriminate]. ok_inv H q3. destruct q3 as [b2 y].
    injection H as <- <-. eapply Hcall; eauto.
Qed.

Lemma resolves_next : forall (X : Type) p (b : buffered X) x b1 x1, resolves p b x b1 x1 -> b_obuf_next b1 = 0.
Proof.
  intros X p b x b1 x1 [[byte H]|[src H]]; [eapply put_resolved; eauto|].
  assert (Hput : forall byte b y b2 y2 s, put p byte b y = Ok (b2, y2, s) -> s = RESOLVED_PACKET -> b_obuf_next (X := X) b2 = 0).
  { intros byte b2 y b3 y2 s E ->. eapply put_resolved; eauto. }
  assert (Hi : forall fuel b y s b2 y2 s2, (s = RESOLVED_PACKET -> b_obuf_next b = 0) ->
            read_index p fuel src b y s = Ok (b2, y2, s2) -> s2 = RESOLVED_PACKET -> b_obuf_next b2 = 0).
  { induction fuel as [|fuel IH]; intros b2 y s b3 y2 s2 Hs E; cbn [read_index] in E;
      destruct (negb (b_is_index_loaded b2) && is_loading s); try discriminate; try (injection E as <- <- <-; exact Hs).
    ok_inv E q. destruct q as [y1 byte]. ok_inv E q. destruct q as [[b4 y3] s3].
    eapply IH; [|exact E]. intros Hs3. eapply Hput; eauto. }
  assert (Hy : forall fuel b y s b2 y2 s2, (s = RESOLVED_PACKET -> b_obuf_next b = 0) ->
            read_payload p fuel src b y s = Ok (b2, y2, s2) -> s2 = RESOLVED_PACKET -> b_obuf_next b2 = 0).
  { induction fuel as [|fuel IH]; intros b2 y s b3 y2 s2 Hs E; cbn [read_payload] in E;
      destruct (b_is_index_loaded b2); try discriminate; try (injection E as <- <- <-; exact Hs).
    ok_inv E q. destruct q as [y1 byte]. ok_inv E q. destruct q as [[b4 y3] s3].
    eapply IH; [|exact E]. intros Hs3. eapply Hput; eauto. }
  unfold read_from in H. ok_inv H q. destruct q as [[b2 y] s]. eapply Hy; [|exact H|reflexivity].
  intros Hs. eapply Hi; [|exact E|exact Hs]. discriminate.
Qed.

(** [reply] succeeds iff no byte of the response was taken by [get] and the
    array is large enough. *)
Theorem C44_complete : forall (X : Type) p dbl (kr : keyring X) ft b x b1 a1 x1 m dest k n garbage,
  wf_platform p -> keyring_ok p kr -> well_sized dbl kr ft ->
  resolves p b x b1 x1 -> reached p dbl kr ft b1 a1 x1 -> reply_key k n -> Forall is_byte garbage ->
  let resp := mc_out a1 in
  exists b2 vs, run_ops p (repeat Get m) b1 x1 = Ok (b2, x1, vs)
    /\ ((m = 0 \/ resp = []) /\ length resp <= n ->
        match push dest (reply_request k (reply_buffer n garbage resp)) x1 with
        | Ok x3 => exists b3, reply p dest k garbage b2 x1 = Some (Ok (b3, x3, true)) /\ is_loaded b3 = false
        | Fault flt => reply p dest k garbage b2 x1 = Some (Fault flt)
        end)
    /\ (~ ((m = 0 \/ resp = []) /\ length resp <= n) -> reply p dest k garbage b2 x1 = Some (Ok (b2, x1, false))).
Proof.
  intros X p dbl kr ft b x b1 a1 x1 m dest k n garbage Hp Hk Hs Hres H Hkey Hg resp.
  destruct (reached_gets p dbl kr ft Hp Hk Hs m b1 a1 x1 H) as (b2 & E2 & H2).
  exists b2. eexists. split; [exact E2|].
  pose proof (resolves_next X p b x b1 x1 Hres) as E0.
  assert (Ebot : forall m b b2 y vs, run_ops p (repeat Get m) b y = Ok (b2, y, vs) -> b_obuf_bottom b2 = b_obuf_bottom (X := X) b).
  { clear. induction m as [|m IH]; intros b b2 y vs E; cbn [repeat run_ops] in E; [congruence|].
    ok_inv E q. destruct q as [[b3 y3] v]. ok_inv E q1. destruct q1 as [[b4 y4] vs4]. cbn [step] in E0.
    ok_inv E0 q2. destruct q2 as [b5 c]. assert (b5 = b3 /\ y3 = y) as [-> ->] by (split; congruence).
    assert (b4 = b2 /\ y4 = y) as [-> ->] by (split; congruence).
    rewrite (IH _ _ _ _ E1). unfold get_byte in E2. destruct (is_loaded b); [|congruence].
    ok_inv E2 q3. injection E2 as <- _. reflexivity. }
  apply Ebot in E2. clear Ebot.
  destruct (reached_represents p dbl kr ft Hp Hk Hs b1 a1 x1 H) as (ni & no & _ & _ & R1).
  destruct (reached_represents p dbl kr ft Hp Hk Hs b2 _ x1 H2) as (ni2 & no2 & _ & _ & R2).
  assert (B1 : b_obuf_next b1 + length (mc_out a1) = b_obuf_bottom b1) by apply R1.
  assert (B2 : b_obuf_next b2 + length (skipn m (mc_out a1)) = b_obuf_bottom b2) by apply R2.
  rewrite skipn_length in B2. fold resp in B1, B2.
  pose proof (C44_reply X p dbl kr ft b2 _ x1 dest k n garbage Hp Hk Hs H2 Hkey Hg) as C. cbn [mc_out mc_in mc_table] in C.
  fold resp in C. split.
  - intros [Hm Hl].
    assert (Esk : skipn m resp = resp) by (destruct Hm as [-> | Er]; [reflexivity|rewrite Er; apply skipn_nil]).
    assert (En : b_obuf_next b2 = 0) by (destruct Hm as [-> | Er]; [|rewrite Er in *; cbn [length] in *]; lia).
    rewrite Esk, En in C. destruct (Nat.leb_spec (length resp) n) as [_|]; [|lia]. cbn [Nat.eqb andb] in C.
    destruct (push dest _ x1) as [x3|flt]; [|exact C]. destruct C as (b3 & C1 & _ & C3). exists b3. auto.
  - intros Hno. destruct (Nat.eqb_spec (b_obuf_next b2) 0) as [En|En]; cbn [andb] in C; [|exact C].
    assert (Hm : m = 0 \/ resp = []).
    { destruct resp as [|c l]; auto. left. cbn [length] in *. lia. }
    destruct (Nat.leb_spec (length (skipn m resp)) n) as [Hl|Hl]; [|exact C].
    exfalso. apply Hno. split; auto. destruct Hm as [-> | Er]; [exact Hl|rewrite Er; cbn; lia].
Qed.

(** A peer which receives the request runs the callback designated by the key
    on the array. *)
Theorem C44_peer : forall (S : Type) q dbl (kr : keyring S) ft b a i name (g : func S) n buf rest out s s' r,
  wf_platform q -> keyring_ok q kr -> well_sized dbl kr ft ->
  nth_error (kr_funcs kr) i = Some (name, g) -> sig_params (f_sig g) = [TArr (TUns 1) n] ->
  length buf = n -> Forall is_byte buf ->
  f_call g [VList (map VInt buf)] s = (s', r) -> ret_encodable q (kr_m kr) (sig_ret (f_sig g)) r ->
  reached q dbl (lift_keyring kr) ft b a (mk_wires (reply_request (mk_key (kr_index_size kr) i (f_sig g) (kr_e kr) (kr_m kr)) buf ++ rest) out s) ->
  mc_in a = [] -> quiet dbl a -> nth_error (mc_table a) i = Some (lift_func g) ->
  exists b', read_from q take_wire b
      (mk_wires (reply_request (mk_key (kr_index_size kr) i (f_sig g) (kr_e kr) (kr_m kr)) buf ++ rest) out s)
    = Ok (b', mk_wires rest out s', RESOLVED_PACKET).
Proof.
  intros S q dbl kr ft b a i name g n buf rest out s s' r Hq Hk Hs Hn Hpar Hl Hb Hcall Hret H Hin Hqt Hi.
  set (args := [VList (map VInt buf)]) in *.
  assert (Epk : packet (lift_keyring kr) i (lift_func g) args
                = reply_request (mk_key (kr_index_size kr) i (f_sig g) (kr_e kr) (kr_m kr)) buf).
  { unfold packet, request, reply_request. cbn [lift_func f_sig lift_keyring kr_e kr_m k_e k_index_size k_index].
    rewrite Hpar. unfold args. cbn [enc_list]. rewrite enc_byte_array by auto. rewrite app_nil_r. f_equal. f_equal.
    unfold kr_index_size. rewrite <- (lift_funcs_length S kr). reflexivity. }
  rewrite <- Epk in *.
  assert (Hk' : keyring_ok q (lift_keyring kr)).
  { destruct Hk as [H1 H2]. split; [rewrite lift_funcs_length; auto|].
    unfold lift_keyring. cbn [kr_funcs kr_e kr_m]. apply Forall_map. exact H2. }
  assert (Hs' : well_sized dbl (lift_keyring kr) ft).
  { assert (E1 : kr_signatures (lift_keyring kr) = kr_signatures kr).
    { unfold kr_signatures, lift_keyring. cbn [kr_funcs]. rewrite map_map. reflexivity. }
    assert (E2 : kr_index_size (lift_keyring kr) = kr_index_size kr).
    { unfold kr_index_size. rewrite lift_funcs_length. reflexivity. }
    unfold well_sized, out_capacity, max_native in *. rewrite E1, E2. exact Hs. }
  assert (Hc : calls q (lift_keyring kr) (lift_func g) args (mk_wires rest out s) (mk_wires rest out s') r).
  { split; [|split].
    - cbn [lift_func f_sig lift_keyring kr_m]. rewrite Hpar. constructor; [|constructor].
      rewrite <- Hl. apply byte_array_encodable. auto.
    - cbn [lift_func f_call w_user w_in w_out]. rewrite Hcall. reflexivity.
    - exact Hret. }
  destruct (C39_resolved (wires S) q dbl (lift_keyring kr) ft b a _ take_wire i (lift_func g) args 0
              (mk_wires rest out s) (mk_wires rest out s') r Hq Hk' Hs' H Hqt Hi Hc) as (b' & E & _).
  - rewrite (packet_length q (lift_keyring kr) i (lift_func g) args _ _ r Hc).
    destruct (index_size _ (lift_keyring kr) ltac:(apply Hk')) as ((Hw & _) & _). lia.
  - exact Hin.
  - rewrite Nat.sub_0_r. cbn [skipn]. apply take_wires.
  - exists b'. exact E.
Qed.

(** The peer reads the value in the array with the key of the callback which
    returned it. *)
Theorem C44_recovered : forall (X Y : Type) q (kr : keyring X) (f : func X) k0 n garbage r src (y y' : Y),
  wf_platform q -> k_sig k0 = f_sig f -> k_e k0 = kr_e kr -> k_m k0 = kr_m kr ->
  ret_ty_ok q (kr_e kr) (kr_m kr) (sig_ret (f_sig f)) -> ret_encodable q (kr_m kr) (sig_ret (f_sig f)) r ->
  pull src (wire_size_ret (sig_ret (f_sig f))) y
    = Ok (y', firstn (wire_size_ret (sig_ret (f_sig f))) (reply_buffer n garbage (answer kr f r))) ->
  key_read q k0 src y = Ok (y', option_map (fun _ => r) (sig_ret (f_sig f))).
Proof.
  intros X Y q kr f k0 n garbage r src y y' Hq Hsig He Hm Hok Hr Hpull.
  rewrite <- Hsig in *. rewrite <- He, <- Hm in *. apply C28_returns; auto. rewrite Hpull. do 2 f_equal.
  unfold answer. rewrite <- He, <- Hm, <- Hsig. unfold reply_buffer.
  assert (E : wire_size_ret (sig_ret (k_sig k0)) = length (response (k_e k0) (k_m k0) (sig_ret (k_sig k0)) r)).
  { destruct (sig_ret (k_sig k0)) as [t|]; cbn [wire_size_ret response ret_encodable] in *; [|reflexivity].
    symmetry. apply enc_length. apply Hr. }
  rewrite E. apply firstn_app_exact.
Qed.

(** A dispatcher which never ran anything replies too, and sends what was in the
    memory: [true] does not mean there was a response. *)
Theorem C44_nothing_to_reply : forall (X : Type) p dbl (kr : keyring X) ft g g' b dest k n garbage x,
  wf_platform p -> keyring_ok p kr -> well_sized dbl kr ft -> make_buffered dbl kr ft g g' = Some b ->
  reply_key k n -> Forall is_byte garbage -> length garbage = n ->
  is_loaded b = false
  /\ match push dest (reply_request k garbage) x with
     | Ok x' => exists b', reply p dest k garbage b x = Some (Ok (b', x', true))
     | Fault flt => reply p dest k garbage b x = Some (Fault flt)
     end.
Proof.
  intros X p dbl kr ft g g' b dest k n garbage x Hp Hk Hs Hb Hkey Hg Hn.
  pose proof (reached_new p dbl kr ft g g' b x Hb) as H.
  split; [rewrite (reached_loaded p dbl kr ft Hp Hk Hs b _ x H); reflexivity|].
  pose proof (C44_reply X p dbl kr ft b _ x dest k n garbage Hp Hk Hs H Hkey Hg) as C. cbn [fresh mc_out length] in C.
  assert (E0 : b_obuf_next b = 0).
  { unfold make_buffered, make_double, make_single in Hb.
    destruct (needed_input_buffer_size kr) as [i|], (needed_output_buffer_size kr) as [o|], dbl; try discriminate;
      try (destruct (max17 [i; o]); [|discriminate]); injection Hb as <-; reflexivity. }
  rewrite E0 in C. cbn [Nat.eqb Nat.leb andb] in C.
  assert (Eb : reply_buffer n garbage [] = garbage).
  { unfold reply_buffer. cbn [length skipn app]. rewrite <- Hn. apply firstn_app_exact. }
  rewrite Eb in C. destruct (push dest (reply_request k garbage) x); [|exact C]. destruct C as (b' & C & _). exists b'. exact C.
Qed.

(** The response of [add] goes to a callback of a peer. *)
Definition ex_reply_key : key := mk_key 1 3 (mk_sig [TArr (TUns 1) 6] None) LITTLE TWOS_COMPLEMENT.

Example C44_example : exists b,
  make_buffered true (lift_keyring ex_keyring) ANY [] [] = Some b
  /\ reply_key ex_reply_key 6
  /\ (exists b1 x1,
        read_from pc_native take_wire b (mk_wires [0; 255; 254; 5; 2]%Z [] []) = Ok (b1, x1, RESOLVED_PACKET)
        (* the whole response *)
        /\ (exists b2, reply pc_native give_wire ex_reply_key [9; 9; 9; 9; 8; 8]%Z b1 x1
              = Some (Ok (b2, mk_wires [2]%Z [3; 0; 0; 0; 3; 8; 8]%Z [(0, [VInt (-2); VInt 5])], true))
            /\ is_loaded b2 = false)
        (* a part of it was sent *)
        /\ exists b2 c, get_byte b1 = Ok (b2, c)
           /\ reply pc_native give_wire ex_reply_key [9; 9; 9; 9; 8; 8]%Z b2 x1 = Some (Ok (b2, x1, false)))
  /\ key_read pc_native ex_key_add take_wire (mk_wires [0; 0; 0; 3; 8; 8]%Z [] tt)
     = Ok (mk_wires [8; 8]%Z [] tt, Some (VInt 3)).
Proof.
  eexists. split; [reflexivity|]. split; [repeat split; cbn; lia|]. split; [|vm_compute; reflexivity].
  eexists. eexists. split; [vm_compute; reflexivity|]. split.
  - eexists. split; [vm_compute; reflexivity|]. vm_compute. reflexivity.
  - eexists. eexists. split; [vm_compute; reflexivity|]. vm_compute. reflexivity.
Qed.

(** The array is too small for the response. *)
Example C44_example_small : exists b,
  make_buffered false (lift_keyring ex_keyring) ANY [] [] = Some b
  /\ reply_key (mk_key 1 3 (mk_sig [TArr (TUns 1) 3] None) LITTLE TWOS_COMPLEMENT) 3
  /\ exists b1 x1,
        read_from pc_native take_wire b (mk_wires [0; 255; 254; 5; 2]%Z [] []) = Ok (b1, x1, RESOLVED_PACKET)
        /\ reply pc_native give_wire (mk_key 1 3 (mk_sig [TArr (TUns 1) 3] None) LITTLE TWOS_COMPLEMENT) [] b1 x1
           = Some (Ok (b1, x1, false)).
Proof.
  eexists. split; [reflexivity|]. split; [repeat split; cbn; lia|].
  eexists. eexists. split; [vm_compute; reflexivity|]. vm_compute. reflexivity.
Qed.

(** ** C47 *)

(** [d(buf, buf)]: the request is at [i], possibly started before, and the
    response goes to [o] of the same memory, wherever they are.  The outcome is
    that of separate memories (C48). *)
Theorem C47_buffered_in_place : forall (S : Type) p dbl (kr : keyring S) ft b a idx name f args j mem i o s s' r,
  wf_platform p -> keyring_ok p (lift_keyring_in_place kr) -> well_sized dbl (lift_keyring_in_place kr) ft ->
  let kr' := lift_keyring_in_place kr in
  let req := request (kr_e kr) (kr_m kr) (kr_index_size kr') idx (sig_params (f_sig f)) args in
  let resp := response (kr_e kr) (kr_m kr) (sig_ret (f_sig f)) r in
  reached p dbl kr' ft b a (mk_in_place mem i o s) -> quiet dbl a -> mc_table a = map snd (kr_funcs kr') ->
  nth_error (kr_funcs kr) idx = Some (name, f) ->
  Forall2 (encodable p (kr_m kr)) (sig_params (f_sig f)) args ->
  f_call f args s = (s', r) -> ret_encodable p (kr_m kr) (sig_ret (f_sig f)) r ->
  j < length req -> mc_in a = firstn j req ->
  slice mem i (length req - j) = skipn j req -> i + (length req - j) <= length mem -> o + length resp <= length mem ->
  exists b', process p in_place_source in_place_destination b (mk_in_place mem i o s)
             = Ok (b', mk_in_place (splice mem o resp) (i + (length req - j)) (o + length resp) s', RESOLVED_PACKET)
    /\ is_loaded b' = false.
Proof.
  intros S p dbl kr ft b a idx name f args j mem i o s s' r Hp Hk Hs kr' req resp H Hq Htab Hn Ha Hcall Hret Hj Hin Hmem Hi Ho.
  fold kr' in Hk, Hs.
  assert (Ht : nth_error (mc_table a) idx = Some (lift_in_place f)).
  { rewrite Htab. unfold kr', lift_keyring_in_place. cbn [kr_funcs]. rewrite map_map, nth_error_map, Hn. reflexivity. }
  assert (Hc : calls p kr' (lift_in_place f) args (mk_in_place mem (i + (length req - j)) o s)
                 (mk_in_place mem (i + (length req - j)) o s') r).
  { split; [exact Ha|]. split; [|exact Hret].
    cbn [lift_in_place f_call ip_world ip_mem ip_in ip_out]. rewrite Hcall. reflexivity. }
  pose proof (C48_resolved (in_place S) p dbl kr' ft b a (mk_in_place mem i o s) in_place_source in_place_destination
                idx (lift_in_place f) args j _ _ r Hp Hk Hs H Hq Ht Hc Hj Hin) as C.
  change (packet kr' idx (lift_in_place f) args) with req in C. change (answer kr' (lift_in_place f) r) with resp in C.
  rewrite pull_in_place, Hmem in C by lia. specialize (C eq_refl). rewrite push_in_place in C by lia.
  destruct C as (b' & E & H'). exists b'. split; [exact E|].
  rewrite (reached_loaded p dbl kr' ft Hp Hk Hs b' _ _ H'). reflexivity.
Qed.

(** Same start, and a response which overwrites bytes of the request. *)
Example C47_buffered_example : exists b,
  make_buffered false (lift_keyring_in_place ex_keyring) ANY [] [] = Some b
  /\ exists b', process pc_native in_place_source in_place_destination b (mk_in_place [0; 255; 254; 5; 66; 66]%Z 0 0 [])
       = Ok (b', mk_in_place [0; 0; 0; 3; 66; 66]%Z 4 4 [(0, [VInt (-2); VInt 5])], RESOLVED_PACKET).
Proof. eexists. split; [reflexivity|]. eexists. vm_compute. reflexivity. Qed.

Print Assumptions C44_reply.
Print Assumptions C44_complete.
Print Assumptions C44_peer.
Print Assumptions C44_recovered.
Print Assumptions C44_nothing_to_reply.
Print Assumptions C47_buffered_in_place.
