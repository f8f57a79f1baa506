(** Property C69: requests made before the responses of the requests before are
    received. *)

From Coq Require Import List ZArith Lia Bool Arith.
From Verif Require Import Base CInt Spec IntModel Conditions MemFacts TypeLevel Serial TupleModel
  TypeLevelProofs IntProofs SignedProofs SerialProofs CodecFacts Bounds TupleProofs SpecRpc Rpc RpcProofs
  Hosts Closed PropertiesTypes PropertiesRpc Buffered SpecBuffered BufferedProofs PropertiesBuffered
  PropertiesBuffers PropertiesPackets PropertiesStreams Network PropertiesNetwork Pipeline.
Import ListNotations.
Open Scope nat_scope.

(** ** Specification *)

(** The calls asked for. *)
Definition asked (ops : list operation) : list (key * list val) :=
  flat_map (fun o => match o with Ask k args => [(k, args)] | Receive _ _ => [] end) ops.

(** Responses are received in the order of the requests, after them; [queue]: the
    responses which are expected.  A call of a callback which returns nothing has
    no response. *)
Fixpoint in_order (queue : list key) (ops : list operation) : Prop :=
  match ops with
  | [] => queue = []
  | Ask k _ :: ops' =>
      in_order (queue ++ match sig_ret (k_sig k) with Some _ => [k] | None => [] end) ops'
  | Receive _ k :: ops' =>
      match queue with
      | [] => False
      | k' :: queue' => k' = k /\ in_order queue' ops'
      end
  end.

(** The values among the results of local calls. *)
Definition values (vs : list (option val)) : list val :=
  flat_map (fun o => match o with Some v => [v] | None => [] end) vs.

(** Each byte of a request is written and put; each byte of a response is read. *)
Definition turns_of_op (o : operation) : nat :=
  match o with
  | Ask k _ => 1 + 2 * (k_index_size k + wire_sizes (sig_params (k_sig k)))
  | Receive _ k => wire_size_ret (sig_ret (k_sig k)) + 1
  end.
Definition turns_of_ops (ops : list operation) : nat := list_sum (map turns_of_op ops).

(** ** The caller *)

(** The same thing with the responses expected. *)
Inductive program {X : Type} (p q : platform) (kr : keyring X)
  : list operation -> list (key * func X * val) -> X -> list val -> X -> Prop :=
| program_end : forall x, program p q kr [] [] x [] x
| program_ask : forall name f k args x x1 r ops queue vs x2,
    In (name, f) (kr_funcs kr) -> kr_get kr name f = Some k ->
    calls p kr f args x x1 r -> calls q kr f args x x1 r ->
    program p q kr ops (queue ++ match sig_ret (f_sig f) with Some _ => [(k, f, r)] | None => [] end) x1 vs x2 ->
    program p q kr (Ask k args :: ops) queue x vs x2
| program_receive : forall hooked k f r ops queue x vs x2,
    program p q kr ops queue x vs x2 ->
    program p q kr (Receive hooked k :: ops) ((k, f, r) :: queue) x (r :: vs) x2.

Lemma program_locally : forall (X : Type) p q (kr : keyring X) ops queue x ws x2,
  in_order (map (fun t => fst (fst t)) queue) ops -> locally p q kr (asked ops) x ws x2 ->
  program p q kr ops queue x (map snd queue ++ values ws) x2.
Proof.
  intros X p q kr. induction ops as [|[k args|hooked k] ops IH]; intros queue x ws x2 Ho Hl; cbn [in_order asked flat_map app] in *.
  - destruct (locally_inv _ _ _ _ _ _ _ _ Hl) as [(_ & -> & <-)|(name & f & k & args & x1 & r & reqs & vs & E & _)]; [|discriminate].
    destruct queue; [|discriminate]. constructor.
  - destruct (locally_inv _ _ _ _ _ _ _ _ Hl) as [(E & _)|(name & f & k' & args' & x1 & r & reqs & vs & E & -> & Hin & Hget & Hc & Hc' & Hl')];
      [discriminate|]. injection E as <- <- <-.
    destruct (key_fields kr name f k Hin Hget) as [_ Ek].
    assert (Es : sig_ret (k_sig k) = sig_ret (f_sig f)) by (rewrite Ek; reflexivity). rewrite Es in Ho.
    eapply program_ask; eauto.
    specialize (IH (queue ++ match sig_ret (f_sig f) with Some _ => [(k, f, r)] | None => [] end) x1 vs x2).
    rewrite !map_app in IH. rewrite <- app_assoc in IH.
    destruct (sig_ret (f_sig f)); cbn [map fst snd app option_map values flat_map] in *; apply IH; auto.
  - destruct queue as [|[[k' f] r] queue]; cbn [map fst snd] in Ho; [destruct Ho|]. destruct Ho as [-> Ho].
    cbn [map snd app]. apply program_receive. apply IH; auto.
Qed.

Lemma pull_recording : forall n l vs, pull recording_source n (l, vs) =
  ('(l', bs) <- pull list_source n l;; Ok ((l', vs), bs)).
Proof.
  induction n as [|n IH]; intros l vs; cbn [pull bind]; auto. unfold recording_source at 1. cbn [fst snd].
  destruct (list_source l) as [[l1 c]|e]; cbn [bind]; auto. rewrite IH.
  destruct (pull list_source n l1) as [[l2 bs]|e]; reflexivity.
Qed.

Section Receiving.
  Context {X : Type}.
  Variables (p : platform) (kr : keyring X).
  Hypothesis Hp : wf_platform p.
  Hypothesis Hk : keyring_ok p kr.
  Variables (name : nat) (f : func X) (k : key) (args : list val) (x x1 : X) (r : val).
  Hypothesis Hin : In (name, f) (kr_funcs kr).
  Hypothesis Hget : kr_get kr name f = Some k.
  Hypothesis Hc : calls p kr f args x x1 r.
  Hypothesis Hret : sig_ret (f_sig f) <> None.

  Lemma receive_ok : forall hooked vs, receive p hooked k (answer kr f r) vs = Ok (vs ++ [r]).
  Proof.
    intros hooked vs. destruct (key_fields kr name f k Hin Hget) as [_ Ek].
    pose proof (key_sig_ok p kr Hk name f Hin) as Hs. pose proof (answer_length p kr f args x x1 r Hc) as Hl.
    destruct (sig_ret (f_sig f)) as [t|] eqn:Er; [|congruence].
    destruct hooked; unfold receive.
    - rewrite C34_input_only.
      pose proof (C34_hook _ p ANY k (recorder k) recording_source (fun _ y => Ok y) (answer kr f r, vs) ([], vs) r Hp) as H.
      rewrite Ek in H at 1 2 3 4 5 6 7 8 9. cbn [k_e k_m k_sig recorder f_sig sig_params sig_ret] in H.
      rewrite Ek in H. cbn [k_e k_m k_sig] in H. rewrite Er in H. cbn [f_call snd fst] in H.
      rewrite Ek. rewrite H; auto.
      + split; [|exact I]. destruct Hs as [_ Hs]. rewrite Er in Hs. cbn [ret_ty_ok sig_params] in *.
        constructor; [apply Hs|constructor].
      + destruct Hc as (_ & _ & Hr). rewrite Er in Hr. exact Hr.
      + rewrite pull_recording, <- Hl, pull_list by lia. rewrite skipn_all, firstn_all. cbn [bind].
        unfold answer. rewrite Er. reflexivity.
      + exact I.
    - rewrite (key_read_ok p kr Hp Hk name f k args x x1 r Hin Hget Hc). rewrite Er. reflexivity.
  Qed.

  Lemma receive_waits : forall hooked bs vs, length bs < length (answer kr f r) ->
    receive p hooked k bs vs = Fault NoInput.
  Proof.
    intros hooked bs vs Hlt. destruct (key_fields kr name f k Hin Hget) as [_ Ek].
    pose proof (key_sig_ok p kr Hk name f Hin) as Hs. pose proof (answer_length p kr f args x x1 r Hc) as Hl.
    destruct hooked; unfold receive.
    - destruct (sig_ret (f_sig f)) as [t|] eqn:Er; [|congruence].
      rewrite C34_input_only. erewrite C29_no_input; [reflexivity|exact Hp|reflexivity|..].
      + cbn [m_func m_e m_m recorder f_sig]. rewrite Ek. cbn [k_e k_m k_sig]. rewrite Er.
        split; [|exact I]. destruct Hs as [_ Hs]. rewrite Er in Hs. cbn [ret_ty_ok sig_params] in *.
        constructor; [apply Hs|constructor].
      + cbn [m_func recorder f_sig sig_params]. rewrite Ek. cbn [k_sig]. rewrite Er, pull_recording.
        unfold wire_sizes. cbn [map list_sum fold_right]. rewrite Nat.add_0_r. cbn [wire_size_ret] in Hl.
        rewrite pull_list_short by lia. reflexivity.
    - rewrite (key_read_waits p kr Hp Hk name f k args x x1 r Hin Hget Hc) by auto. reflexivity.
  Qed.
End Receiving.

(** ** The callees *)

(** [awaits i st x]: the callee in the state [st] received the beginning [i] of a
    packet. *)
Definition serves {S X : Type} (q : platform) (kr : keyring X) (serve : server S X)
    (awaits : list Z -> S -> X -> Prop) : Prop :=
  forall i st x n name f args x1 r c,
    awaits i st x -> nth_error (kr_funcs kr) n = Some (name, f) -> calls q kr f args x x1 r ->
    i ++ [c] = firstn (Datatypes.S (length i)) (packet kr n f args) ->
    (Datatypes.S (length i) < length (packet kr n f args) ->
       exists st', serve c st x = Ok (st', x, []) /\ awaits (i ++ [c]) st' x)
    /\ (i ++ [c] = packet kr n f args ->
       exists st', serve c st x = Ok (st', x1, answer kr f r) /\ awaits [] st' x1).

Definition buffered_awaits {X : Type} (q : platform) dbl (kr : keyring X) ft (i : list Z) (b : buffered X) (x : X) : Prop :=
  exists a, reached q dbl kr ft b a x /\ mc_table a = map snd (kr_funcs kr) /\ mc_in a = i /\ mc_out a = [].

Lemma push_skip : forall (X : Type) bs (x : X), push (fun _ y => Ok y) bs x = Ok x.
Proof. induction bs; intros; cbn [push bind]; auto. Qed.

Lemma buffered_serves : forall (X : Type) q dbl (kr : keyring X) ft, wf_platform q -> keyring_ok q kr -> well_sized dbl kr ft ->
  serves q kr (buffered_server q) (buffered_awaits q dbl kr ft).
Proof.
  intros X q dbl kr ft Hq Hk Hs i b x n name f args x1 r c (a & H & Htab & <- & Hout) Hn Hc Hpre.
  pose proof (reached_table q dbl kr ft Hq Hk Hs b a x H) as Ht.
  assert (Hi : nth_error (mc_table a) n = Some f) by (rewrite Htab, nth_error_map, Hn; reflexivity).
  assert (Hb : is_byte c).
  { pose proof (packet_bytes kr n f args) as Hb. rewrite Forall_forall in Hb. apply Hb.
    rewrite <- (firstn_skipn (S (length (mc_in a))) (packet kr n f args)), <- Hpre.
    apply in_or_app. left. apply in_or_app. right. left. reflexivity. }
  assert (W : forall b1 a1 y, reached q dbl kr ft b1 a1 y ->
            exists b2, write_to (fun (z : Z) l => Ok (l ++ [z])) b1 [] = Ok (b2, mc_out a1)
              /\ reached q dbl kr ft b2 (mk_machine (mc_in a1) [] (mc_table a1)) y).
  { intros b1 a1 y H1. destruct (reached_represents q dbl kr ft Hq Hk Hs b1 a1 y H1) as (ni & no & R1 & R2 & R3).
    pose proof (reached_write q dbl kr ft Hq Hk Hs b1 a1 y (fun _ y => Ok y) H1) as G. rewrite push_skip in G.
    destruct G as (b2 & E2 & H2). rewrite (write_to_ok kr ft ni no dbl R1 _ _ _ _ _ R3) in E2. rewrite (write_to_ok kr ft ni no dbl R1 _ _ _ _ _ R3).
    rewrite push_skip in E2. rewrite push_list. cbn [bind app] in *. exists (advance b1 (length (mc_out a1))).
    split; [reflexivity|]. injection E2 as ->. exact H2. }
  split.
  - intros Hlt.
    destruct (received_prefix q kr Hk (mc_table a) Ht n f args x x1 r a (S (length (mc_in a))) x Hi Hc) as [Hrec Hsv]; auto.
    destruct (reached_step q dbl kr ft Hq Hk Hs (Put c) b a x (mk_machine (mc_in a ++ [c]) (mc_out a) (mc_table a)) x
                (OStatus LOADING_PACKET) H) as (b2 & S2 & H2).
    { split; [|right; exact Hout]. cbn [step_ok]. rewrite Hpre. auto. }
    { cbn [mc_step]. unfold mc_put. rewrite Hpre, Hrec. reflexivity. }
    cbn [step] in S2. ok_inv S2 t. destruct t as [[b3 x3] st]. injection S2 as -> -> ->.
    destruct (W _ _ _ H2) as (b4 & E4 & H4). cbn [mc_in mc_out mc_table] in *. rewrite Hout in E4.
    exists b4. unfold buffered_server. match goal with E : put _ _ _ _ = Ok _ |- _ => rewrite E end. cbn [bind]. rewrite E4. split; [reflexivity|].
    eexists. split; [exact H4|]. auto.
  - intros Epk.
    destruct (received_packet q kr Hk (mc_table a) Ht n f args x x1 r a Hi Hc eq_refl) as [Hrec Hsv].
    destruct (reached_step q dbl kr ft Hq Hk Hs (Put c) b a x (mk_machine [] (answer kr f r) (mc_table a)) x1
                (OStatus RESOLVED_PACKET) H) as (b2 & S2 & H2).
    { split; [|right; exact Hout]. cbn [step_ok]. rewrite Epk. auto. }
    { cbn [mc_step]. unfold mc_put. rewrite Epk, Hrec. reflexivity. }
    cbn [step] in S2. ok_inv S2 t. destruct t as [[b3 x3] st]. injection S2 as -> -> ->.
    destruct (W _ _ _ H2) as (b4 & E4 & H4). cbn [mc_in mc_out mc_table] in *.
    exists b4. unfold buffered_server. match goal with E : put _ _ _ _ = Ok _ |- _ => rewrite E end. cbn [bind]. rewrite E4. split; [reflexivity|].
    eexists. split; [exact H4|]. auto.
Qed.

Definition blocking_awaits {X : Type} (i l : list Z) (x : X) : Prop := l = i.

Lemma pull_short : forall (S : Type) n bs out (s : S), length bs < n ->
  pull take_wire n (mk_wires bs out s) = Fault NoInput.
Proof.
  intros S. induction n as [|n IH]; intros bs out s H; [lia|]. destruct bs as [|b bs]; cbn in *; auto.
  rewrite IH by lia. reflexivity.
Qed.

Lemma lift_keyring_ok : forall (X : Type) q (kr : keyring X), keyring_ok q kr -> keyring_ok q (lift_keyring kr).
Proof.
  intros X q kr [L F]. split; [rewrite lift_funcs_length; exact L|].
  unfold lift_keyring. cbn [kr_funcs kr_e kr_m]. rewrite Forall_map. exact F.
Qed.

Lemma blocking_serves : forall (X : Type) q (kr : keyring X) ft, wf_platform q -> keyring_ok q kr ->
  serves q kr (blocking_server q (make_dispatcher (lift_keyring kr) ft)) blocking_awaits.
Proof.
  intros X q kr ft Hq Hk i l x n name f args x1 r c -> Hn Hc Hpre.
  destruct (lift_keyring_ok X q kr Hk) as [L F].
  assert (Hlt : n < length (kr_funcs kr)) by (apply nth_error_Some; congruence).
  assert (Hni : nth_error (kr_funcs (lift_keyring kr)) n = Some (name, lift_func f)).
  { cbn [lift_keyring kr_funcs]. rewrite nth_error_map, Hn. reflexivity. }
  assert (Hsf : sig_ok q (kr_e kr) (kr_m kr) (f_sig f)).
  { rewrite Forall_forall in F. apply (F (name, lift_func f)). eapply nth_error_In; eauto. }
  set (d := make_dispatcher (lift_keyring kr) ft).
  assert (Ew : kr_index_size (d_keyring d) = kr_index_size kr).
  { unfold d, kr_index_size. cbn [make_dispatcher d_keyring lift_keyring kr_funcs]. rewrite map_length. reflexivity. }
  set (w := kr_index_size kr) in *.
  assert (Epk : packet kr n f args = wire_bytes (kr_e kr) w (Z.of_nat n)
                  ++ enc_list (kr_e kr) (kr_m kr) (sig_params (f_sig f)) args) by reflexivity.
  set (ib := wire_bytes (kr_e kr) w (Z.of_nat n)) in *.
  assert (Lib : length ib = w) by apply wire_bytes_length.
  assert (Lps : length (enc_list (kr_e kr) (kr_m kr) (sig_params (f_sig f)) args) = wire_sizes (sig_params (f_sig f))).
  { apply enc_list_length. eapply encodable_has. apply Hc. }
  (* the index is read, the action runs *)
  assert (D : forall rest, dispatch q d take_wire give_wire (mk_wires (ib ++ rest) [] x)
            = (x2 <- run q (make_action ft (kr_e kr) (kr_m kr) (lift_func f)) take_wire give_wire (mk_wires rest [] x);; Ok (x2, n))).
  { intros rest.
    assert (E : pull take_wire (kr_index_size (d_keyring d)) (mk_wires (ib ++ rest) [] x) = Ok (mk_wires rest [] x, ib)).
    { rewrite Ew, <- Lib. apply take_wires. }
    unfold dispatch. rewrite get_index_ok; auto.
    2:{ intros y bs H. rewrite E in H. injection H as <- <-. apply wire_bytes_bytes. }
    rewrite E. cbn [bind].
    change (kr_e (d_keyring d)) with (kr_e kr).
    assert (Ei : Z.to_nat (wire_value (kr_e kr) ib) = n).
    { unfold ib. apply (wire_index _ kr (kr_e kr) n ltac:(apply Hk) Hlt). }
    rewrite Ei.
    destruct (index_size _ _ L) as (_ & _ & Hsize). unfold d_size. change (d_keyring d) with (lift_keyring kr). rewrite Hsize.
    rewrite lift_funcs_length. destruct (Nat.ltb_spec n (length (kr_funcs kr))); [|lia].
    unfold action_at. unfold d at 1. cbn [make_dispatcher d_actions]. rewrite nth_error_map, Hni. reflexivity. }
  assert (Hm : action_model (make_action ft (kr_e kr) (kr_m kr) (lift_func f)) = Some (mk_model (kr_e kr) (kr_m kr) (lift_func f)))
    by (destruct ft; reflexivity).
  split.
  - intros Hl. exists (i ++ [c]). split; [|reflexivity]. unfold blocking_server.
    assert (E : dispatch q d take_wire give_wire (mk_wires (i ++ [c]) [] x) = Fault NoInput).
    { rewrite Hpre. destruct (Nat.lt_ge_cases (S (length i)) w) as [Hs|Hs].
      - assert (E : pull take_wire (kr_index_size (d_keyring d)) (mk_wires (firstn (S (length i)) (packet kr n f args)) [] x)
                    = Fault NoInput).
        { apply pull_short. rewrite Ew, firstn_length. lia. }
        unfold dispatch. rewrite get_index_ok; auto.
        + rewrite E. reflexivity.
        + intros y bs H. rewrite E in H. discriminate.
      - rewrite Epk, firstn_app, firstn_all2, D by lia.
        erewrite C29_no_input; [reflexivity|exact Hq|exact Hm|exact Hsf|].
        apply pull_short. cbn [m_func lift_func f_sig]. rewrite firstn_length.
        rewrite Epk, app_length in Hl. lia. }
    rewrite E. reflexivity.
  - intros Ei. exists []. split; [|reflexivity]. unfold blocking_server. rewrite Ei, Epk, D.
    assert (Epull : pull take_wire (wire_sizes (sig_params (f_sig f)))
                      (mk_wires (enc_list (kr_e kr) (kr_m kr) (sig_params (f_sig f)) args) [] x)
                    = Ok (mk_wires [] [] x, enc_list (kr_e kr) (kr_m kr) (sig_params (f_sig f)) args)).
    { rewrite <- Lps. rewrite <- (app_nil_r (enc_list _ _ _ args)) at 2. apply take_wires. }
    destruct Hc as (Ha & Hf & Hr).
    assert (Edec : dec_list (kr_e kr) (kr_m kr) (sig_params (f_sig f)) (enc_list (kr_e kr) (kr_m kr) (sig_params (f_sig f)) args) = args).
    { apply (dec_list_enc_list q); auto. eapply tys_wf; apply Hsf. }
    rewrite (C29_read_call_write _ q _ _ _ _ _ Hq Hm); cbn [m_e m_m m_func]; rewrite ?lift_sig; auto.
    + rewrite Epull. cbn [bind]. rewrite Edec. cbn [lift_func f_call w_user w_in w_out]. rewrite Hf, give_wires. reflexivity.
    + intros y bs H1. rewrite ?lift_sig in *. rewrite Epull in H1. injection H1 as <- <-. split; [apply enc_list_bytes|].
      split; [apply encodable_decodable_list; auto; eapply tys_wf; apply Hsf|].
      rewrite Edec. cbn [lift_func f_call w_user w_in w_out]. rewrite Hf. exact Hr.
Qed.

(** ** The whole *)

Lemma app_inv_head_len : forall (a b c d : list Z), a ++ b = c ++ d -> length a = length c -> a = c /\ b = d.
Proof.
  induction a as [|x a IH]; intros b [|y c] d E L; cbn [length] in L; try lia; cbn [app] in E; auto.
  injection E as -> E. destruct (IH b c d E ltac:(lia)) as [-> ->]. auto.
Qed.

Section System.
  Context {S X : Type}.
  Variables (p q : platform) (kr : keyring X) (serve : server S X) (awaits : list Z -> S -> X -> Prop).
  Hypothesis Hp : wf_platform p.
  Hypothesis Hkp : keyring_ok p kr.
  Hypothesis Hkq : keyring_ok q kr.
  Hypothesis Hserve : serves q kr serve awaits.
  Variables (all : list val) (xl : X).

  Definition expected (t : key * func X * val) : Prop :=
    let '(k, f, r) := t in
    exists name args x x1, In (name, f) (kr_funcs kr) /\ kr_get kr name f = Some k /\ calls p kr f args x x1 r
      /\ sig_ret (f_sig f) <> None.
  Definition answer_of (t : key * func X * val) : list Z := let '(_, f, r) := t in answer kr f r.

  (** The callee received a part of the first of the packets to come. *)
  Definition part (srv : list (nat * list val)) (i : list Z) : Prop :=
    match srv with
    | [] => i = []
    | (n, args) :: _ => exists name f, nth_error (kr_funcs kr) n = Some (name, f) /\ length i < length (packet kr n f args)
    end.

  Lemma part_nil : forall srv x bytes outs x1, session q kr srv x bytes outs x1 -> part srv [].
  Proof.
    intros srv x bytes outs x1 H. destruct H as [|i name f args s s1 r reqs bytes outs s2 Hn Hc _]; cbn [part]; auto.
    exists name, f. split; auto. rewrite (packet_length q kr i f args s s1 r Hc). cbn [length].
    destruct (index_size X kr ltac:(apply Hkq)) as ((Hw & _) & _). lia.
  Qed.

  Lemma part_all : forall srv i x outs x1, part srv i -> session q kr srv x i outs x1 -> srv = [].
  Proof.
    intros srv i x outs x1 Hs H. remember i as bytes eqn:E. rewrite E in Hs.
    destruct H as [|n name f args s s1 r reqs bytes outs s2 Hn Hc _]; auto. exfalso.
    cbn [part] in Hs. destruct Hs as (name' & f' & Hn' & Hl). assert (f' = f) by congruence. subst f'.
    rewrite <- E, app_length in Hl. lia.
  Qed.

  Lemma session_snoc : forall srv x bytes outs x1 n name f args x2 r, session q kr srv x bytes outs x1 ->
    nth_error (kr_funcs kr) n = Some (name, f) -> calls q kr f args x1 x2 r ->
    session q kr (srv ++ [(n, args)]) x (bytes ++ packet kr n f args) (outs ++ answer kr f r) x2.
  Proof.
    intros srv x bytes outs x1 n name f args x2 r H Hn Hc.
    induction H as [x|n' name' f' args' x x1 r' srv bytes outs x3 Hn' Hc' H IH]; cbn [app].
    - rewrite <- (app_nil_r (packet kr n f args)), <- (app_nil_r (answer kr f r)). econstructor; eauto. constructor.
    - rewrite <- !app_assoc. econstructor; eauto.
  Qed.

  Lemma program_cost : forall ops t queue x vs x2, program p q kr ops (t :: queue) x vs x2 ->
    expected t -> length (answer_of t) < turns_of_ops ops.
  Proof.
    intros ops t queue x vs x2 H Ht. remember (t :: queue) as qs eqn:E. revert t queue E Ht.
    induction H as [x|name f k args x x1 r ops qs vs x2 Hin Hget Hc Hc' H IH|hooked k f r ops qs x vs x2 H IH]; intros t queue E Ht.
    - discriminate.
    - subst qs. cbn [app] in IH. specialize (IH _ _ eq_refl Ht). unfold turns_of_ops in *. cbn [map list_sum fold_right].
      fold (list_sum (map turns_of_op ops)). lia.
    - injection E as <- <-. destruct Ht as (name & args & y & y1 & Hin & Hget & Hc & _). cbn [answer_of].
      destruct (key_fields kr name f k Hin Hget) as [_ Ek].
      rewrite (answer_length p kr f args y y1 r Hc). unfold turns_of_ops. cbn [map list_sum fold_right turns_of_op].
      rewrite Ek. cbn [k_sig]. lia.
  Qed.

  Definition inv (n : nat) (s : pipeline S X) : Prop :=
    exists i srv bytes outs xe queue vs,
      awaits i (pl_state s) (pl_x s) /\ session q kr srv (pl_x s) bytes outs xe /\ part srv i
      /\ i ++ pl_up s ++ pl_unsent s = bytes
      /\ program p q kr (pl_ops s) queue xe vs xl /\ pl_results s ++ vs = all
      /\ Forall expected queue
      /\ pl_got s ++ pl_down s ++ outs = concat (map answer_of queue)
      /\ length (pl_got s) <= match queue with [] => 0 | t :: _ => length (answer_of t) end
      /\ n + length (pl_got s) = length (pl_up s) + 2 * length (pl_unsent s) + turns_of_ops (pl_ops s).

  Lemma inv_step : forall n s who, inv n s ->
    one_step p serve who s = Ok None \/ exists s' n', one_step p serve who s = Ok (Some s') /\ n = Datatypes.S n' /\ inv n' s'.
  Proof.
    intros n s who H.
    destruct H as (i & srv & bytes & outs & xe & queue & vs & Ha & Hses & Hpart & Hby & Hprog & Hres & Hexp & Hans & Hlen & Hn).
    destruct s as [ops unsent got results up down st x].
    cbn [pl_ops pl_unsent pl_got pl_results pl_up pl_down pl_state pl_x] in *.
    destruct who; cbn [one_step].
    - unfold caller_step. cbn [pl_ops pl_unsent pl_got pl_results pl_up pl_down pl_state pl_x].
      destruct unsent as [|c unsent].
      2:{ right. do 2 eexists. split; [reflexivity|]. split.
          2:{ exists i, srv, bytes, outs, xe, queue, vs.
              cbn [pl_ops pl_unsent pl_got pl_results pl_up pl_down pl_state pl_x].
              repeat (split; [auto; fail|]). split; [rewrite <- app_assoc; exact Hby|].
              repeat (split; [auto; fail|]). rewrite app_length. cbn [length].
              instantiate (1 := pred n). cbn [length] in Hn.
              assert (length got < turns_of_ops ops \/ length got = 0).
              { destruct queue as [|t queue]; [lia|]. left. inversion Hexp; subst.
                pose proof (program_cost _ _ _ _ _ _ Hprog H1). lia. }
              lia. }
          cbn [length] in Hn.
          assert (length got < turns_of_ops ops \/ length got = 0).
          { destruct queue as [|t queue]; [lia|]. left. inversion Hexp; subst.
            pose proof (program_cost _ _ _ _ _ _ Hprog H1). lia. }
          lia. }
      rewrite app_nil_r in Hby. cbn [length] in Hn.
      destruct ops as [|[k args|hooked k] ops]; [left; reflexivity| |].
      + (* a request *)
        right. inversion Hprog as [|name f k' args' x' x1 r ops' queue' vs' x2 Hin Hget Hc Hc' Hprog' E1 E2 E3 E4 E5|]; subst.
        rewrite (message_ok p kr Hp Hkp name f k args xe x1 r Hin Hget Hc). cbn [bind].
        destruct (key_fields kr name f k Hin Hget) as [Hnth Ek].
        pose proof (session_snoc srv x _ outs xe (k_index k) name f args x1 r Hses Hnth Hc') as Hses'.
        pose proof (packet_length p kr (k_index k) f args xe x1 r Hc) as Hpl.
        assert (Et : turns_of_ops (Ask k args :: ops) = 1 + 2 * length (packet kr (k_index k) f args) + turns_of_ops ops).
        { unfold turns_of_ops. cbn [map list_sum fold_right turns_of_op]. rewrite Hpl, Ek. reflexivity. }
        assert (Hcost : length got <= turns_of_ops ops).
        { destruct queue as [|t queue]; [lia|]. inversion Hexp; subst. cbn [app] in Hprog'.
          pose proof (program_cost _ _ _ _ _ _ Hprog' H1). lia. }
        do 2 eexists. split; [reflexivity|]. split.
        2:{ exists i, (srv ++ [(k_index k, args)]), ((i ++ up) ++ packet kr (k_index k) f args), (outs ++ answer kr f r), x1,
              (queue ++ match sig_ret (f_sig f) with Some _ => [(k, f, r)] | None => [] end), vs.
            cbn [pl_ops pl_unsent pl_got pl_results pl_up pl_down pl_state pl_x].
            split; [exact Ha|]. split; [exact Hses'|].
            split. { destruct srv as [|[m margs] srv]; [|exact Hpart]. cbn [part app] in *. rewrite Hpart.
                     exact (part_nil _ _ _ _ _ Hses'). }
            split; [rewrite <- app_assoc; reflexivity|]. split; [exact Hprog'|]. split; [exact Hres|].
            split. { apply Forall_app. split; [exact Hexp|]. destruct (sig_ret (f_sig f)) as [t|] eqn:Er; constructor; [|constructor].
                     exists name, args, xe, x1. repeat (split; [auto; fail|]). congruence. }
            split. { rewrite map_app, concat_app, !app_assoc, <- (app_assoc got down outs), Hans. f_equal.
                     unfold answer, response. destruct (sig_ret (f_sig f)) as [t|] eqn:Er; cbn [map concat answer_of]; auto.
                     unfold answer, response. rewrite Er, app_nil_r. reflexivity. }
            split. { destruct queue as [|t queue]; [|exact Hlen]. cbn [app]. lia. }
            instantiate (1 := pred n). lia. }
        lia.
      + (* a response *)
        inversion Hprog as [| |h' k' f r ops' queue' x' vs' x2 Hprog' E1 E2 E3 E4 E5]; subst.
        inversion Hexp as [|t l Ht Hexp']; subst. pose proof Ht as (name & args & y & y1 & Hin & Hget & Hc & Hret).
        destruct (key_fields kr name f k Hin Hget) as [_ Ek].
        cbn [answer_of map concat] in *.
        assert (Et : turns_of_ops (Receive hooked k :: ops) = length (answer kr f r) + 1 + turns_of_ops ops).
        { unfold turns_of_ops. cbn [map list_sum fold_right turns_of_op]. rewrite (answer_length p kr f args y y1 r Hc), Ek. reflexivity. }
        destruct (Nat.eq_dec (length got) (length (answer kr f r))) as [El|El].
        * assert (Eg : got = answer kr f r /\ down ++ outs = concat (map answer_of queue')).
          { apply app_inv_head_len in Hans; auto. }
          destruct Eg as [-> Hans'].
          right. rewrite (receive_ok p kr Hp Hkp name f k args y y1 r Hin Hget Hc Hret hooked results).
          do 2 eexists. split; [reflexivity|]. split.
          2:{ exists i, srv, (i ++ up), outs, xe, queue', vs'. cbn [pl_ops pl_unsent pl_got pl_results pl_up pl_down pl_state pl_x].
              rewrite app_nil_r. repeat (split; [auto; fail|]). split; [rewrite <- app_assoc; exact Hres|].
              split; [exact Hexp'|]. split; [exact Hans'|]. split; [cbn [length]; lia|]. cbn [length].
              instantiate (1 := pred n). lia. }
          lia.
        * rewrite (receive_waits p kr Hp Hkp name f k args y y1 r Hin Hget Hc Hret hooked got results) by lia.
          destruct down as [|c down]; [left; reflexivity|right].
          do 2 eexists. split; [reflexivity|]. split.
          2:{ exists i, srv, (i ++ up), outs, xe, ((k, f, r) :: queue'), (r :: vs').
              cbn [pl_ops pl_unsent pl_got pl_results pl_up pl_down pl_state pl_x].
              rewrite app_nil_r. repeat (split; [auto; fail|]).
              split; [cbn [map concat answer_of]; rewrite <- app_assoc; exact Hans|].
              rewrite app_length. cbn [length answer_of]. split; [lia|]. instantiate (1 := pred n). lia. }
          lia.
    - unfold callee_step. cbn [pl_ops pl_unsent pl_got pl_results pl_up pl_down pl_state pl_x].
      destruct up as [|c up]; [left; reflexivity|right]. cbn [app] in Hby.
      destruct Hses as [x|m name f args x x1 r reqs bytes outs xe Hnth Hc Hses].
      { cbn [part] in Hpart. subst i. discriminate. }
      cbn [part] in Hpart. destruct Hpart as (name' & f' & Hnth' & Hl). assert (f' = f) by congruence. subst f'.
      destruct (app_prefix _ _ _ _ _ Hby Hl) as [Hpre Hrest].
      destruct (Hserve i st x m name f args x1 r c Ha Hnth Hc Hpre) as [Hmore Hlast].
      assert (length got <= turns_of_ops ops).
      { destruct queue as [|t queue]; [lia|]. inversion Hexp; subst.
        pose proof (program_cost _ _ _ _ _ _ Hprog H1). lia. }
      destruct (Nat.eq_dec (Datatypes.S (length i)) (length (packet kr m f args))) as [El|El].
      + assert (Ei : i ++ [c] = packet kr m f args) by (rewrite Hpre; apply firstn_all2; lia).
        destruct (Hlast Ei) as (st' & E & Ha'). rewrite E. cbn [bind].
        do 2 eexists. split; [reflexivity|]. split.
        2:{ exists [], reqs, bytes, outs, xe, queue, vs. cbn [pl_ops pl_unsent pl_got pl_results pl_up pl_down pl_state pl_x].
            split; [exact Ha'|]. split; [exact Hses|]. split; [exact (part_nil _ _ _ _ _ Hses)|].
            split. { cbn [app]. rewrite Hrest, skipn_all2 by lia. reflexivity. }
            repeat (split; [auto; fail|]). split; [rewrite <- app_assoc; exact Hans|]. split; [exact Hlen|].
            instantiate (1 := pred n). cbn [length] in Hn. lia. }
        cbn [length] in Hn. lia.
      + destruct (Hmore ltac:(lia)) as (st' & E & Ha'). rewrite E. cbn [bind].
        do 2 eexists. split; [reflexivity|]. split.
        2:{ exists (i ++ [c]), ((m, args) :: reqs), (packet kr m f args ++ bytes), (answer kr f r ++ outs), xe, queue, vs.
            cbn [pl_ops pl_unsent pl_got pl_results pl_up pl_down pl_state pl_x].
            split; [exact Ha'|]. split; [econstructor; eauto|].
            split. { cbn [part]. exists name, f. split; auto. rewrite app_length. cbn [length]. lia. }
            split; [rewrite <- app_assoc; exact Hby|].
            repeat (split; [auto; fail|]). split; [rewrite app_nil_r; exact Hans|]. split; [exact Hlen|].
            instantiate (1 := pred n). cbn [length] in Hn. lia. }
        cbn [length] in Hn. lia.
  Qed.

  Lemma inv_complete : forall n s, inv n s ->
    (complete s = true <-> n = 0) /\ (n = 0 -> pl_results s = all /\ pl_x s = xl /\ pl_down s = [] /\ pl_got s = [])
    /\ (n <> 0 -> exists who s', one_step p serve who s = Ok (Some s')).
  Proof.
    intros n s H0. pose proof H0 as H.
    destruct H as (i & srv & bytes & outs & xe & queue & vs & Ha & Hses & Hpart & Hby & Hprog & Hres & Hexp & Hans & Hlen & Hn).
    assert (Hcost : length (pl_got s) <= turns_of_ops (pl_ops s) /\ (length (pl_got s) = turns_of_ops (pl_ops s) -> pl_ops s = [])).
    { destruct queue as [|t queue].
      - split; [lia|]. intros E. destruct (pl_ops s) as [|[k args|h k] ops]; auto; exfalso; assert (length (pl_got s) = 0) by lia;
          unfold turns_of_ops in E; cbn [map list_sum fold_right turns_of_op] in E; lia.
      - inversion Hexp as [|t' l' Ht' Hl']; subst. pose proof (program_cost _ _ _ _ _ _ Hprog Ht'). split; lia. }
    assert (Go : forall who, one_step p serve who s <> Ok None -> exists who s', one_step p serve who s = Ok (Some s')).
    { intros who Hw. destruct (inv_step n s who H0) as [E|(s' & n' & E & _)]; [contradiction|eauto]. }
    assert (Hup : pl_up s <> [] -> exists who s', one_step p serve who s = Ok (Some s')).
    { intros Hu. apply (Go false). cbn [one_step]. unfold callee_step. destruct (pl_up s) as [|c up]; [congruence|].
      destruct (serve c (pl_state s) (pl_x s)) as [[[st x] sent]|e]; cbn [bind]; discriminate. }
    assert (E0 : n = 0 -> pl_ops s = [] /\ pl_unsent s = [] /\ pl_up s = []).
    { intros ->. destruct Hcost as [C1 C2]. split; [apply C2; lia|].
      split; [destruct (pl_unsent s); cbn [length] in *; auto; lia|destruct (pl_up s); cbn [length] in *; auto; lia]. }
    assert (E1 : pl_ops s = [] -> pl_unsent s = [] -> pl_up s = [] -> queue = [] /\ vs = [] /\ xe = xl /\ srv = []).
    { intros F1 F2 F3. rewrite F1 in Hprog. rewrite F2, F3 in Hby. cbn [app] in Hby. rewrite app_nil_r in Hby. subst bytes.
      pose proof (part_all _ _ _ _ _ Hpart Hses) as Hsrv. inversion Hprog; auto. }
    split; [|split].
    - split.
      + intros Hc. unfold complete in Hc. destruct (pl_ops s) as [|o ops] eqn:F1; [|discriminate].
        destruct (pl_unsent s) as [|c u] eqn:F2; [|discriminate]. destruct (pl_up s) as [|c u] eqn:F3; [|discriminate].
        cbn [length] in Hn. unfold turns_of_ops in Hn. cbn in Hn. lia.
      + intros Hz. destruct (E0 Hz) as (F1 & F2 & F3). unfold complete. rewrite F1, F2, F3. reflexivity.
    - intros Hz. destruct (E0 Hz) as (F1 & F2 & F3). destruct (E1 F1 F2 F3) as (-> & -> & -> & ->).
      rewrite app_nil_r in Hres. inversion Hses; subst. cbn [map concat] in Hans.
      apply app_eq_nil in Hans as [G1 G2]. apply app_eq_nil in G2 as [G2 _]. auto.
    - intros Hz. destruct (pl_unsent s) as [|c u] eqn:F2.
      2:{ apply (Go true). cbn [one_step]. unfold caller_step. rewrite F2. discriminate. }
      destruct (pl_ops s) as [|[k args|h k] ops] eqn:F1.
      + apply Hup. intros F3. rewrite F3 in Hn. cbn in Hn. lia.
      + apply (Go true). cbn [one_step]. unfold caller_step. rewrite F2, F1. destruct (message p k args); discriminate.
      + destruct (pl_up s) as [|c u] eqn:F3; [|apply Hup; congruence].
        cbn [app] in Hby. rewrite app_nil_r in Hby. subst bytes.
        pose proof (part_all _ _ _ _ _ Hpart Hses) as ->. inversion Hses; subst. rewrite app_nil_r in Hans.
        inversion Hprog as [| |h' k' f r ops' queue' x' vs' x2 Hprog' E2 E3 E4 E5 E6]; subst.
        inversion Hexp as [|t l Ht Hexp']; subst. destruct Ht as (name & args & y & y1 & Hin & Hget & Hc & Hret).
        cbn [answer_of map concat] in *.
        apply (Go true). cbn [one_step]. unfold caller_step. rewrite F2, F1.
        destruct (pl_down s) as [|c down] eqn:F4.
        * assert (Eg : pl_got s = answer kr f r).
          { rewrite app_nil_r in Hans. rewrite Hans in Hlen |- *. rewrite app_length in Hlen.
            destruct (concat (map answer_of queue')) as [|c l]; [apply app_nil_r|cbn [length] in Hlen; lia]. }
          rewrite Eg, (receive_ok p kr Hp Hkp name f k args y y1 r Hin Hget Hc Hret h). discriminate.
        * destruct (receive p h k (pl_got s) (pl_results s)) as [l|[]]; discriminate.
  Qed.

  Lemma inv_steps : forall turns n s, inv n s ->
    exists s' d n', steps p serve turns s = Ok (s', d) /\ n = d + n' /\ inv n' s'.
  Proof.
    induction turns as [|who turns IH]; intros n s H; cbn [steps].
    - exists s, 0, n. auto.
    - destruct (inv_step n s who H) as [E|(s1 & n1 & E & -> & H1)]; rewrite E; cbn [bind].
      + apply IH; auto.
      + destruct (IH n1 s1 H1) as (s' & d & n' & E' & -> & H'). rewrite E'. cbn [bind].
        exists s', (Datatypes.S d), n'. auto.
  Qed.

  Lemma inv_begin : forall st x ops ws, awaits [] st x -> in_order [] ops -> locally p q kr (asked ops) x ws xl ->
    all = values ws -> inv (turns_of_ops ops) (begin ops st x).
  Proof.
    intros st x ops ws Ha Ho Hl Eall. exists [], [], [], [], x, [], (values ws).
    cbn [begin pl_ops pl_unsent pl_got pl_results pl_up pl_down pl_state pl_x].
    split; [exact Ha|]. split; [constructor|]. split; [reflexivity|]. split; [reflexivity|].
    split; [exact (program_locally X p q kr ops [] x ws xl Ho Hl)|]. split; [symmetry; exact Eall|]. split; [constructor|].
    split; [reflexivity|]. cbn [length]. split; lia.
  Qed.

  Lemma steps_idle : forall turns s s', steps p serve turns s = Ok (s', 0) ->
    forall who, In who turns -> one_step p serve who s = Ok None.
  Proof.
    induction turns as [|w turns IH]; intros s s' E who Hi; [destruct Hi|]. cbn [steps] in E.
    destruct (one_step p serve w s) as [[s1|]|e] eqn:Et; cbn [bind] in E; try discriminate.
    - destruct (steps p serve turns s1) as [[s2 d2]|e]; discriminate.
    - destruct Hi as [<-|Hi]; eauto.
  Qed.

  Lemma steps_app : forall t1 t2 s, steps p serve (t1 ++ t2) s =
    ('(s1, d1) <- steps p serve t1 s;; '(s2, d2) <- steps p serve t2 s1;; Ok (s2, d1 + d2)).
  Proof.
    induction t1 as [|who t1 IH]; intros t2 s; cbn [app steps bind].
    - destruct (steps p serve t2 s) as [[s2 d2]|e]; reflexivity.
    - destruct (one_step p serve who s) as [[s1|]|e]; cbn [bind]; auto. rewrite IH.
      destruct (steps p serve t1 s1) as [[s2 d2]|e]; cbn [bind]; auto.
      destruct (steps p serve t2 s2) as [[s3 d3]|e]; reflexivity.
  Qed.

  (** What C69 says of a callee. *)
  Definition pipelined (ops : list operation) (s0 : pipeline S X) : Prop :=
    (forall turns, exists s d, steps p serve turns s0 = Ok (s, d)
       /\ d <= turns_of_ops ops
       /\ (exists rest, pl_results s ++ rest = all)
       /\ (complete s = true <-> d = turns_of_ops ops)
       /\ (complete s = true -> pl_results s = all /\ pl_x s = xl /\ pl_down s = [] /\ pl_got s = [])
       /\ (complete s = false -> exists who s', one_step p serve who s = Ok (Some s')))
    /\ (forall rounds, Forall (fun turns => In true turns /\ In false turns) rounds -> turns_of_ops ops <= length rounds ->
       exists s, steps p serve (concat rounds) s0 = Ok (s, turns_of_ops ops)
         /\ complete s = true /\ pl_results s = all /\ pl_x s = xl).

  Lemma inv_pipelined : forall ops s0, inv (turns_of_ops ops) s0 -> pipelined ops s0.
  Proof.
    intros ops s0 H. split.
    - intros turns. destruct (inv_steps turns _ _ H) as (s & d & n & E & En & H').
      destruct (inv_complete n s H') as (H1 & H2 & H3).
      exists s, d. split; [exact E|]. split; [lia|].
      split. { destruct H' as (i & srv & bytes & outs & xe & queue & vs & _ & _ & _ & _ & _ & Hres & _). eauto. }
      split; [rewrite H1; lia|]. split.
      + intros F. apply H2, H1, F.
      + intros F. apply H3. intros E0. apply H1 in E0. congruence.
    - intros rounds Hr. remember (turns_of_ops ops) as n eqn:Hn0. clear Hn0. revert n s0 H.
      induction Hr as [|bl rounds Hbl Hr IH]; intros n s0 H Hn.
      + cbn [length] in Hn. assert (n = 0) by lia. subst n. cbn [concat steps]. exists s0. split; [reflexivity|].
        destruct (inv_complete 0 s0 H) as (H1 & H2 & _). split; [apply H1; reflexivity|].
        destruct (H2 eq_refl) as (R1 & R2 & _). auto.
      + cbn [concat]. rewrite steps_app.
        destruct (inv_steps bl n s0 H) as (s1 & d & n1 & E & En & H'). rewrite E. cbn [bind].
        destruct (IH n1 s1 H') as (s & E1 & F & R). 2:{ exists s. rewrite E1. cbn [bind]. subst n. auto. }
        cbn [length] in Hn. destruct d as [|d]; [|lia].
        destruct (Nat.eq_dec n 0) as [->|Hz]; [lia|].
        destruct (inv_complete n s0 H) as (_ & _ & H3).
        destruct (H3 Hz) as (who & s' & Ew). exfalso.
        assert (Hi : In who bl) by (destruct Hbl as (B1 & B2); destruct who; auto).
        rewrite (steps_idle _ _ _ E who Hi) in Ew. discriminate.
  Qed.
End System.

(** ** C69 *)

(** A dispatcher in a loop: whoever takes the turns, nothing undefined happens,
    the results so far are the first results of the local calls, someone can go
    on until everything is done, which takes a known number of turns of some
    effect; then the results and the world of the callee are those of the local
    calls and no byte is left.  If both take turns again and again, everything is
    done at last. *)
Theorem C69_dispatcher : forall (X : Type) p q (kr : keyring X) ft x ops ws x2,
  wf_platform p -> wf_platform q -> keyring_ok p kr -> keyring_ok q kr ->
  in_order [] ops -> locally p q kr (asked ops) x ws x2 ->
  pipelined p (blocking_server q (make_dispatcher (lift_keyring kr) ft)) (values ws) x2 ops (begin ops [] x).
Proof.
  intros X p q kr ft x ops ws x2 Hp Hq Hkp Hkq Ho Hl.
  apply inv_pipelined with (q := q) (kr := kr) (awaits := blocking_awaits); auto using blocking_serves.
  apply inv_begin with (ws := ws); auto. reflexivity.
Qed.

(** The same of a buffered dispatcher which is given the bytes one by one and
    whose responses are written as soon as they are complete. *)
Theorem C69_buffered : forall (X : Type) p q dbl (kr : keyring X) ft g g' b x ops ws x2,
  wf_platform p -> wf_platform q -> keyring_ok p kr -> keyring_ok q kr -> well_sized dbl kr ft ->
  make_buffered dbl kr ft g g' = Some b ->
  in_order [] ops -> locally p q kr (asked ops) x ws x2 ->
  pipelined p (buffered_server q) (values ws) x2 ops (begin ops b x).
Proof.
  intros X p q dbl kr ft g g' b x ops ws x2 Hp Hq Hkp Hkq Hs Hb Ho Hl.
  apply inv_pipelined with (q := q) (kr := kr) (awaits := buffered_awaits q dbl kr ft); auto using buffered_serves.
  apply inv_begin with (ws := ws); auto. exists (fresh kr). split; [eapply reached_new; eauto|]. auto.
Qed.

(** Two requests with responses and one without, all written before the first
    response is received; one response is received by a hook. *)
Definition ex_ops : list operation :=
  [Ask ex_key_add [VInt (-2); VInt 5]; Ask ex_key_notify []; Ask ex_key_swap [VList [VInt 1; VInt 7]];
   Receive true ex_key_add; Receive false ex_key_swap]%Z.

Example C69_example :
  keyring_ok avr_portable ex_keyring /\ keyring_ok pc_native ex_keyring /\ in_order [] ex_ops
  /\ locally avr_portable pc_native ex_keyring (asked ex_ops) [] [Some (VInt 3); None; Some (VList [VInt 7; VInt 9])]%Z
       [(2, [VList [VInt 1%Z; VInt 7%Z]]); (1, []); (0, [VInt (-2)%Z; VInt 5%Z])]
  /\ values [Some (VInt 3); None; Some (VList [VInt 7; VInt 9])]%Z = [VInt 3; VList [VInt 7; VInt 9]]%Z
  /\ turns_of_ops ex_ops = 29
  /\ exists s, steps avr_portable (blocking_server pc_native (make_dispatcher (lift_keyring ex_keyring) ANY))
                 (repeat true 20 ++ concat (repeat [false; true] 20)) (begin ex_ops [] []) = Ok (s, 29)
     /\ pl_results s = [VInt 3; VList [VInt 7; VInt 9]]%Z /\ complete s = true.
Proof.
  split. { split; [vm_compute; reflexivity|]. unfold ex_keyring. cbn [kr_funcs kr_e kr_m]. list_cases; split; cbn [snd f_sig sig_params sig_ret ex_add ex_notify ex_swap ret_ty_ok]; tyoks. }
  split; [exact ex_keyring_ok|]. split; [cbn; auto|].
  split.
  { change [Some (VInt 3); None; Some (VList [VInt 7; VInt 9])]%Z with
      [option_map (fun _ => VInt 3) (sig_ret (f_sig ex_add)); option_map (fun _ => VInt 0) (sig_ret (f_sig ex_notify));
       option_map (fun _ => VList [VInt 7; VInt 9]) (sig_ret (f_sig ex_swap))]%Z.
    cbn [ex_ops asked flat_map app].
    eapply (locally_cons _ _ _ 10 ex_add); [cbn; auto|reflexivity|split; [encs|split; [reflexivity|encs]]..|].
    eapply (locally_cons _ _ _ 20 ex_notify); [cbn; auto|reflexivity|split; [encs|split; [reflexivity|exact I]]..|].
    eapply (locally_cons _ _ _ 30 ex_swap); [cbn; auto|reflexivity|split; [encs|split; [reflexivity|encs]]..|].
    constructor. }
  split; [reflexivity|]. split; [reflexivity|]. eexists. split; [vm_compute; reflexivity|]. split; reflexivity.
Qed.

Print Assumptions C69_dispatcher.
Print Assumptions C69_buffered.
