(** Property C113: requests made before the responses of the requests before are
    received, statement by statement on both sides. *)

From Coq Require Import List ZArith Lia Bool Arith ZifyBool ZifyNat String.
From Verif Require Import Base CInt Spec Conditions MemFacts TypeLevel TypeLevelProofs IntProofs Serial TupleModel SerialProofs Bounds SpecRpc Rpc RpcProofs
  TupleProofs Hosts Closed PropertiesTypes PropertiesRpc Buffered SpecBuffered BufferedProofs PropertiesBuffered
  PropertiesBuffers Counters PropertiesCounters PropertiesPackets PropertiesStreams Network PropertiesNetwork Pipeline PropertiesPipeline.
From Verif Require Cpp Templates Library LibraryProofs PropertiesLibrary PropertiesSource PropertiesMethods PropertiesMasters PropertiesDuplex PropertiesReplies.
From Verif Require Import Classes Methods Program Replies ProgramProofs PropertiesProgram Exchanges PropertiesExchanges Pipelines.
Import ListNotations.
Open Scope string_scope.
Open Scope list_scope.
Open Scope nat_scope.

(** ** Specification *)

(** As in C69, of the statements: they end, whoever takes the turns; the results so far
    are the first results of the local calls; someone can go on until everything is done,
    which takes a known number of turns of some effect; then the results and the world of
    the callee are those of the local calls and no byte is left.  If both take turns
    again and again, everything is done at last. *)
Definition pipelined_src {S X : Type} (p : platform) (sz : nat) (serve : nat -> server S X) (all : list val) (xl : X)
    (ops : list operation) (s0 : pipeline S X) : Prop :=
  (forall turns, exists n, forall fuel, n <= fuel ->
     exists s d, steps_src p sz fuel (serve fuel) turns s0 = Ok (s, d)
       /\ d <= turns_of_ops ops
       /\ (exists rest, pl_results s ++ rest = all)
       /\ (complete s = true <-> d = turns_of_ops ops)
       /\ (complete s = true -> pl_results s = all /\ pl_x s = xl /\ pl_down s = [] /\ pl_got s = [])
       /\ (complete s = false -> exists who s', one_src p sz fuel (serve fuel) who s = Ok (Some s')))
  /\ (forall rounds, Forall (fun turns => In true turns /\ In false turns) rounds -> turns_of_ops ops <= List.length rounds ->
     exists n, forall fuel, n <= fuel ->
     exists s, steps_src p sz fuel (serve fuel) (List.concat rounds) s0 = Ok (s, turns_of_ops ops)
       /\ complete s = true /\ pl_results s = all /\ pl_x s = xl).

(** ** Any callee *)

Section Simulation.
  Context {S S' X : Type}.
  Variables (p q : platform) (sz : nat) (kr : keyring X).
  Variables (serve : server S X) (serve' : nat -> server S' X) (h : S -> S') (awaits : list Z -> S -> X -> Prop).
  Hypothesis Hp : wf_platform p.
  Hypothesis Hsz : p_int_size p <= sz <= 8.
  Hypothesis Hkp : keyring_ok p kr.
  Hypothesis Hkq : keyring_ok q kr.
  Hypothesis Hc : Forall (fun nf => counted sz (TUns (kr_index_size kr) :: sig_params (f_sig (snd nf)))
                    /\ match sig_ret (f_sig (snd nf)) with None => True | Some t => counted sz [t] end) (kr_funcs kr).
  Hypothesis Hserve : serves q kr serve awaits.
  Hypothesis Hsim : forall i st x c st' x' out, awaits i st x -> serve c st x = Ok (st', x', out) ->
    exists m, forall fuel, m <= fuel -> serve' fuel c (h st) x = Ok (h st', x', out).
  Variables (all : list val) (xl : X).

  Definition seen (s : pipeline S X) : pipeline S' X :=
    mk_pipeline (pl_ops s) (pl_unsent s) (pl_got s) (pl_results s) (pl_up s) (pl_down s) (h (pl_state s)) (pl_x s).

  Notation inv := (PropertiesPipeline.inv p q kr awaits all xl).

  Lemma receive_src_ok : forall name f k, In (name, f) (kr_funcs kr) -> kr_get kr name f = Some k ->
    exists m, forall fuel hooked bytes results, m <= fuel ->
      receive_src p sz fuel hooked k bytes results = receive p hooked k bytes results.
  Proof.
    intros name f k Hin Hget. destruct (key_fields _ name f k Hin Hget) as [_ Ek].
    destruct (read_src_ok p p sz sz kr Hp Hsz Hsz Hc name f k Hin Hget) as (m1 & M1).
    assert (Ks : k_sig k = f_sig f) by (rewrite Ek; reflexivity).
    pose proof Hc as C. rewrite Forall_forall in C. destruct (C _ Hin) as [_ C2]. cbn [snd] in C2.
    assert (H2 : exists n, forall fuel, n <= fuel -> LibraryProofs.sig_fits sz fuel (f_call (recorder k)) (f_sig (recorder k))).
    { unfold LibraryProofs.sig_fits. cbn [recorder f_sig sig_params sig_ret]. rewrite Ks.
      destruct (sig_ret (f_sig f)) as [t|].
      - destruct (counted_fit _ _ C2) as (n & H). exists n. intros fuel Hf. split; [apply H; exact Hf|exact I].
      - destruct (counted_fit sz []) as (n & H).
        { destruct (C _ Hin) as [[_ C1] _]. split; [constructor|]. assert (S1 : 1 <= sz) by (destruct Hp; lia).
          pose proof (half_pos sz S1) as P. clear - P. exact P. }
        exists n. intros fuel Hf. split; [apply H; exact Hf|exact I]. }
    destruct H2 as (m2 & M2). exists (Nat.max 8 (Nat.max m1 m2)). intros fuel hooked bytes results Hf.
    unfold receive_src, receive. destruct hooked.
    - rewrite (PropertiesLibrary.C102_call p sz fuel _ recording_source (fun _ w => Ok w) (f_call (recorder k)) (k_e k) (k_m k)
                 (f_sig (recorder k)) [] (bytes, results) (host_of p sz Hp Hsz)).
      + rewrite C34_input_only. cbn [with_hook run make_action m_e m_m m_func].
        change (mk_func (f_sig (recorder k)) (f_call (recorder k))) with (recorder k).
        destruct (call p (k_e k) (k_m k) (recorder k) recording_source (fun _ y => Ok y) (bytes, results)) as [[l r]|]; reflexivity.
      + apply M2. lia.
      + lia.
    - rewrite M1 by lia. destruct (key_read p k list_source bytes) as [[l v]|]; reflexivity.
  Qed.

  Lemma one_ok : forall n s who o, inv n s -> one_step p serve who s = Ok o ->
    exists m, forall fuel, m <= fuel -> one_src p sz fuel (serve' fuel) who (seen s) = Ok (option_map seen o).
  Proof.
    intros n s who o (i & srv & bytes & outs & xe & queue & vs & Ha & _ & _ & _ & Hprog & _ & Hexp & _) E.
    destruct who; cbn [one_step one_src] in *.
    - unfold caller_step in E. unfold asker_src. cbn [seen pl_ops pl_unsent pl_got pl_results pl_up pl_down pl_state pl_x].
      destruct (pl_unsent s) as [|c unsent]; [|exists 0; intros; injection E as <-; reflexivity].
      destruct (pl_ops s) as [|[k args|hooked k] ops]; [exists 0; intros; injection E as <-; reflexivity| |].
      + inversion Hprog as [|name f k' args' x' x1 r ops' queue' vs' x2 Hin Hget Hcp Hcq Hprog' E1 E2 E3 E4 E5|]; subst.
        destruct (message_src_ok p p sz sz kr Hp Hsz Hsz Hkp Hc name f k args xe x1 r Hin Hget Hcp) as (m & M).
        exists m. intros fuel Hf. rewrite (M fuel Hf). destruct (message p k args); cbn [bind] in *; [|discriminate].
        injection E as <-. reflexivity.
      + inversion Hprog as [| |h' k' f r ops' queue' x' vs' x2 Hprog' E1 E2 E3 E4 E5]; subst.
        inversion Hexp as [|t l Ht Hexp']; subst. destruct Ht as (name & args & y & y1 & Hin & Hget & _).
        destruct (receive_src_ok name f k Hin Hget) as (m & M). exists m. intros fuel Hf. rewrite (M fuel _ _ _ Hf).
        destruct (receive p hooked k (pl_got s) (pl_results s)) as [results|[]]; try discriminate.
        * injection E as <-. reflexivity.
        * destruct (pl_down s); injection E as <-; reflexivity.
    - unfold callee_step in E. unfold server_src. cbn [seen pl_ops pl_unsent pl_got pl_results pl_up pl_down pl_state pl_x].
      destruct (pl_up s) as [|c up]; [exists 0; intros; injection E as <-; reflexivity|].
      destruct (serve c (pl_state s) (pl_x s)) as [[[st x] out]|] eqn:Es; cbn [bind] in E; [|discriminate].
      destruct (Hsim _ _ _ _ _ _ _ Ha Es) as (m & M). exists m. intros fuel Hf. rewrite (M fuel Hf). cbn [bind].
      injection E as <-. reflexivity.
  Qed.

  Lemma steps_ok : forall turns n s s' d, inv n s -> steps p serve turns s = Ok (s', d) ->
    exists m, forall fuel, m <= fuel -> steps_src p sz fuel (serve' fuel) turns (seen s) = Ok (seen s', d).
  Proof.
    induction turns as [|who turns IH]; intros n s s' d H E; cbn [steps steps_src] in *.
    - injection E as <- <-. exists 0. reflexivity.
    - destruct (inv_step p q kr serve awaits Hp Hkp Hkq Hserve all xl n s who H) as [Ea|(s1 & n1 & Ea & -> & H1)]; rewrite Ea in E; cbn [bind] in E;
        destruct (one_ok _ s who _ H Ea) as (m1 & M1).
      + destruct (IH n s s' d H E) as (m2 & M2). exists (Nat.max m1 m2). intros fuel Hf.
        rewrite M1 by lia. cbn [bind option_map]. apply M2. lia.
      + destruct (steps p serve turns s1) as [[s2 d2]|] eqn:E2; cbn [bind] in E; [|discriminate]. injection E as <- <-.
        destruct (IH n1 s1 s2 d2 H1 E2) as (m2 & M2). exists (Nat.max m1 m2). intros fuel Hf.
        rewrite M1 by lia. cbn [bind option_map]. rewrite M2 by lia. reflexivity.
  Qed.

  Lemma simulated : forall ops s0, inv (turns_of_ops ops) s0 ->
    pipelined_src p sz serve' all xl ops (seen s0).
  Proof.
    intros ops s0 H. pose proof (inv_pipelined p q kr serve awaits Hp Hkp Hkq Hserve all xl ops s0 H) as [P1 P2]. split.
    - intros turns. destruct (P1 turns) as (s & d & E & H1 & H2 & H3 & H4 & H5).
      destruct (inv_steps p q kr serve awaits Hp Hkp Hkq Hserve all xl turns _ _ H) as (s1 & d1 & n1 & E1 & _ & I1).
      assert (s1 = s) by congruence. subst s1. clear d1 E1.
      destruct (steps_ok turns _ _ _ _ H E) as (m1 & M1).
      assert (G : exists m2, forall fuel, m2 <= fuel -> complete s = false ->
                exists who s', one_src p sz fuel (serve' fuel) who (seen s) = Ok (Some s')).
      { destruct (complete s); [exists 0; discriminate|]. destruct (H5 eq_refl) as (who & s' & Ew).
        destruct (one_ok n1 s who _ I1 Ew) as (m2 & M2).
        exists m2. intros fuel Hf _. exists who. eexists. apply (M2 fuel Hf). }
      destruct G as (m2 & M2). exists (Nat.max m1 m2). intros fuel Hf. exists (seen s), d.
      split; [apply M1; lia|]. split; [exact H1|]. split; [exact H2|]. split; [exact H3|]. split; [exact H4|]. apply M2. lia.
    - intros rounds Hr Hn. destruct (P2 rounds Hr Hn) as (s & E & F). destruct (steps_ok _ _ _ _ _ H E) as (m & M).
      exists m. intros fuel Hf. exists (seen s). split; [apply M; exact Hf|exact F].
  Qed.
End Simulation.

(** ** The callees *)

Lemma lift_described : forall sz (X : Type) (f : func X), described sz f -> described sz (lift_func f).
Proof.
  intros sz X [s f] [H1 H2]. split; [exact H1|]. cbn [lift_func f_sig] in *. destruct (sig_ret s) as [t|]; [|exact I].
  destruct H2 as [H2 H3]. split; [exact H2|]. intros args w. cbn [lift_func f_call] in *. specialize (H3 args (w_user w)).
  destruct (f args (w_user w)). exact H3.
Qed.

Lemma blocking_ok : forall (X : Type) q sz (kr : keyring X) ft, wf_platform q -> p_int_size q <= sz <= 8 ->
  Forall (fun nf => described sz (snd nf)) (kr_funcs kr) ->
  exists m, forall fuel c l x, m <= fuel ->
    blocking_src q sz fuel (make_dispatcher (lift_keyring kr) ft) c l x = blocking_server q (make_dispatcher (lift_keyring kr) ft) c l x.
Proof.
  intros X q sz kr ft Hq Hs Hd.
  destruct (C103_dispatch q sz (wires X) (lift_keyring kr) ft Hq Hs) as (m & M).
  { cbn [lift_keyring kr_funcs]. rewrite Forall_map. eapply Forall_impl; [|exact Hd]. intros nf. apply lift_described. }
  exists m. intros fuel c l x Hf. unfold blocking_src, blocking_server. rewrite (M fuel Hf).
  destruct (dispatch q _ take_wire give_wire _) as [[w i]|e]; reflexivity.
Qed.

Section Buffered.
  Context {X : Type}.
  Variables (q : platform) (sz : nat) (dbl : bool) (kr : keyring X) (ft : action_features).
  Hypothesis Hq : wf_platform q.
  Hypothesis Hsz : p_int_size q <= sz <= 8.
  Hypothesis Hk : keyring_ok q kr.
  Hypothesis Hs : well_sized dbl kr ft.
  Hypothesis Hd : Forall (fun nf => described sz (snd nf)) (kr_funcs kr).
  Hypothesis Hi : small sz (max_native kr + kr_index_size kr).

  Lemma written_ok : forall (b b2 : buffered X) x out, small sz (List.length (obuf (b_bufs b))) ->
    forall fits, (forall fuel, fits <= fuel -> Forall (action_fits sz fuel) (d_actions (b_dispatcher b))) ->
    write_to (fun c l => Ok (l ++ [c])) b [] = Ok (b2, out) ->
    exists m, forall fuel, m <= fuel -> exists b' v,
      run_method q sz fuel (transcribed q sz fuel) TVoid write_to_body [] no_src
        (fun c (w : X * list Z) => Ok (fst w, snd w ++ [c])) (beside_members (list Z) (in_size_t b)) (x, []) = Ok (b', (x, out), v)
      /\ members_after (in_size_t b) b' = in_size_t b2.
  Proof.
    intros b b2 x out Ho fits Hf E.
    exists (Nat.max 8 (Nat.max fits (S (List.length (obuf (b_bufs b)))))). intros fuel Hfuel.
    assert (F8 : 8 <= fuel) by (clear - Hfuel; lia). assert (Ff : fits <= fuel) by (clear - Hfuel; lia).
    assert (Fl : S (List.length (obuf (b_bufs b))) <= fuel) by (clear - Hfuel; lia). clear Hfuel.
    rewrite (method_statements q sz fuel (host_of q sz Hq Hsz) F8).
    2:{ cbn [beside_members s_dispatcher in_size_t beside_dispatcher d_actions]. rewrite Forall_map.
        eapply Forall_impl; [|apply Hf; exact Ff]. intros a. apply PropertiesReplies.beside_fits. }
    unfold run_method. rewrite (PropertiesMethods.write_to_exec q sz Hsz).
    rewrite (PropertiesReplies.write_beside sz X (list Z) (fun c l => Ok (l ++ [c]))) by (exact Ho || reflexivity).
    unfold write_to in E. rewrite (write_loop_fuel X _ _ (S (List.length (obuf (b_bufs b)))) fuel); [|clear; lia|exact Fl].
    rewrite E. cbn [bind mapped fst snd st_object st_world into returned].
    destruct (PropertiesReplies.write_loop_keeps _ _ _ _ _ _ _ _ E) as (K1 & _ & _).
    do 2 eexists. split; [reflexivity|]. unfold members_after, in_size_t, beside_members. cbn. rewrite K1. reflexivity.
  Qed.

  Lemma buffered_ok : forall i b x c b' x' out, buffered_awaits q dbl kr ft i b x ->
    buffered_server q c b x = Ok (b', x', out) ->
    exists m, forall fuel, m <= fuel -> buffered_src q sz fuel c (in_size_t b) x = Ok (in_size_t b', x', out).
  Proof.
    intros i b x c b' x' out (a & R & T & _) E. unfold buffered_server in E.
    destruct (put q c b x) as [[[b1 x1] v]|] eqn:E1; cbn [bind] in E; [|discriminate].
    destruct (write_to _ b1 []) as [[b2 sent]|] eqn:E2; cbn [bind] in E; [|discriminate]. injection E as <- <- <-.
    assert (S1 : step q (Put c) b x = Ok (b1, x1, OStatus v)) by (cbn [step]; rewrite E1; reflexivity).
    destruct (PropertiesMasters.op_src q sz dbl kr ft Hq Hsz Hk Hs Hd Hi (Put c) _ _ _ _ _ _ R T eq_refl S1) as (m1 & M1).
    pose proof (PropertiesMasters.reached_countable q sz dbl kr ft Hq Hsz Hk Hs Hd Hi b a x R) as C.
    assert (C1 : PropertiesCounters.countable sz kr ft b1).
    { eapply (proj2 (step_eq q sz kr ft (PropertiesMasters.index_positive' q kr Hk) (PropertiesMasters.index_small' q sz kr Hsz Hi)
        (PropertiesMasters.inputs_small q sz dbl kr ft Hq Hsz Hk Hs Hd Hi) (Put c) b x C)). exact S1. }
    destruct C1 as (_ & _ & _ & _ & Ho & _).
    destruct (PropertiesMasters.reached_fit q sz dbl kr ft Hq Hk Hs Hd b a x R T) as (n & Hn).
    assert (D : b_dispatcher b1 = b_dispatcher b) by (eapply PropertiesDuplex.put_dispatcher; eauto).
    destruct (written_ok b1 b2 x1 sent Ho n) as (m2 & M2); auto. { rewrite D. exact Hn. }
    exists (Nat.max m1 m2). intros fuel Hf. unfold buffered_src. rewrite M1 by lia. cbn [bind].
    destruct (M2 fuel ltac:(lia)) as (b3 & u & Ew & Eb). rewrite Ew. cbn [bind fst snd]. rewrite Eb. reflexivity.
  Qed.
End Buffered.

(** ** The property *)

(** A dispatcher in a loop. *)
Theorem C113_dispatcher : forall (X : Type) p q sz sz' (kr : keyring X) ft x ops ws x2,
  wf_platform p -> wf_platform q -> p_int_size p <= sz <= 8 -> p_int_size q <= sz' <= 8 ->
  keyring_ok p kr -> keyring_ok q kr -> countable_hosts sz sz' kr ->
  in_order [] ops -> locally p q kr (asked ops) x ws x2 ->
  pipelined_src p sz (fun fuel => blocking_src q sz' fuel (make_dispatcher (lift_keyring kr) ft)) (values ws) x2 ops (begin ops [] x).
Proof.
  intros X p q sz sz' kr ft x ops ws x2 Hp Hq Hsz Hsz' Hkp Hkq (Hc & Hd) Ho Hl.
  pose proof (simulated p q sz kr (blocking_server q (make_dispatcher (lift_keyring kr) ft))
    (fun fuel => blocking_src q sz' fuel (make_dispatcher (lift_keyring kr) ft)) (fun l => l) blocking_awaits
    Hp Hsz Hkp Hkq Hc (blocking_serves X q kr ft Hq Hkq)) as G.
  refine (G _ (values ws) x2 ops (begin ops [] x) _).
  - destruct (blocking_ok X q sz' kr ft Hq Hsz' Hd) as (m & M). intros i st y c st' y' out _ E. exists m. intros fuel Hf.
    rewrite (M fuel c st y Hf). exact E.
  - apply inv_begin with (ws := ws); auto. reflexivity.
Qed.

(** A buffered dispatcher which is given the bytes one by one and whose responses are
    written as soon as they are complete. *)
Theorem C113_buffered : forall (X : Type) p q sz sz' dbl (kr : keyring X) ft g g' b x ops ws x2,
  wf_platform p -> wf_platform q -> p_int_size p <= sz <= 8 -> p_int_size q <= sz' <= 8 ->
  keyring_ok p kr -> keyring_ok q kr -> well_sized dbl kr ft -> countable_hosts sz sz' kr ->
  make_buffered dbl kr ft g g' = Some b -> (Z.of_nat (List.length (ibuf (b_bufs b))) < 2 ^ (8 * Z.of_nat sz'))%Z ->
  in_order [] ops -> locally p q kr (asked ops) x ws x2 ->
  pipelined_src p sz (fun fuel => buffered_src q sz' fuel) (values ws) x2 ops (begin ops (init_members (make_dispatcher kr ft) (b_bufs b)) x).
Proof.
  intros X p q sz sz' dbl kr ft g g' b x ops ws x2 Hp Hq Hsz Hsz' Hkp Hkq Hs (Hc & Hd) Hb Hib Ho Hl.
  destruct (make_buffered_spec dbl kr ft g g' b Hb) as (bufs & Eb & _ & Hli & _).
  assert (Hi : small sz' (max_native kr + kr_index_size kr)).
  { rewrite Eb in Hib. cbn [init_buffered b_bufs] in Hib. rewrite Hli in Hib. exact Hib. }
  assert (Es : in_size_t b = init_members (make_dispatcher kr ft) (b_bufs b)) by (rewrite Eb; reflexivity). rewrite <- Es.
  pose proof (simulated p q sz kr (buffered_server q) (fun fuel => buffered_src q sz' fuel) in_size_t (buffered_awaits q dbl kr ft)
    Hp Hsz Hkp Hkq Hc (buffered_serves X q dbl kr ft Hq Hkq Hs)) as G.
  refine (G _ (values ws) x2 ops (begin ops b x) _).
  - exact (buffered_ok q sz' dbl kr ft Hq Hsz' Hkq Hs Hd Hi).
  - apply inv_begin with (ws := ws); auto. exists (fresh kr). split; [eapply reached_new; eauto|]. auto.
Qed.

(** ** Example *)

(** Three requests, one of them without a response, all written before the first response
    is received; one response is received by a hook.  The caller on a 16 bit host. *)
Definition pl_example : list operation :=
  [Ask (mk_key 1 0 (f_sig ex_total) BIG TWOS_COMPLEMENT) [VInt (-2); VInt 5];
   Ask (mk_key 1 1 (f_sig ex_notify) BIG TWOS_COMPLEMENT) [];
   Ask (mk_key 1 2 (f_sig ex_swap) BIG TWOS_COMPLEMENT) [VList [VInt 1; VInt 7]];
   Receive true (mk_key 1 0 (f_sig ex_total) BIG TWOS_COMPLEMENT);
   Receive false (mk_key 1 2 (f_sig ex_swap) BIG TWOS_COMPLEMENT)]%Z.
Definition pl_after : log := [(2, [VList [VInt 1%Z; VInt 7%Z]]); (1, []); (0, [VInt (-2)%Z; VInt 5%Z])].

Example C113_example : exists b,
  make_buffered false ex_program ANY [] [] = Some b
  /\ (Z.of_nat (List.length (ibuf (b_bufs b))) < 2 ^ (8 * Z.of_nat 8))%Z
  /\ keyring_ok avr_portable ex_program /\ keyring_ok pc_native ex_program /\ well_sized false ex_program ANY
  /\ countable_hosts 2 8 ex_program /\ in_order [] pl_example
  /\ locally avr_portable pc_native ex_program (asked pl_example) [] [Some (VInt 3); None; Some (VList [VInt 7; VInt 9])]%Z pl_after
  /\ (exists s, steps_src avr_portable 2 12 (blocking_src pc_native 8 12 (make_dispatcher (lift_keyring ex_program) ANY))
        (repeat true 20 ++ List.concat (repeat [false; true] 25)) (begin pl_example [] []) = Ok (s, turns_of_ops pl_example)
      /\ pl_results s = [VInt 3; VList [VInt 7; VInt 9]]%Z /\ pl_x s = pl_after /\ complete s = true)
  /\ (exists s, steps_src avr_portable 2 12 (buffered_src pc_native 8 12)
        (repeat true 20 ++ List.concat (repeat [false; true] 25))
        (begin pl_example (init_members (make_dispatcher ex_program ANY) (b_bufs b)) []) = Ok (s, turns_of_ops pl_example)
      /\ pl_results s = [VInt 3; VList [VInt 7; VInt 9]]%Z /\ pl_x s = pl_after /\ complete s = true).
Proof.
  eexists. split; [reflexivity|]. split; [reflexivity|].
  split; [exact ex_program_avr|]. split; [exact ex_program_ok|]. split; [exact (proj2 ex_program_sized)|].
  split.
  { split; [|apply ex_described; lia]. change (kr_index_size ex_program) with 1. cbn [ex_program kr_funcs].
    repeat (apply Forall_cons || apply Forall_nil); cbn [snd ex_total ex_notify ex_swap f_sig sig_params sig_ret];
      (split; [apply counted_ex; [lia|cbn; auto 12]|first [exact I|apply counted_ex; [lia|cbn; auto 12]]]). }
  split; [cbn; auto|].
  split.
  { change [Some (VInt 3); None; Some (VList [VInt 7; VInt 9])]%Z with
      [option_map (fun _ => VInt 3) (sig_ret (f_sig ex_total)); option_map (fun _ => VInt 0) (sig_ret (f_sig ex_notify));
       option_map (fun _ => VList [VInt 7; VInt 9]) (sig_ret (f_sig ex_swap))]%Z.
    unfold pl_example. cbn [asked flat_map app].
    eapply (locally_cons _ _ _ 10 ex_total); [cbn; auto|reflexivity|split; [encs|split; [reflexivity|encs]]..|].
    eapply (locally_cons _ _ _ 20 ex_notify); [cbn; auto|reflexivity|split; [encs|split; [reflexivity|exact I]]..|].
    eapply (locally_cons _ _ _ 30 ex_swap); [cbn; auto|reflexivity|split; [encs|split; [reflexivity|encs]]..|].
    constructor. }
  split; (eexists; split; [vm_compute; reflexivity|]; split; [reflexivity|]; split; reflexivity).
Qed.

Print Assumptions C113_dispatcher.
Print Assumptions C113_buffered.
