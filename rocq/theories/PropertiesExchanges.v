(** Property C112: a caller and a callee on two hosts, statement by statement on both
    sides, under every schedule. *)

From Coq Require Import List ZArith Lia Bool Arith ZifyBool ZifyNat String.
From Verif Require Import Base CInt Spec Conditions MemFacts TypeLevel TypeLevelProofs IntProofs Serial TupleModel SerialProofs Bounds SpecRpc Rpc RpcProofs
  TupleProofs Hosts Closed PropertiesTypes PropertiesRpc Buffered SpecBuffered BufferedProofs PropertiesBuffered
  PropertiesBuffers Counters PropertiesCounters PropertiesPackets PropertiesStreams Network PropertiesNetwork.
From Verif Require Cpp Templates Library LibraryProofs PropertiesLibrary PropertiesSource PropertiesMethods PropertiesMasters.
From Verif Require Import Classes Methods Program Replies ProgramProofs PropertiesProgram Exchanges.
Import ListNotations.
Open Scope string_scope.
Open Scope list_scope.
Open Scope nat_scope.

(** The state of Network.v as the statements see it. *)
Definition counted_system {X : Type} (s : system X) : parties X :=
  mk_parties (sy_calls s) (sy_phase s) (sy_results s) (sy_up s) (sy_down s) (in_size_t (sy_b s)) (sy_x s).

(** What the caller writes and reads can be counted on its host, what the callbacks take
    and return on the other. *)
Definition countable_hosts {X : Type} (sz sz' : nat) (kr : keyring X) : Prop :=
  Forall (fun nf => counted sz (TUns (kr_index_size kr) :: sig_params (f_sig (snd nf)))
                    /\ match sig_ret (f_sig (snd nf)) with None => True | Some t => counted sz [t] end) (kr_funcs kr)
  /\ Forall (fun nf => described sz' (snd nf)) (kr_funcs kr).

Section Turns.
  Context {X : Type}.
  Variables (p q : platform) (sz sz' : nat) (dbl : bool) (kr : keyring X) (ft : action_features).
  Hypothesis Hp : wf_platform p.
  Hypothesis Hq : wf_platform q.
  Hypothesis Hsz : p_int_size p <= sz <= 8.
  Hypothesis Hsz' : p_int_size q <= sz' <= 8.
  Hypothesis Hkp : keyring_ok p kr.
  Hypothesis Hkq : keyring_ok q kr.
  Hypothesis Hs : well_sized dbl kr ft.
  Hypothesis Hc : Forall (fun nf => counted sz (TUns (kr_index_size kr) :: sig_params (f_sig (snd nf)))
                    /\ match sig_ret (f_sig (snd nf)) with None => True | Some t => counted sz [t] end) (kr_funcs kr).
  Hypothesis Hd : Forall (fun nf => described sz' (snd nf)) (kr_funcs kr).
  Hypothesis Hi : small sz' (max_native kr + kr_index_size kr).
  Variables (all : list (option val)) (xl : X).

  Notation inv := (inv p q dbl kr ft all xl).

  Lemma inv_head : forall n s k args calls, inv n s -> sy_calls s = (k, args) :: calls ->
    exists name f x0 x1 r, In (name, f) (kr_funcs kr) /\ kr_get kr name f = Some k /\ PropertiesPackets.calls p kr f args x0 x1 r.
  Proof.
    intros n s k args calls (a & srv & resp & xe & vs & unsent & got & _ & _ & _ & _ & _ & _ & H) E.
    destruct H as [(_ & Hl & _)|(name & f & k' & args' & x0 & r & reqs & rest & Hin & Hget & Hcl & Ec & _)].
    - rewrite E in Hl.
      destruct (locally_inv _ _ _ _ _ _ _ _ Hl) as [(Ec & _)|
        (name & f & k' & args' & x1 & r & reqs & vs' & Ec & _ & Hin & Hget & Hcp & _ & _)]; [discriminate|].
      injection Ec as <- <- <-. eauto 10.
    - rewrite E in Ec. injection Ec as <- <- _. eauto 10.
  Qed.

  Lemma message_src_ok : forall name f k args x0 x1 r, In (name, f) (kr_funcs kr) -> kr_get kr name f = Some k ->
    PropertiesPackets.calls p kr f args x0 x1 r ->
    exists m, forall fuel, m <= fuel -> message_src p sz fuel k args = message p k args.
  Proof.
    intros name f k args x0 x1 r Hin Hget Hcl. destruct (key_fields _ name f k Hin Hget) as [Hn Ek].
    destruct (index_size X kr (proj1 Hkp)) as (_ & Hsp & _).
    assert (Hlt : k_index k < List.length (kr_funcs kr)) by (apply nth_error_Some; congruence).
    assert (Kw : k_index_size k = kr_index_size kr) by (rewrite Ek; reflexivity).
    assert (Ks : k_sig k = f_sig f) by (rewrite Ek; reflexivity).
    pose proof Hc as C. rewrite Forall_forall in C. destruct (C _ Hin) as [C1 _]. cbn [snd] in C1.
    destruct (counted_fit _ _ C1) as (n1 & H1). rewrite <- Kw, <- Ks in H1.
    exists (Nat.max 8 n1). intros fuel Hf. unfold message_src, message.
    rewrite (PropertiesLibrary.C102_key_write p sz fuel (list Z) Library.no_source (fun byte l => Ok (l ++ [byte]))
               Library.no_functor k args [] [] (host_of p sz Hp Hsz)).
    - destruct (key_write p k args (fun byte l => Ok (l ++ [byte])) []); reflexivity.
    - apply H1. lia.
    - lia.
    - rewrite Kw. eapply Z.lt_trans; [|exact Hsp]. lia.
    - rewrite Ks. destruct Hcl as (Henc & _). eapply encodable_has; eauto.
  Qed.

  Lemma read_src_ok : forall name f k, In (name, f) (kr_funcs kr) -> kr_get kr name f = Some k ->
    exists m, forall fuel bytes, m <= fuel ->
      read_src p sz fuel k bytes = ('(_, v) <- key_read p k list_source bytes;; Ok v).
  Proof.
    intros name f k Hin Hget. destruct (key_fields _ name f k Hin Hget) as [Hn Ek].
    assert (Ks : k_sig k = f_sig f) by (rewrite Ek; reflexivity).
    pose proof Hc as C. rewrite Forall_forall in C. destruct (C _ Hin) as [_ C2]. cbn [snd] in C2.
    assert (H2 : exists n, forall fuel, n <= fuel -> match sig_ret (k_sig k) with None => True | Some t => LibraryProofs.all_fit sz fuel [t] end).
    { rewrite Ks. destruct (sig_ret (f_sig f)); [apply counted_fit; exact C2|exists 0; auto]. }
    destruct H2 as (n & H2). exists (Nat.max 8 n). intros fuel bytes Hf. unfold read_src.
    rewrite (PropertiesLibrary.C102_key_read p sz fuel (list Z) list_source Library.no_destination Library.no_functor k [] bytes
               (host_of p sz Hp Hsz)).
    - destruct (key_read p k list_source bytes) as [[l [v|]]|]; reflexivity.
    - lia.
    - apply H2. lia.
  Qed.

  Lemma turn_ok : forall n s who o, inv n s -> take_turn p q who s = Ok o ->
    exists m, forall fuel, m <= fuel -> turn_src p q sz sz' fuel who (counted_system s) = Ok (option_map counted_system o).
  Proof.
    intros n s who o H E.
    assert (R : exists a, reached q dbl kr ft (sy_b s) a (sy_x s) /\ mc_table a = map snd (kr_funcs kr)).
    { destruct H as (a & srv & resp & xe & vs & unsent & got & R & T & _). eauto. }
    destruct R as (a & R & T).
    pose proof (fun o b => PropertiesMasters.op_src q sz' dbl kr ft Hq Hsz' Hkq Hs Hd Hi o b) as OP.
    destruct who; cbn [take_turn turn_src] in *.
    - unfold caller_turn in E. unfold caller_src. cbn [counted_system pa_calls pa_phase pa_results pa_up pa_down pa_b pa_x].
      destruct (sy_calls s) as [|[k args] calls] eqn:Ec; [exists 0; intros; injection E as <-; reflexivity|].
      destruct (inv_head n s k args calls H Ec) as (name & f & x0 & x1 & r & Hin & Hget & Hcl).
      destruct (sy_phase s) as [|[|c bytes]|bytes] eqn:Eph.
      + destruct (message_src_ok name f k args x0 x1 r Hin Hget Hcl) as (m & Hm). exists m. intros fuel Hf. rewrite (Hm fuel Hf).
        destruct (message p k args); cbn [bind] in *; [|discriminate]. injection E as <-. reflexivity.
      + exists 0. intros fuel _. injection E as <-. reflexivity.
      + exists 0. intros fuel _. injection E as <-. reflexivity.
      + destruct (read_src_ok name f k Hin Hget) as (m & Hm). exists m. intros fuel Hf. rewrite (Hm fuel bytes Hf).
        destruct (key_read p k list_source bytes) as [[l v]|[]]; cbn [bind] in *; try discriminate.
        * injection E as <-. reflexivity.
        * destruct (sy_down s) as [|c down]; injection E as <-; reflexivity.
    - unfold receiver_turn in E. unfold receiver_src. cbn [counted_system pa_calls pa_phase pa_results pa_up pa_down pa_b pa_x].
      destruct (sy_up s) as [|c up] eqn:Eu; [exists 0; intros; injection E as <-; reflexivity|].
      destruct (put q c (sy_b s) (sy_x s)) as [[[b' x'] v]|] eqn:E1; cbn [bind] in E; [|discriminate].
      destruct (OP (Put c) _ _ _ b' x' (OStatus v) R T eq_refl) as (m & Hm). { cbn [step]. rewrite E1. reflexivity. }
      exists m. intros fuel Hf. rewrite (Hm fuel Hf). cbn [bind]. injection E as <-. reflexivity.
    - unfold sender_turn in E. unfold sender_src. cbn [counted_system pa_calls pa_phase pa_results pa_up pa_down pa_b pa_x].
      destruct (OP IsLoaded _ _ _ (sy_b s) (sy_x s) (OBool (is_loaded (sy_b s))) R T eq_refl eq_refl) as (m1 & H1).
      destruct (is_loaded (sy_b s)) eqn:El.
      + destruct (get_byte (sy_b s)) as [[b' c]|] eqn:E1; cbn [bind] in E; [|discriminate].
        destruct (OP Get _ _ _ b' (sy_x s) (OByte c) R T eq_refl) as (m & Hm). { cbn [step]. rewrite E1. reflexivity. }
        exists (Nat.max m1 m). intros fuel Hf. rewrite (H1 fuel ltac:(lia)). cbn [bind]. rewrite (Hm fuel ltac:(lia)). cbn [bind].
        injection E as <-. reflexivity.
      + exists m1. intros fuel Hf. rewrite (H1 fuel Hf). cbn [bind]. injection E as <-. reflexivity.
  Qed.

  Lemma turns_ok : forall turns n s s' d, inv n s -> execute p q turns s = Ok (s', d) ->
    exists m, forall fuel, m <= fuel -> turns_src p q sz sz' fuel turns (counted_system s) = Ok (counted_system s', d).
  Proof.
    induction turns as [|who turns IH]; intros n s s' d H E; cbn [execute turns_src] in *.
    - injection E as <- <-. exists 0. reflexivity.
    - destruct (inv_turn p q dbl kr ft Hp Hq Hkp Hkq Hs all xl n s who H) as [Ea|(s1 & n1 & Ea & -> & H1)]; rewrite Ea in E; cbn [bind] in E;
        destruct (turn_ok _ s who _ H Ea) as (m1 & M1).
      + destruct (IH n s s' d H E) as (m2 & M2). exists (Nat.max m1 m2). intros fuel Hf.
        rewrite M1 by lia. cbn [bind option_map]. apply M2. lia.
      + destruct (execute p q turns s1) as [[s2 d2]|] eqn:E2; cbn [bind] in E; [|discriminate]. injection E as <- <-.
        destruct (IH n1 s1 s2 d2 H1 E2) as (m2 & M2). exists (Nat.max m1 m2). intros fuel Hf.
        rewrite M1 by lia. cbn [bind option_map]. rewrite M2 by lia. reflexivity.
  Qed.

  Lemma finished_ok : forall n s, inv n s ->
    exists m, forall fuel, m <= fuel -> finished_src q sz' fuel (counted_system s) = Ok (finished s).
  Proof.
    intros n s (a & srv & resp & xe & vs & unsent & got & R & T & _).
    destruct (PropertiesMasters.op_src q sz' dbl kr ft Hq Hsz' Hkq Hs Hd Hi IsLoaded _ _ _ (sy_b s) (sy_x s) (OBool (is_loaded (sy_b s))) R T eq_refl eq_refl)
      as (m & Hm).
    exists m. intros fuel Hf. unfold finished_src, finished. cbn [counted_system pa_b pa_x pa_calls pa_up pa_down]. rewrite (Hm fuel Hf).
    cbn [bind]. destruct (sy_calls s), (sy_up s), (sy_down s), (is_loaded (sy_b s)); reflexivity.
  Qed.
End Turns.

(** ** The property *)

(** Whoever takes the turns, the statements which are run end, nothing undefined happens
    and the results so far are the first results of the local calls; as long as not
    everything is done, someone can go on; the number of turns of some effect is known
    beforehand, and when they were taken the results and the world of the callee are
    those of the local calls. *)
Theorem C112_every_schedule : forall (X : Type) p q sz sz' dbl (kr : keyring X) ft g g' b x reqs vs x2 turns,
  wf_platform p -> wf_platform q -> p_int_size p <= sz <= 8 -> p_int_size q <= sz' <= 8 ->
  keyring_ok p kr -> keyring_ok q kr -> well_sized dbl kr ft -> countable_hosts sz sz' kr ->
  make_buffered dbl kr ft g g' = Some b -> (Z.of_nat (List.length (ibuf (b_bufs b))) < 2 ^ (8 * Z.of_nat sz'))%Z ->
  locally p q kr reqs x vs x2 ->
  exists n, forall fuel, n <= fuel ->
  exists s d done, turns_src p q sz sz' fuel turns (start_src reqs (make_dispatcher kr ft) (b_bufs b) x) = Ok (s, d)
    /\ finished_src q sz' fuel s = Ok done
    /\ d <= turns_of reqs
    /\ (exists rest, pa_results s ++ rest = vs)
    /\ (done = true <-> d = turns_of reqs)
    /\ (done = true -> pa_results s = vs /\ pa_x s = x2)
    /\ (done = false -> exists who s', turn_src p q sz sz' fuel who s = Ok (Some s')).
Proof.
  intros X p q sz sz' dbl kr ft g g' b x reqs vs x2 turns Hp Hq Hsz Hsz' Hkp Hkq Hs (Hc & Hd) Hb Hib Hl.
  destruct (C68_every_schedule X p q dbl kr ft g g' b x reqs vs x2 turns Hp Hq Hkp Hkq Hs Hb Hl) as (s & d & E & H1 & H2 & H3 & H4 & H5).
  destruct (make_buffered_spec dbl kr ft g g' b Hb) as (bufs & Eb & _ & Hli & _).
  assert (Hi : small sz' (max_native kr + kr_index_size kr)).
  { rewrite Eb in Hib. cbn [init_buffered b_bufs] in Hib. rewrite Hli in Hib. exact Hib. }
  pose proof (inv_start p q dbl kr ft vs x2 g g' b x reqs Hb Hl) as I0.
  destruct (inv_execute p q dbl kr ft Hp Hq Hkp Hkq Hs vs x2 turns _ _ I0) as (s1 & d1 & n1 & E1 & _ & I1).
  assert (s1 = s) by congruence. subst s1. clear d1 E1.
  destruct (turns_ok p q sz sz' dbl kr ft Hp Hq Hsz Hsz' Hkp Hkq Hs Hc Hd Hi vs x2 turns _ _ s d I0 E) as (m1 & M1).
  destruct (finished_ok p q sz' dbl kr ft Hq Hsz' Hkq Hs Hd Hi vs x2 n1 s I1) as (m2 & M2).
  assert (G : exists m3, forall fuel, m3 <= fuel -> finished s = false ->
            exists who s', turn_src p q sz sz' fuel who (counted_system s) = Ok (Some s')).
  { destruct (finished s); [exists 0; discriminate|]. destruct (H5 eq_refl) as (who & s' & Ew).
    destruct (turn_ok p q sz sz' dbl kr ft Hp Hq Hsz Hsz' Hkp Hkq Hs Hc Hd Hi vs x2 n1 s who _ I1 Ew) as (m3 & M3).
    exists m3. intros fuel Hf _. exists who. eexists. apply (M3 fuel Hf). }
  destruct G as (m3 & M3). exists (Nat.max m1 (Nat.max m2 m3)). intros fuel Hf. exists (counted_system s), d, (finished s).
  split.
  { rewrite <- (M1 fuel) by lia. f_equal. unfold counted_system, start, start_src. rewrite Eb. reflexivity. }
  split; [apply M2; lia|]. split; [exact H1|]. split; [exact H2|]. split; [exact H3|]. split; [exact H4|]. apply M3. lia.
Qed.

(** When everyone takes a turn again and again, everything is done at last. *)
Theorem C112_fair : forall (X : Type) p q sz sz' dbl (kr : keyring X) ft g g' b x reqs vs x2 rounds,
  wf_platform p -> wf_platform q -> p_int_size p <= sz <= 8 -> p_int_size q <= sz' <= 8 ->
  keyring_ok p kr -> keyring_ok q kr -> well_sized dbl kr ft -> countable_hosts sz sz' kr ->
  make_buffered dbl kr ft g g' = Some b -> (Z.of_nat (List.length (ibuf (b_bufs b))) < 2 ^ (8 * Z.of_nat sz'))%Z ->
  locally p q kr reqs x vs x2 -> Forall round rounds -> turns_of reqs <= List.length rounds ->
  exists n, forall fuel, n <= fuel ->
  exists s, turns_src p q sz sz' fuel (List.concat rounds) (start_src reqs (make_dispatcher kr ft) (b_bufs b) x) = Ok (s, turns_of reqs)
    /\ finished_src q sz' fuel s = Ok true /\ pa_results s = vs /\ pa_x s = x2.
Proof.
  intros X p q sz sz' dbl kr ft g g' b x reqs vs x2 rounds Hp Hq Hsz Hsz' Hkp Hkq Hs HC Hb Hib Hl Hr Hn.
  destruct (C68_fair X p q dbl kr ft g g' b x reqs vs x2 rounds Hp Hq Hkp Hkq Hs Hb Hl Hr Hn) as (s & E & _).
  destruct (C112_every_schedule X p q sz sz' dbl kr ft g g' b x reqs vs x2 (List.concat rounds) Hp Hq Hsz Hsz' Hkp Hkq Hs HC Hb Hib Hl)
    as (n & G).
  destruct HC as (Hc & Hd). destruct (make_buffered_spec dbl kr ft g g' b Hb) as (bufs & Eb & _ & Hli & _).
  assert (Hi : small sz' (max_native kr + kr_index_size kr)).
  { rewrite Eb in Hib. cbn [init_buffered b_bufs] in Hib. rewrite Hli in Hib. exact Hib. }
  pose proof (inv_start p q dbl kr ft vs x2 g g' b x reqs Hb Hl) as I0.
  destruct (turns_ok p q sz sz' dbl kr ft Hp Hq Hsz Hsz' Hkp Hkq Hs Hc Hd Hi vs x2 (List.concat rounds) _ _ s _ I0 E) as (m & M).
  exists (Nat.max n m). intros fuel Hf. destruct (G fuel ltac:(lia)) as (s1 & d & done & A & F & _ & _ & D & V & _).
  assert (Es : counted_system (start reqs b x) = start_src reqs (make_dispatcher kr ft) (b_bufs b) x).
  { unfold counted_system, start, start_src. rewrite Eb. reflexivity. }
  specialize (M fuel ltac:(lia)). rewrite Es in M. rewrite M in A. injection A as <- <-.
  assert (done = true) by (apply D; reflexivity). subst done.
  exists (counted_system s). split; [exact M|]. split; [exact F|]. apply V. reflexivity.
Qed.

(** ** Example *)

(** A void call, a call with a response, another void call, then a call with an array;
    the caller on a 16 bit host, the callee on a 64 bit host with a single buffer. *)
Definition xc_reqs : list (key * list val) :=
  [(mk_key 1 1 (f_sig ex_notify) BIG TWOS_COMPLEMENT, []);
   (mk_key 1 0 (f_sig ex_total) BIG TWOS_COMPLEMENT, [VInt (-2); VInt 5]);
   (mk_key 1 1 (f_sig ex_notify) BIG TWOS_COMPLEMENT, []);
   (mk_key 1 2 (f_sig ex_swap) BIG TWOS_COMPLEMENT, [VList [VInt 1; VInt 7]])]%Z.
Definition xc_results : list (option val) := [None; Some (VInt 3); None; Some (VList [VInt 7; VInt 9])]%Z.
Definition xc_after : log := [(2, [VList [VInt 1%Z; VInt 7%Z]]); (1, []); (0, [VInt (-2)%Z; VInt 5%Z]); (1, [])].

Example C112_example : exists b,
  make_buffered false ex_program ANY [] [] = Some b
  /\ (Z.of_nat (List.length (ibuf (b_bufs b))) < 2 ^ (8 * Z.of_nat 8))%Z
  /\ keyring_ok avr_portable ex_program /\ keyring_ok pc_native ex_program /\ well_sized false ex_program ANY
  /\ countable_hosts 2 8 ex_program
  /\ locally avr_portable pc_native ex_program xc_reqs [] xc_results xc_after
  /\ turns_of xc_reqs = 44
  /\ exists s, turns_src avr_portable pc_native 2 8 12 (List.concat (repeat [Sender; Caller; Receiver] 44))
       (start_src xc_reqs (make_dispatcher ex_program ANY) (b_bufs b) []) = Ok (s, 44)
     /\ finished_src pc_native 8 12 s = Ok true /\ pa_results s = xc_results /\ pa_x s = xc_after.
Proof.
  eexists. split; [reflexivity|]. split; [reflexivity|].
  split; [exact ex_program_avr|]. split; [exact ex_program_ok|]. split; [exact (proj2 ex_program_sized)|].
  split.
  { split; [|apply ex_described; lia]. change (kr_index_size ex_program) with 1. cbn [ex_program kr_funcs].
    repeat (apply Forall_cons || apply Forall_nil); cbn [snd ex_total ex_notify ex_swap f_sig sig_params sig_ret];
      (split; [apply counted_ex; [lia|cbn; auto 12]|first [exact I|apply counted_ex; [lia|cbn; auto 12]]]). }
  split.
  { unfold xc_results, xc_reqs.
    change [None; Some (VInt 3); None; Some (VList [VInt 7; VInt 9])]%Z with
      [option_map (fun _ => VInt 0) (sig_ret (f_sig ex_notify)); option_map (fun _ => VInt 3) (sig_ret (f_sig ex_total));
       option_map (fun _ => VInt 0) (sig_ret (f_sig ex_notify)); option_map (fun _ => VList [VInt 7; VInt 9]) (sig_ret (f_sig ex_swap))]%Z.
    eapply (locally_cons _ _ _ 20 ex_notify); [cbn; auto|reflexivity|split; [encs|split; [reflexivity|exact I]]..|].
    eapply (locally_cons _ _ _ 10 ex_total); [cbn; auto|reflexivity|split; [encs|split; [reflexivity|encs]]..|].
    eapply (locally_cons _ _ _ 20 ex_notify); [cbn; auto|reflexivity|split; [encs|split; [reflexivity|exact I]]..|].
    eapply (locally_cons _ _ _ 30 ex_swap); [cbn; auto|reflexivity|split; [encs|split; [reflexivity|encs]]..|].
    constructor. }
  split; [reflexivity|]. eexists. split; [vm_compute; reflexivity|]. split; [vm_compute; reflexivity|]. split; reflexivity.
Qed.

Print Assumptions C112_every_schedule.
Print Assumptions C112_fair.
