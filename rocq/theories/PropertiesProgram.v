(** C103: the whole library as a program.

    The member functions of the dispatchers (Methods.v), the functions they call
    (Library.v) and the integer code these call (Source.v), each transcribed statement
    by statement, linked together and run: a remote call, and every history of a
    buffered dispatcher, are what the specification says. *)

From Coq Require Import List ZArith Lia Bool Arith ZifyBool ZifyNat String.
From Verif Require Import Base CInt Spec Conditions TypeLevel IntProofs Serial TupleModel SerialProofs SpecRpc Rpc RpcProofs
  TupleProofs Hosts Closed PropertiesTypes PropertiesRpc Buffered SpecBuffered BufferedProofs PropertiesBuffered
  PropertiesBuffers Counters PropertiesCounters PropertiesPackets PropertiesFormats PropertiesRecovery PropertiesNoise.
From Verif Require Templates Library LibraryProofs PropertiesLibrary PropertiesSource PropertiesMethods.
From Verif Require Import Classes Methods Program ProgramProofs.
Import ListNotations.
Open Scope string_scope.
Open Scope list_scope.
Open Scope nat_scope.

(** The sizes which a host can have: [int] is not larger than [std::size_t]. *)
Lemma host_of : forall p sz, wf_platform p -> p_int_size p <= sz <= 8 -> PropertiesSource.host_sizes p sz.
Proof. intros p sz [] H. unfold PropertiesSource.host_sizes. lia. Qed.

(** [d(src, dest)] of a plain dispatcher, from its own statements down to those which
    shift the bytes of an integer. *)
Theorem C103_dispatch : forall p sz (X : Type) (kr : keyring X) ft, wf_platform p -> p_int_size p <= sz <= 8 ->
  Forall (fun nf => described sz (snd nf)) (kr_funcs kr) ->
  exists n, forall fuel, n <= fuel -> forall src dest x,
    dispatch_program p sz fuel (make_dispatcher kr ft) src dest x
    = '(x', i) <- dispatch p (make_dispatcher kr ft) src dest x;;
      Ok (x', Number (CInt (kr_index_size kr) false) (Z.of_nat i)).
Proof.
  intros p sz X kr ft Hp Hs Hd.
  destruct (all_described_fit X sz (map snd (kr_funcs kr))) as (n & Hn); [rewrite Forall_map; exact Hd|].
  exists (Nat.max 8 n). intros fuel Hf src dest x. unfold dispatch_program.
  rewrite method_statements.
  - rewrite PropertiesMethods.C100_dispatch by auto. cbn [init_members s_dispatcher make_dispatcher d_keyring].
    fold (make_dispatcher kr ft). destruct (dispatch p (make_dispatcher kr ft) src dest x) as [[x' i]|f]; reflexivity.
  - apply host_of; auto.
  - lia.
  - cbn [init_members s_dispatcher]. apply new_actions_fit. apply Hn. lia.
Qed.

(** A remote call between two hosts, all of it run statement by statement: the request
    is written ([k(args...).write_to(...)]), dispatched on the other host, and the
    response is read there ([k.read_from(...)]). *)
Theorem C103_remote_call : forall (S : Type) p sz q sz' (kr : keyring S) ft name f k args s,
  wf_platform p -> p_int_size p <= sz <= 8 -> wf_platform q -> p_int_size q <= sz' <= 8 ->
  keyring_ok p (lift_keyring kr) -> keyring_ok q (lift_keyring kr) ->
  In (name, f) (kr_funcs kr) -> kr_get (lift_keyring kr) name (lift_func f) = Some k ->
  counted sz (TUns (kr_index_size kr) :: sig_params (f_sig f)) ->
  match sig_ret (f_sig f) with None => True | Some t => counted sz [t] end ->
  Forall (fun nf => described sz' (snd nf)) (kr_funcs kr) ->
  Forall2 (encodable p (kr_m kr)) (sig_params (f_sig f)) args ->
  Forall2 (encodable q (kr_m kr)) (sig_params (f_sig f)) args ->
  let (s', r) := f_call f args s in
  ret_encodable p (kr_m kr) (sig_ret (f_sig f)) r -> ret_encodable q (kr_m kr) (sig_ret (f_sig f)) r ->
  exists n, forall fuel rest rest', n <= fuel ->
  exists i packet resp,
    nth_error (kr_funcs kr) i = Some (name, f)
    /\ Library.run_body p sz fuel Library.no_source give_wire Library.no_functor
         (Library.key_write_src (kr_e kr) (kr_m kr) (kr_index_size kr) i (sig_params (f_sig f)))
         [("args", Templates.Object (VList args))] [] (mk_wires [] [] tt)
       = Ok ([], mk_wires [] packet tt, Templates.Nothing)
    /\ dispatch_program q sz' fuel (make_dispatcher (lift_keyring kr) ft) take_wire give_wire
         (mk_wires (packet ++ rest) [] s)
       = Ok (mk_wires rest resp s', Number (CInt (kr_index_size kr) false) (Z.of_nat i))
    /\ Library.run_body p sz fuel take_wire Library.no_destination Library.no_functor
         (Library.key_read_src (kr_e kr) (kr_m kr) (sig_ret (f_sig f))) [] [] (mk_wires (resp ++ rest') [] tt)
       = Ok ([], mk_wires rest' [] tt,
             match sig_ret (f_sig f) with None => Templates.Nothing | Some _ => Templates.Object r end).
Proof.
  intros S p sz q sz' kr ft name f k args s Hp Hs Hq Hs' Hkp Hkq Hin Hk Hps Hret Hd Hap Haq.
  pose proof (fun rest rest' => C31_remote_call S p q kr ft name f k args s rest rest' Hp Hq Hkp Hkq Hin Hk Hap Haq) as R.
  destruct (f_call f args s) as [s' r]. intros Hrp Hrq.
  destruct (counted_fit _ _ Hps) as (n1 & H1).
  destruct (C103_dispatch q sz' (wires S) (lift_keyring kr) ft Hq Hs') as (n2 & H2).
  { unfold lift_keyring. cbn [kr_funcs]. rewrite Forall_map. eapply Forall_impl; [|exact Hd]. intros [a g] [G1 G2].
    cbn [snd] in *. split; [exact G1|]. cbn [lift_func f_sig f_call]. destruct (sig_ret (f_sig g)); auto.
    destruct G2 as [G2 G3]. split; [exact G2|]. intros args0 w. specialize (G3 args0 (w_user w)).
    destruct (f_call g args0 (w_user w)); exact G3. }
  assert (H3 : exists n, forall fuel, n <= fuel ->
            match sig_ret (f_sig f) with None => True | Some t => LibraryProofs.all_fit sz fuel [t] end).
  { destruct (sig_ret (f_sig f)); [apply counted_fit; exact Hret|exists 0; auto]. }
  destruct H3 as (n3 & H3). exists (Nat.max (Nat.max 8 n1) (Nat.max n2 n3)). intros fuel rest rest' Hf.
  destruct (R rest rest' Hrp Hrq) as (i & packet & resp & Hi & Hw & Hdis & Hrd).
  assert (Hin' : In (name, lift_func f) (kr_funcs (lift_keyring kr))).
  { cbn [lift_keyring kr_funcs]. apply (in_map (fun nf => (fst nf, lift_func (snd nf))) _ _ Hin). }
  destruct (kr_get_nth _ _ _ _ _ Hk Hin') as (Hik & Hu & Ek).
  assert (Hii : i = k_index k).
  { apply (Hu i (lift_func f)). cbn [lift_keyring kr_funcs]. rewrite nth_error_map, Hi. reflexivity. }
  assert (Ew : kr_index_size (lift_keyring kr) = kr_index_size kr).
  { unfold kr_index_size. rewrite lift_funcs_length. reflexivity. }
  assert (Kw : k_index_size k = kr_index_size kr) by (rewrite Ek, <- Ew; reflexivity).
  assert (Ks : k_sig k = f_sig f) by (rewrite Ek; reflexivity).
  assert (Ke : k_e k = kr_e kr) by (rewrite Ek; reflexivity).
  assert (Km : k_m k = kr_m kr) by (rewrite Ek; reflexivity).
  exists i, packet, resp. split; [exact Hi|]. split; [|split].
  - pose proof (PropertiesLibrary.C102_key_write p sz fuel (wires unit) Library.no_source give_wire Library.no_functor k args []
                  (mk_wires [] [] tt) (host_of p sz Hp Hs)) as E. rewrite Kw, Ks, Ke, Km in E. rewrite Hii, E.
    + rewrite Hw. reflexivity.
    + apply H1. lia.
    + lia.
    + destruct Hkp as [L _]. destruct (index_size _ _ L) as (_ & Hsp & _). rewrite Ew in Hsp.
      assert (k_index k < List.length (kr_funcs (lift_keyring kr))) by (apply nth_error_Some; congruence). lia.
    + eapply encodable_has; eauto.
  - rewrite H2 by lia. rewrite Hdis. cbn [bind]. rewrite Ew. reflexivity.
  - pose proof (PropertiesLibrary.C102_key_read p sz fuel (wires unit) take_wire Library.no_destination Library.no_functor k []
                  (mk_wires (resp ++ rest') [] tt) (host_of p sz Hp Hs)) as E. rewrite Ks, Ke, Km in E. rewrite E.
    + rewrite Hrd. cbn [bind]. destruct (sig_ret (f_sig f)); reflexivity.
    + lia.
    + apply H3. lia.
Qed.

(** Every history of a buffered dispatcher: what the linked program does is what the
    model of Buffered.v does. *)
Theorem C103_history : forall p sz (X : Type) dbl (kr : keyring X) ft g g' b ops x,
  keyring_ok p kr -> make_buffered dbl kr ft g g' = Some b ->
  wf_platform p -> p_int_size p <= sz <= 8 ->
  (Z.of_nat (List.length (ibuf (b_bufs b))) < 2 ^ (8 * Z.of_nat sz))%Z ->
  Forall (fun nf => described sz (snd nf)) (kr_funcs kr) -> Forall (described sz) (flat_map op_func ops) ->
  run_ops p ops b x <> Fault OutOfFuel ->
  exists n, forall fuel, n <= fuel ->
    run_program p sz fuel ops (init_members (make_dispatcher kr ft) (b_bufs b)) x
    = match run_ops p ops b x with
      | Ok (b', x', vs) =>
          Ok (mk_members (b_dispatcher b') (b_is_index_loaded b') (Z.of_nat (b_load_count b')) (Z.of_nat (b_ibuf_next b'))
                (Z.of_nat (b_obuf_next b')) (Z.of_nat (b_obuf_bottom b')) (b_bufs b'), x', vs)
      | Fault f => Fault f
      end.
Proof.
  intros p sz X dbl kr ft g g' b ops x Hk Hb Hp Hs Hi Hd Ho Hr.
  assert (Hw : Forall (fun s => (Z.of_nat (wire_sizes (sig_params s)) < 2 ^ (8 * Z.of_nat sz))%Z) (kr_signatures kr)).
  { unfold kr_signatures. rewrite Forall_map. rewrite Forall_forall in *. intros nf Hin.
    destruct (Hd nf Hin) as [[_ Hz] _]. destruct Hk as [_ Hk]. rewrite Forall_forall in Hk. destruct (Hk nf Hin) as [Hok _].
    rewrite (tuple_size_wire (sig_params (f_sig (snd nf)))) in Hz by (eapply tys_layout; eauto).
    assert (S1 : 1 <= sz) by (destruct Hp; lia).
    pose proof (space_half sz S1) as E. pose proof (half_pos sz S1) as P.
    replace (2 ^ (8 * Z.of_nat sz))%Z with (space sz)
      by (unfold space; change 256%Z with (2 ^ 8)%Z; rewrite <- Z.pow_mul_r by lia; reflexivity).
    clear - Hz E P. lia. }
  destruct (PropertiesMethods.C100_history p sz X dbl kr ft g g' b ops x Hk Hb Hp Hs Hi Hw Hr) as (n & H).
  destruct (all_described_fit X sz (map snd (kr_funcs kr))) as (n1 & H1); [rewrite Forall_map; exact Hd|].
  destruct (all_described_fit X sz (flat_map op_func ops) Ho) as (n2 & H2).
  exists (Nat.max (Nat.max 8 n) (Nat.max n1 n2)). intros fuel Hf. rewrite <- (H fuel) by lia.
  apply run_statements.
  - apply host_of; auto.
  - lia.
  - cbn [init_members s_dispatcher]. apply new_actions_fit. apply H1. lia.
  - apply H2. lia.
Qed.

(** Down from the abstract machine of SpecBuffered.v: a double buffered dispatcher. *)
Theorem C103_double : forall p sz (X : Type) (kr : keyring X) ft g g' b ops x,
  wf_platform p -> p_int_size p <= sz <= 8 -> keyring_ok p kr -> well_sized true kr ft ->
  make_double kr ft g g' = Some b ->
  (Z.of_nat (List.length (ibuf (b_bufs b))) < 2 ^ (8 * Z.of_nat sz))%Z ->
  Forall (fun nf => described sz (snd nf)) (kr_funcs kr) -> Forall (described sz) (flat_map op_func ops) ->
  along (format_of kr) (step_ok (format_of kr) p ft (kr_signatures kr)) ops (fresh kr) x ->
  mc_run (format_of kr) ops (fresh kr) x <> Fault OutOfFuel ->
  exists n, forall fuel, n <= fuel ->
    observe (run_program p sz fuel ops (init_members (make_dispatcher kr ft) (b_bufs b)) x)
    = observe (mc_run (format_of kr) ops (fresh kr) x).
Proof.
  intros p sz X kr ft g g' b ops x Hp Hs Hk Hw Hb Hi Hd Ho Hal Hr.
  pose proof (C35_refinement X p kr ft g g' b ops x Hp Hk Hw Hb Hal) as R. rewrite <- R.
  destruct (C103_history p sz X true kr ft g g' b ops x Hk Hb Hp Hs Hi Hd Ho) as (n & H).
  { intros F. rewrite F in R. destruct (mc_run (format_of kr) ops (fresh kr) x) as [[[? ?] ?]|f]; cbn in R; congruence. }
  exists n. intros fuel Hf. rewrite (H fuel Hf). destruct (run_ops p ops b x) as [[[b' x'] vs]|f]; reflexivity.
Qed.

(** The same for a single buffered dispatcher used in half duplex. *)
Theorem C103_single : forall p sz (X : Type) (kr : keyring X) ft g b ops x,
  wf_platform p -> p_int_size p <= sz <= 8 -> keyring_ok p kr -> well_sized false kr ft ->
  make_single kr ft g = Some b ->
  (Z.of_nat (List.length (ibuf (b_bufs b))) < 2 ^ (8 * Z.of_nat sz))%Z ->
  Forall (fun nf => described sz (snd nf)) (kr_funcs kr) -> Forall (described sz) (flat_map op_func ops) ->
  along (format_of kr) (fun o a x => step_ok (format_of kr) p ft (kr_signatures kr) o a x /\ half_duplex o a)
    ops (fresh kr) x ->
  mc_run (format_of kr) ops (fresh kr) x <> Fault OutOfFuel ->
  exists n, forall fuel, n <= fuel ->
    observe (run_program p sz fuel ops (init_members (make_dispatcher kr ft) (b_bufs b)) x)
    = observe (mc_run (format_of kr) ops (fresh kr) x).
Proof.
  intros p sz X kr ft g b ops x Hp Hs Hk Hw Hb Hi Hd Ho Hal Hr.
  pose proof (C42_half_duplex X p kr ft g b ops x Hp Hk Hw Hb Hal) as R. rewrite <- R.
  destruct (C103_history p sz X false kr ft g [] b ops x Hk Hb Hp Hs Hi Hd Ho) as (n & H).
  { intros F. rewrite F in R. destruct (mc_run (format_of kr) ops (fresh kr) x) as [[[? ?] ?]|f]; cbn in R; congruence. }
  exists n. intros fuel Hf. rewrite (H fuel Hf). destruct (run_ops p ops b x) as [[[b' x'] vs]|f]; reflexivity.
Qed.

(** ** Sessions *)

(** Calls made one after the other, each with what the callback returns; both hosts can
    encode the arguments and the results. *)
Inductive made {S : Type} (p q : platform) (kr : keyring S) : S -> list (nat * func S * list val * val) -> S -> Prop :=
| made_nil : forall s, made p q kr s [] s
| made_cons : forall i name f k args r s s1 s2 cs,
    nth_error (kr_funcs kr) i = Some (name, f) -> kr_get kr name f = Some k ->
    calls p kr f args s s1 r -> calls q kr f args s s1 r -> made p q kr s1 cs s2 ->
    made p q kr s ((i, f, args, r) :: cs) s2.

(** What is done with the dispatcher for each call, and what it gives back. *)
Definition exchange {S : Type} (kr : keyring S) (c : nat * func S * list val * val) : list (op S) :=
  let '(i, f, args, r) := c in map Put (packet kr i f args) ++ repeat Get (List.length (answer kr f r)).
Definition exchanged {S : Type} (kr : keyring S) (c : nat * func S * list val * val) : list obs :=
  let '(i, f, args, r) := c in
  (repeat (OStatus LOADING_PACKET) (List.length (packet kr i f args) - 1) ++ [OStatus RESOLVED_PACKET])
  ++ map OByte (answer kr f r).

Lemma exchange_ok : forall (S : Type) p q dbl (kr : keyring S) ft s cs s', wf_platform q -> keyring_ok q kr ->
  well_sized dbl kr ft -> made p q kr s cs s' -> forall b a, reached q dbl kr ft b a s -> idle kr b -> mc_out a = [] ->
  mc_table a = map snd (kr_funcs kr) ->
  exists b', run_ops q (flat_map (exchange kr) cs) b s = Ok (b', s', flat_map (exchanged kr) cs).
Proof.
  intros S p q dbl kr ft s cs s' Hq Hk Hs M. induction M as [s|i name f k args r s s1 s2 cs Hi Hg Hp Hc M IH]; intros b a R I O T.
  - exists b. reflexivity.
  - assert (Hf : nth_error (mc_table a) i = Some f) by (rewrite T, nth_error_map, Hi; reflexivity).
    destruct (C92_intact S q kr i name f args s s1 r Hk Hi Hc) as [Hh _].
    destruct (C92_heard S q dbl kr ft b a s i f _ s1 r Hq Hk Hs R I ltac:(right; exact O) Hf Hh) as (b1 & E1 & R1 & I1).
    destruct (reached_gets q dbl kr ft Hq Hk Hs (List.length (answer kr f r)) b1 _ s1 R1) as (b2 & E2 & R2).
    cbn [mc_in mc_out mc_table] in E2, R2. rewrite firstn_all, Nat.sub_diag, app_nil_r in E2. rewrite skipn_all in R2.
    destruct (IH b2 _ R2) as (b3 & E3); [|reflexivity|exact T|].
    { apply (reached_pending q dbl kr ft Hq Hk Hs b2 _ s1 R2). reflexivity. }
    exists b3. cbn [flat_map exchange exchanged]. rewrite !run_ops_app, E1. cbn [bind]. rewrite E2. cbn [bind].
    rewrite E3. reflexivity.
Qed.

(** Any number of calls from one host to a buffered dispatcher on another, statement by
    statement on both sides: the packets of the caller, given to [put] one byte after the
    other, make the dispatcher call the callbacks in turn; the bytes which [get] gives
    then are those from which the caller reads the results. *)
Theorem C103_session : forall (S : Type) p sz q sz' dbl (kr : keyring S) ft g g' b s cs s',
  wf_platform p -> p_int_size p <= sz <= 8 -> wf_platform q -> p_int_size q <= sz' <= 8 ->
  keyring_ok p kr -> keyring_ok q kr -> well_sized dbl kr ft -> make_buffered dbl kr ft g g' = Some b ->
  (Z.of_nat (List.length (ibuf (b_bufs b))) < 2 ^ (8 * Z.of_nat sz'))%Z ->
  Forall (fun nf => counted sz (TUns (kr_index_size kr) :: sig_params (f_sig (snd nf)))
                    /\ match sig_ret (f_sig (snd nf)) with None => True | Some t => counted sz [t] end) (kr_funcs kr) ->
  Forall (fun nf => described sz' (snd nf)) (kr_funcs kr) ->
  made p q kr s cs s' ->
  exists n, forall fuel, n <= fuel ->
    observe (run_program q sz' fuel (flat_map (exchange kr) cs) (init_members (make_dispatcher kr ft) (b_bufs b)) s)
    = Ok (s', flat_map (exchanged kr) cs)
    /\ Forall (fun c : nat * func S * list val * val =>
         let '(i, f, args, r) := c in
         Library.run_body p sz fuel Library.no_source give_wire Library.no_functor
           (Library.key_write_src (kr_e kr) (kr_m kr) (kr_index_size kr) i (sig_params (f_sig f)))
           [("args", Templates.Object (VList args))] [] (mk_wires [] [] tt)
         = Ok ([], mk_wires [] (packet kr i f args) tt, Templates.Nothing)
         /\ forall rest,
           Library.run_body p sz fuel take_wire Library.no_destination Library.no_functor
             (Library.key_read_src (kr_e kr) (kr_m kr) (sig_ret (f_sig f))) [] [] (mk_wires (answer kr f r ++ rest) [] tt)
           = Ok ([], mk_wires rest [] tt,
                 match sig_ret (f_sig f) with None => Templates.Nothing | Some _ => Templates.Object r end)) cs.
Proof.
  intros S p sz q sz' dbl kr ft g g' b s cs s' Hp Hs Hq Hs' Hkp Hkq Hw Hb Hi Hc Hd M.
  pose proof (reached_new q dbl kr ft g g' b s Hb) as R0.
  assert (I0 : idle kr b) by (apply (reached_pending q dbl kr ft Hq Hkq Hw b _ s R0); reflexivity).
  destruct (exchange_ok S p q dbl kr ft s cs s' Hq Hkq Hw M b (fresh kr) R0 I0 eq_refl eq_refl) as (b' & E).
  destruct (C103_history q sz' S dbl kr ft g g' b (flat_map (exchange kr) cs) s Hkq Hb Hq Hs' Hi Hd) as (n & H).
  { clear. induction cs as [|[[[i f] args] r] cs IH]; [constructor|]. cbn [flat_map exchange]. rewrite !flat_map_app.
    apply Forall_app. split; [|exact IH]. apply Forall_app. split.
    - induction (packet kr i f args); cbn; auto.
    - induction (answer kr f r); cbn; auto. }
  { rewrite E. discriminate. }
  assert (F : exists n, forall fuel, n <= fuel -> Forall (fun nf : nat * func S =>
      LibraryProofs.all_fit sz fuel (TUns (kr_index_size kr) :: sig_params (f_sig (snd nf)))
      /\ match sig_ret (f_sig (snd nf)) with None => True | Some t => LibraryProofs.all_fit sz fuel [t] end) (kr_funcs kr)).
  { clear - Hc. induction Hc as [|nf l [H1 H2] _ [n1 IH]]; [exists 0; constructor|].
    destruct (counted_fit _ _ H1) as (n2 & F2).
    assert (exists n, forall fuel, n <= fuel ->
              match sig_ret (f_sig (snd nf)) with None => True | Some t => LibraryProofs.all_fit sz fuel [t] end) as (n3 & F3).
    { destruct (sig_ret (f_sig (snd nf))); [apply counted_fit; exact H2|exists 0; auto]. }
    exists (Nat.max n1 (Nat.max n2 n3)). intros fuel Hf. constructor; [split; [apply F2|apply F3]; lia|apply IH; lia]. }
  destruct F as (n1 & F). exists (Nat.max 8 (Nat.max n n1)). intros fuel Hf. split.
  - rewrite (H fuel) by lia. rewrite E. reflexivity.
  - specialize (F fuel ltac:(lia)). assert (Hf8 : 8 <= fuel) by lia. clear - Hp Hs Hkp M F Hf8.
    induction M as [s|i name f k args r s s1 s2 cs Hi Hg Hc Hcq M IH]; constructor; [|exact IH].
    pose proof (nth_error_In _ _ Hi) as Hin.
    rewrite Forall_forall in F. destruct (F _ Hin) as [F1 F2]. cbn [snd] in F1, F2.
    destruct (kr_get_nth _ _ _ _ _ Hg Hin) as (Hik & Hu & Ek).
    assert (Hii : i = k_index k) by (apply (Hu i f); auto).
    assert (Kw : k_index_size k = kr_index_size kr) by (rewrite Ek; reflexivity).
    assert (Ks : k_sig k = f_sig f) by (rewrite Ek; reflexivity).
    assert (Ke : k_e k = kr_e kr) by (rewrite Ek; reflexivity).
    assert (Km : k_m k = kr_m kr) by (rewrite Ek; reflexivity).
    destruct Hc as (Hca & Hcc & Hcr). split.
    + pose proof (PropertiesLibrary.C102_key_write p sz fuel (wires unit) Library.no_source give_wire Library.no_functor k args []
                    (mk_wires [] [] tt) (host_of p sz Hp Hs)) as W. rewrite Kw, Ks, Ke, Km in W. rewrite Hii, W; auto.
      * rewrite (packet_sent p kr (k_index k) name f k args); auto.
      * destruct Hkp as [L _]. destruct (index_size _ _ L) as (_ & Hsp & _).
        assert (k_index k < List.length (kr_funcs kr)) by (apply nth_error_Some; congruence). lia.
      * eapply encodable_has; eauto.
    + intros rest.
      pose proof (PropertiesLibrary.C102_key_read p sz fuel (wires unit) take_wire Library.no_destination Library.no_functor k []
                    (mk_wires (answer kr f r ++ rest) [] tt) (host_of p sz Hp Hs)) as W. rewrite Ks, Ke, Km in W. rewrite W; auto.
      assert (Hsig : sig_ok p (kr_e kr) (kr_m kr) (f_sig f)).
      { destruct Hkp as [_ L]. rewrite Forall_forall in L. apply (L _ Hin). }
      rewrite (C28_returns _ p k take_wire _ (mk_wires rest [] tt) r); auto.
      * rewrite Ks. cbn [bind]. destruct (sig_ret (f_sig f)); reflexivity.
      * rewrite Ke, Km, Ks. apply Hsig.
      * rewrite Km, Ks. exact Hcr.
      * rewrite Ke, Km, Ks. apply pull_wires. unfold answer, response, wire_size_ret.
        destruct (sig_ret (f_sig f)); auto. cbn [ret_encodable] in Hcr. apply enc_length. apply Hcr.
Qed.

(** ** A keyring *)

(** A sum in [int32_t], whatever the arguments, a notification, and a callback on an
    object. *)
Definition ex_total : func log :=
  mk_func (mk_sig [TSig 2; TUns 1] (Some (TSig 4)))
    (fun args s => ((0, args) :: s,
       match args with [VInt a; VInt b] => VInt (Z.max (-65536) (Z.min 65536 (a + b))) | _ => VInt 0 end)).
Definition ex_program : keyring log :=
  mk_keyring BIG TWOS_COMPLEMENT [(10, ex_total); (20, ex_notify); (30, ex_swap)].

Lemma counted_ex : forall sz ts, 2 <= sz <= 8 -> In ts [[TSig 2; TUns 1]; [TSig 4]; []; [TUser 4 [TUns 1; TSig 2]];
    [TArr (TUns 1) 2]; [TUns 1; TSig 2; TUns 1]; [TUns 1]; [TUns 1; TUser 4 [TUns 1; TSig 2]]] -> counted sz ts.
Proof.
  intros sz ts Hs Hin. pose proof (space_mono 2 sz ltac:(lia)) as s. change (space 2) with 65536%Z in s.
  pose proof (space_half sz ltac:(lia)) as h.
  assert (Hn : (100 < half sz)%Z /\ (100 < space sz)%Z) by lia. clear s h.
  assert (B : Forall (fun t => wf_ty t /\ (Z.of_nat (sizeof t) <= 50)%Z) ts /\ (Z.of_nat (tuple_size ts) <= 50)%Z).
  { cbn [In] in Hin. destruct Hin as [<-|[<-|[<-|[<-|[<-|[<-|[<-|[<-|[]]]]]]]]]; (split; [|vm_compute; discriminate]);
      repeat (apply Forall_cons || apply Forall_nil); (split; [cbn; lia|vm_compute; discriminate]). }
  destruct B as [B1 B2]. split; [|lia].
  assert (C : Forall (LibraryProofs.countable sz) ts).
  { cbn [In] in Hin. destruct Hin as [<-|[<-|[<-|[<-|[<-|[<-|[<-|[<-|[]]]]]]]]];
      repeat (apply Forall_cons || apply Forall_nil); cbn [LibraryProofs.countable fold_right sizeof Nat.mul Nat.add];
      repeat split; try (change (tuple_size [TUns 1; TSig 2]) with 3); lia. }
  rewrite Forall_forall in *. intros t Ht. specialize (B1 t Ht). specialize (C t Ht). destruct B1. repeat split; auto; lia.
Qed.

Lemma ex_described : forall sz, 2 <= sz <= 8 -> Forall (fun nf => described sz (snd nf)) (kr_funcs ex_program).
Proof.
  intros sz Hs. unfold ex_program. cbn [kr_funcs].
  repeat (apply Forall_cons || apply Forall_nil); cbn [snd]; (split; [apply counted_ex; cbn; auto 9|]);
    cbn [ex_total ex_notify ex_swap f_sig sig_ret f_call]; auto; (split; [apply counted_ex; cbn; auto 9|]); intros args x.
  - assert (H : exists z, snd (f_call ex_total args x) = VInt z /\ (-65536 <= z <= 65536)%Z).
    { cbn [ex_total f_call snd].
      repeat match goal with |- context [match ?v with _ => _ end] => is_var v; destruct v end;
        eexists; (split; [reflexivity|lia]). }
    destruct H as (z & E & Hz). cbn [ex_total f_call] in E. rewrite E. cbn [has_type]. change (half 4) with 2147483648%Z. lia.
  - cbn [snd has_type List.length]. change (space 1) with 256%Z. split; [reflexivity|].
    repeat (apply Forall_cons || apply Forall_nil); lia.
Qed.

(** A PC asks an AVR for the total of -2 and 5. *)
Example C103_example_remote_call :
  let kr := ex_program in
  let f := ex_total in
  kr_get (lift_keyring kr) 10 (lift_func f) = Some (mk_key 1 0 (f_sig f) BIG TWOS_COMPLEMENT)
  /\ counted 8 (TUns (kr_index_size kr) :: sig_params (f_sig f)) /\ counted 8 [TSig 4]
  /\ Forall (fun nf => described 2 (snd nf)) (kr_funcs kr)
  /\ Library.run_body pc_native 8 8 Library.no_source give_wire Library.no_functor
       (Library.key_write_src BIG TWOS_COMPLEMENT 1 0 (sig_params (f_sig f)))
       [("args", Templates.Object (VList [VInt (-2); VInt 5]))] [] (mk_wires [] [] tt)
     = Ok ([], mk_wires [] [0; 255; 254; 5]%Z tt, Templates.Nothing)
  /\ dispatch_program avr_portable 2 8 (make_dispatcher (lift_keyring kr) WEAK_REFERENCE) take_wire give_wire
       (mk_wires [0; 255; 254; 5; 77]%Z [] [])
     = Ok (mk_wires [77]%Z [0; 0; 0; 3]%Z [(0, [VInt (-2); VInt 5])], Number (CInt 1 false) 0)
  /\ Library.run_body pc_native 8 8 take_wire Library.no_destination Library.no_functor
       (Library.key_read_src BIG TWOS_COMPLEMENT (sig_ret (f_sig f))) [] [] (mk_wires [0; 0; 0; 3; 88]%Z [] tt)
     = Ok ([], mk_wires [88]%Z [] tt, Templates.Object (VInt 3)).
Proof.
  cbv zeta. split; [vm_compute; reflexivity|]. split; [apply counted_ex; [lia|cbn; auto 9]|].
  split; [apply counted_ex; [lia|cbn; auto 9]|]. split; [apply ex_described; lia|].
  split; [vm_compute; reflexivity|]. split; vm_compute; reflexivity.
Qed.

(** A history with a callback replaced in the middle, run on a 64-bit host. *)
Definition ex_notify' : func log := mk_func (mk_sig [] None) (fun args s => ((7, args) :: s, VInt 0)).
Definition ex_run : list (op log) :=
  [Put 0; Put 255; Put 254; Put 5; IsLoaded; Get; Get; Get; Get; Put 1; Put 9; Replace 1%nat (ByFunctor ex_notify'); Put 1; Move;
   ReadFrom (fun x => Ok (x, 0)); WriteTo (fun byte x => Ok ((9%nat, [VInt byte]) :: x))]%Z.

Lemma ex_program_ok : keyring_ok pc_native ex_program.
Proof.
  split; [vm_compute; reflexivity|]. unfold ex_program. cbn [kr_funcs kr_e kr_m].
  list_cases; split; cbn [snd f_sig sig_params sig_ret ex_total ex_notify ex_swap ret_ty_ok]; tyoks.
Qed.

Example C103_example : exists b,
  keyring_ok pc_native ex_program /\ make_buffered true ex_program ANY [9; 9; 9]%Z [] = Some b
  /\ wf_platform pc_native /\ p_int_size pc_native <= 8 <= 8
  /\ (Z.of_nat (List.length (ibuf (b_bufs b))) < 2 ^ (8 * Z.of_nat 8))%Z
  /\ Forall (fun nf => described 8 (snd nf)) (kr_funcs ex_program)
  /\ Forall (described 8) (flat_map op_func ex_run)
  /\ observe (run_program pc_native 8 9 ex_run (init_members (make_dispatcher ex_program ANY) (b_bufs b)) [])
     = Ok ([(9, [VInt 0]); (9, [VInt 0]); (9, [VInt 0]); (9, [VInt 0]); (0, [VInt 0; VInt 0]); (7, []); (1, []);
            (0, [VInt (-2); VInt 5])]%nat,
           [OStatus LOADING_PACKET; OStatus LOADING_PACKET; OStatus LOADING_PACKET; OStatus RESOLVED_PACKET; OBool true;
            OByte 0; OByte 0; OByte 0; OByte 3; OStatus RESOLVED_PACKET; OStatus DROPPED_PACKET; ONone; OStatus RESOLVED_PACKET; ONone;
            OStatus RESOLVED_PACKET; ONone])%Z.
Proof.
  eexists. split; [exact ex_program_ok|]. split; [reflexivity|]. split; [exact pc_native_wf|]. split; [cbn; lia|].
  split; [reflexivity|]. split; [apply ex_described; lia|]. split.
  - cbn [ex_run flat_map op_func app]. constructor; [|constructor]. split; [apply counted_ex; [lia|cbn; auto 9]|exact I].
  - vm_compute. reflexivity.
Qed.

(** The conditions of [C103_double] and [C103_single] on the same keyring. *)
Lemma ex_program_sized : well_sized true ex_program ANY /\ well_sized false ex_program ANY.
Proof.
  split; unfold well_sized, ex_program, kr_signatures; cbn [kr_funcs map snd]; list_cases;
    (split; [discriminate|]); vm_compute; lia.
Qed.

Example C103_example_double : exists b,
  well_sized true ex_program ANY /\ make_double ex_program ANY [9; 9; 9]%Z [] = Some b
  /\ let ops := [Put 0; Put 255; Put 254; Put 5; Get; Put 1; IsLoaded; Get; Get; Get; Put 7]%Z in
     along (format_of ex_program) (step_ok (format_of ex_program) pc_native ANY (kr_signatures ex_program)) ops
       (fresh ex_program) []
  /\ Forall (described 8) (flat_map op_func ops)
  /\ mc_run (format_of ex_program) ops (fresh ex_program) [] <> Fault OutOfFuel
  /\ observe (run_program pc_native 8 9 ops (init_members (make_dispatcher ex_program ANY) (b_bufs b)) []) =
     Ok ([(1, []); (0, [VInt (-2); VInt 5])],
         [OStatus LOADING_PACKET; OStatus LOADING_PACKET; OStatus LOADING_PACKET; OStatus RESOLVED_PACKET; OByte 0;
          OStatus RESOLVED_PACKET; OBool false; OByte 0; OByte 0; OByte 0; OStatus DROPPED_PACKET]%Z).
Proof.
  eexists. split; [exact (proj1 ex_program_sized)|]. split; [reflexivity|]. cbv zeta. split; [legit|].
  split; [constructor|]. split; [vm_compute; discriminate|]. vm_compute. reflexivity.
Qed.

Example C103_example_single : exists b,
  well_sized false ex_program ANY /\ make_single ex_program ANY [9; 9; 9]%Z = Some b
  /\ let ops := [Put 0; Put 255; Put 254; Put 5; Get; IsLoaded; Get; Get; Get; Put 2; Put 1]%Z in
     along (format_of ex_program) (fun o a x => step_ok (format_of ex_program) pc_native ANY (kr_signatures ex_program) o a x
                                     /\ half_duplex o a) ops (fresh ex_program) []
  /\ mc_run (format_of ex_program) ops (fresh ex_program) [] <> Fault OutOfFuel
  /\ observe (run_program pc_native 8 9 ops (init_members (make_dispatcher ex_program ANY) (b_bufs b)) []) =
     Ok ([(0, [VInt (-2); VInt 5])],
         [OStatus LOADING_PACKET; OStatus LOADING_PACKET; OStatus LOADING_PACKET; OStatus RESOLVED_PACKET;
          OByte 0; OBool true; OByte 0; OByte 0; OByte 3; OStatus LOADING_PACKET; OStatus LOADING_PACKET]%Z).
Proof.
  eexists. split; [exact (proj2 ex_program_sized)|]. split; [reflexivity|]. cbv zeta. split; [legit|].
  split; [vm_compute; discriminate|]. vm_compute. reflexivity.
Qed.

(** Two calls from the PC to the AVR. *)
Lemma ex_program_avr : keyring_ok avr_portable ex_program.
Proof.
  split; [vm_compute; reflexivity|]. unfold ex_program. cbn [kr_funcs kr_e kr_m].
  list_cases; split; cbn [snd f_sig sig_params sig_ret ex_total ex_notify ex_swap ret_ty_ok]; tyoks.
Qed.

Definition ex_session : list (nat * func log * list val * val) :=
  [(0, ex_total, [VInt (-2); VInt 5], VInt 3); (1, ex_notify, [], VInt 0); (0, ex_total, [VInt 300; VInt 7], VInt 307)].

Example C103_example_session : exists b,
  keyring_ok pc_native ex_program /\ keyring_ok avr_portable ex_program
  /\ make_buffered true ex_program ANY [9; 9; 9]%Z [] = Some b
  /\ (Z.of_nat (List.length (ibuf (b_bufs b))) < 2 ^ (8 * Z.of_nat 2))%Z
  /\ Forall (fun nf => counted 8 (TUns (kr_index_size ex_program) :: sig_params (f_sig (snd nf)))
                    /\ match sig_ret (f_sig (snd nf)) with None => True | Some t => counted 8 [t] end) (kr_funcs ex_program)
  /\ Forall (fun nf => described 2 (snd nf)) (kr_funcs ex_program)
  /\ made pc_native avr_portable ex_program [] ex_session
       [(0, [VInt 300; VInt 7]); (1, []); (0, [VInt (-2); VInt 5])]
  /\ flat_map (exchange ex_program) ex_session
     = [Put 0; Put 255; Put 254; Put 5; Get; Get; Get; Get; Put 1; Put 0; Put 1; Put 44; Put 7; Get; Get; Get; Get]%Z.
Proof.
  eexists. split; [exact ex_program_ok|]. split; [exact ex_program_avr|]. split; [reflexivity|]. split; [reflexivity|].
  split.
  { unfold ex_program. cbn [kr_funcs]. repeat (apply Forall_cons || apply Forall_nil); cbn [snd];
      (split; [apply counted_ex; [lia|vm_compute; auto 9]|]); cbn [ex_total ex_notify ex_swap f_sig sig_ret]; auto;
      apply counted_ex; [lia|cbn; auto 9|lia|cbn; auto 9]. }
  split; [apply ex_described; lia|]. split; [|vm_compute; reflexivity].
  unfold ex_session. eapply made_cons; [reflexivity|vm_compute; reflexivity| | |].
  1, 2: split; [encs|split; [reflexivity|cbn [ret_encodable]; encs]].
  eapply made_cons; [reflexivity|vm_compute; reflexivity| | |].
  1, 2: split; [constructor|split; [reflexivity|exact I]].
  eapply made_cons; [reflexivity|vm_compute; reflexivity| | |].
  1, 2: split; [encs|split; [reflexivity|cbn [ret_encodable]; encs]].
  apply made_nil.
Qed.

Print Assumptions C103_dispatch.
Print Assumptions C103_remote_call.
Print Assumptions C103_session.
Print Assumptions C103_history.
Print Assumptions C103_double.
Print Assumptions C103_single.
