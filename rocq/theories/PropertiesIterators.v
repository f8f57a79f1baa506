(** Property C83: iterators used as byte streams. *)

From Coq Require Import List ZArith Lia Bool Arith.
From Verif Require Import Base CInt Spec IntModel Conditions MemFacts TypeLevel Serial TupleModel
  TypeLevelProofs IntProofs SignedProofs SerialProofs CodecFacts Bounds TupleProofs SpecRpc Rpc RpcProofs
  Hosts Closed PropertiesTypes PropertiesRpc Buffered SpecBuffered BufferedProofs PropertiesBuffered
  PropertiesBuffers PropertiesPackets Iterators.
Import ListNotations.
Open Scope nat_scope.

(** ** Specification *)

(** A dispatcher in the middle of a legitimate history of a program which, unlike
    in [reached], may do anything else between two operations. *)
Inductive lived {X : Type} (p : platform) (dbl : bool) (kr : keyring X) (ft : action_features)
    : buffered X -> machine X -> Prop :=
| lived_new : forall g g' b, make_buffered dbl kr ft g g' = Some b -> lived p dbl kr ft b (fresh kr)
| lived_step : forall o b a x b' a' x' v, lived p dbl kr ft b a -> legitimate p dbl kr ft o a x ->
    mc_step (format_of kr) o a x = Ok (a', x', v) -> step p o b x = Ok (b', x', v) -> lived p dbl kr ft b' a'.

(** [*it++], [n] times. *)
Fixpoint fetches {I S : Type} (fetch : I -> S -> res (I * S * Z)) (n : nat) (it : I) (s : S) : res (I * S * list Z) :=
  match n with
  | 0 => Ok (it, s, [])
  | Datatypes.S n' =>
      '(it1, s1, byte) <- fetch it s;;
      '(it2, s2, bs) <- fetches fetch n' it1 s1;;
      Ok (it2, s2, byte :: bs)
  end.

(** [*it++ = byte] for each byte. *)
Fixpoint emits {O T : Type} (emit : Z -> O -> T -> res (O * T)) (bs : list Z) (it : O) (t : T) : res (O * T) :=
  match bs with
  | [] => Ok (it, t)
  | byte :: bs' => '(it1, t1) <- emit byte it t;; emits emit bs' it1 t1
  end.

(** ** Histories *)

Section Lived.
  Context {X : Type}.
  Variables (p : platform) (dbl : bool) (kr : keyring X) (ft : action_features).
  Hypothesis Hp : wf_platform p.
  Hypothesis Hk : keyring_ok p kr.
  Hypothesis Hs : well_sized dbl kr ft.

  Lemma lived_represents : forall b a, lived p dbl kr ft b a ->
    exists ni no, kr_index_size kr <= ni
      /\ Forall (framing_ok ft ni no (kr_index_size kr)) (kr_signatures kr)
      /\ represents kr ft ni no dbl b a.
  Proof.
    intros b a H. induction H as [g g' b Hb|o b a x b' a' x' v H IH [Hok Hal] Hm Hst].
    - apply (make_buffered_represents X p dbl kr ft g g' b Hk Hs Hb).
    - destruct IH as (ni & no & Hw & Hf & Hr). exists ni, no. split; auto. split; auto.
      pose proof (step_refines p kr ft ni no dbl Hp Hk Hw Hf o b a x Hr Hok Hal) as Ha.
      unfold agrees in Ha. rewrite Hm in Ha. destruct Ha as (b2 & E & Hr2).
      assert (b' = b2) by congruence. subst. exact Hr2.
  Qed.

  Lemma lived_does : forall o b a x a' x' v, lived p dbl kr ft b a -> legitimate p dbl kr ft o a x ->
    mc_step (format_of kr) o a x = Ok (a', x', v) ->
    exists b', step p o b x = Ok (b', x', v) /\ lived p dbl kr ft b' a'.
  Proof.
    intros o b a x a' x' v H Hl Hm. pose proof Hl as [Hok Hal].
    destruct (lived_represents b a H) as (ni & no & Hw & Hf & Hr).
    pose proof (step_refines p kr ft ni no dbl Hp Hk Hw Hf o b a x Hr Hok Hal) as Ha.
    unfold agrees in Ha. rewrite Hm in Ha. destruct Ha as (b2 & E & _). exists b2. split; auto.
    eapply lived_step; eauto.
  Qed.

  Lemma lived_faults : forall o b a x f, lived p dbl kr ft b a -> legitimate p dbl kr ft o a x ->
    mc_step (format_of kr) o a x = Fault f -> step p o b x = Fault f.
  Proof.
    intros o b a x f H [Hok Hal] Hm. destruct (lived_represents b a H) as (ni & no & Hw & Hf & Hr).
    pose proof (step_refines p kr ft ni no dbl Hp Hk Hw Hf o b a x Hr Hok Hal) as Ha.
    unfold agrees in Ha. rewrite Hm in Ha. exact Ha.
  Qed.

  Lemma lived_table : forall b a, lived p dbl kr ft b a -> map f_sig (mc_table a) = kr_signatures kr.
  Proof. intros b a H. destruct (lived_represents b a H) as (ni & no & _ & _ & Hr). apply Hr. Qed.

  Lemma reached_lived : forall b a x, reached p dbl kr ft b a x -> lived p dbl kr ft b a.
  Proof.
    intros b a x (g & g' & b0 & ops & x0 & vs & Hb & Hal & Hm & Hr).
    apply (lived_new p) in Hb. revert Hb Hal Hm Hr. generalize (fresh kr). revert b0 x0 vs.
    induction ops as [|o ops IH]; intros b0 x0 vs a0 Hb Hal Hm Hr; cbn [along mc_run run_ops] in *.
    - injection Hm as -> -> <-. injection Hr as ->. exact Hb.
    - ok_inv Hm q. destruct q as [[a1 x1] v]. ok_inv Hm q. destruct q as [[a2 x2] vs2]. injection Hm as -> -> <-.
      destruct Hal as [Hl1 Hl2].
      destruct (lived_does o b0 a0 x0 a1 x1 v Hb Hl1 E) as (b1 & E1 & H1).
      rewrite E1 in Hr. cbn [bind] in Hr. ok_inv Hr q. destruct q as [[b2 y] vs']. injection Hr as -> -> <-.
      eapply (IH b1 x1 _ a1 H1 (Hl2 _ _ _ eq_refl)); eauto.
  Qed.
End Lived.

(** ** The copy of the iterator *)

Section Sites.
  Context {I O S T V : Type}.

  Lemma pull_reader : forall (fetch : fetcher I S) n it s (o : O) (t : T) (v : V),
    pull (reader fetch) n (mk_site it s o t v)
    = ('(it', s', bs) <- fetches fetch n it s;; Ok (mk_site it' s' o t v, bs)).
  Proof.
    intros fetch. induction n as [|n IH]; intros it s o t v; cbn [pull fetches bind]; auto.
    unfold reader at 1. cbn [in_it in_medium out_it out_medium rest].
    destruct (fetch it s) as [[[it1 s1] c]|]; cbn [bind]; auto. rewrite IH.
    destruct (fetches fetch n it1 s1) as [[[it2 s2] bs]|]; reflexivity.
  Qed.

  Lemma push_writer : forall (emit : emitter O T) bs (it : I) (s : S) o t (v : V),
    push (writer emit) bs (mk_site it s o t v)
    = ('(o', t') <- emits emit bs o t;; Ok (mk_site it s o' t' v)).
  Proof.
    intros emit. induction bs as [|c bs IH]; intros it s o t v; cbn [push emits bind]; auto.
    unfold writer at 1. cbn [in_it in_medium out_it out_medium rest].
    destruct (emit c o t) as [[o1 t1]|]; cbn [bind]; auto.
  Qed.

  Lemma aside_sigs : forall kr : keyring V, kr_signatures (aside_keyring (I := I) (O := O) (S := S) (T := T) kr) = kr_signatures kr.
  Proof. intros kr. unfold kr_signatures. cbn [aside_keyring kr_funcs]. rewrite map_map. reflexivity. Qed.

  Lemma aside_ok : forall p (kr : keyring V), keyring_ok p kr ->
    keyring_ok p (aside_keyring (I := I) (O := O) (S := S) (T := T) kr).
  Proof.
    intros p kr [H1 H2]. split; cbn [aside_keyring kr_funcs kr_e kr_m].
    - rewrite map_length. exact H1.
    - rewrite Forall_map. exact H2.
  Qed.

  Lemma aside_sized : forall dbl (kr : keyring V) ft, well_sized dbl kr ft ->
    well_sized dbl (aside_keyring (I := I) (O := O) (S := S) (T := T) kr) ft.
  Proof.
    intros dbl kr ft H. unfold well_sized, out_capacity, max_native, kr_index_size in *. rewrite aside_sigs.
    cbn [aside_keyring kr_funcs]. rewrite map_length. exact H.
  Qed.

  Lemma aside_packet : forall (kr : keyring V) i f args,
    packet (aside_keyring (I := I) (O := O) (S := S) (T := T) kr) i (aside f) args = packet kr i f args.
  Proof.
    intros. unfold packet, kr_index_size. cbn [aside_keyring kr_funcs kr_e kr_m]. rewrite map_length. reflexivity.
  Qed.

  Lemma aside_calls : forall p (kr : keyring V) f args it s o t v v' r, calls p kr f args v v' r ->
    calls p (aside_keyring kr) (aside (I := I) (O := O) (S := S) (T := T) f) args
      (mk_site it s o t v) (mk_site it s o t v') r.
  Proof.
    intros p kr f args it s o t v v' r (H1 & H2 & H3). split; [exact H1|]. split; [|exact H3].
    cbn [aside f_call rest in_it in_medium out_it out_medium]. rewrite H2. reflexivity.
  Qed.
End Sites.

Lemma mc_read_stuck : forall (X : Type) p (kr : keyring X) (src : source X) n i f args x x1 x2 x3 r out flt table,
  keyring_ok p kr ->
  map f_sig table = kr_signatures kr -> nth_error table i = Some f -> calls p kr f args x2 x3 r ->
  n < length (packet kr i f args) -> pull src n x = Ok (x1, firstn n (packet kr i f args)) -> src x1 = Fault flt ->
  mc_read (format_of kr) src (mk_machine [] out table) x = Fault flt
  /\ readable (format_of kr) p src (mk_machine [] out table) x.
Proof.
  intros X p kr src n i f args x x1 x2 x3 r out flt table Hk Ht Hi Hc Hlt Hpull Hsrc.
  pose proof (packet_length p kr i f args x2 x3 r Hc) as Hl. set (pk := packet kr i f args) in *.
  set (w := kr_index_size kr) in *.
  assert (Hw : 1 <= w) by apply (index_size X kr (proj1 Hk)).
  assert (Hbytes : forall k y bs, k <= n -> pull src k x = Ok (y, bs) -> Forall is_byte bs).
  { intros k y bs Hle E. replace n with (k + (n - k)) in Hpull by lia. rewrite pull_app, E in Hpull.
    cbn [bind] in Hpull. destruct (pull src (n - k) y) as [[y2 l2]|]; [|discriminate]. cbn [bind] in Hpull.
    assert (El : bs ++ l2 = firstn (k + (n - k)) pk) by congruence.
    assert (Hf : Forall is_byte (bs ++ l2)).
    { rewrite El. pose proof (packet_bytes kr i f args) as Hb. fold pk in Hb.
      rewrite <- (firstn_skipn (k + (n - k)) pk) in Hb. apply Forall_app in Hb. apply Hb. }
    apply Forall_app in Hf. apply Hf. }
  assert (Hstuck : forall k, n < k -> pull src k x = Fault flt).
  { intros k Hlk. replace k with (n + (1 + (k - n - 1))) by lia. rewrite pull_app, Hpull. cbn [bind].
    change (1 + (k - n - 1)) with (S (k - n - 1)). cbn [pull]. rewrite Hsrc. reflexivity. }
  assert (M0 : missing (format_of kr) table [] = w).
  { unfold missing. cbn [length format_of fm_w]. fold w. destruct (Nat.ltb_spec 0 w); lia. }
  destruct (le_lt_dec w n) as [Hwn|Hnw].
  - pose proof Hpull as Hp2. replace n with (w + (n - w)) in Hp2 by lia. rewrite pull_app in Hp2.
    destruct (pull src w x) as [[y bs]|] eqn:Ew; [|discriminate Hp2]. cbn [bind] in Hp2.
    destruct (pull src (n - w) y) as [[y2 bs2]|] eqn:E2; [|discriminate Hp2]. cbn [bind] in Hp2.
    assert (Ebs : bs = firstn w pk).
    { assert (E : bs ++ bs2 = firstn (w + (n - w)) pk) by congruence.
      rewrite <- (firstn_app_exact _ bs bs2), E, (pull_length _ _ _ _ _ _ Ew), firstn_firstn. f_equal. lia. }
    assert (M1 : missing (format_of kr) table bs = wire_sizes (sig_params (f_sig f))).
    { unfold missing. rewrite Ebs, firstn_length. cbn [format_of fm_w]. fold w.
      destruct (Nat.ltb_spec (Nat.min w (length pk)) w); [lia|].
      unfold pk. rewrite (packet_designates p kr Hk table Ht i f args); auto.
      - unfold params. fold pk. lia.
      - fold pk w. rewrite firstn_firstn, Nat.min_id. reflexivity. }
    assert (E3 : pull src (wire_sizes (sig_params (f_sig f))) y = Fault flt).
    { specialize (Hstuck (w + wire_sizes (sig_params (f_sig f))) ltac:(lia)).
      rewrite pull_app, Ew in Hstuck. cbn [bind] in Hstuck.
      destruct (pull src (wire_sizes (sig_params (f_sig f))) y) as [[? ?]|]; [discriminate Hstuck|]. exact Hstuck. }
    assert (Hf : mc_fetch (format_of kr) src (mk_machine [] out table) x = Fault flt).
    { unfold mc_fetch. cbn [mc_table mc_in app]. rewrite M0, Ew. cbn [bind]. rewrite M1, E3. reflexivity. }
    split; [unfold mc_read; rewrite Hf; reflexivity|]. unfold readable. cbn [mc_table mc_in app]. rewrite M0.
    split; [|split].
    + intros k z l Hle E. apply (Hbytes k z l); auto. lia.
    + intros z l E k u l' Hle E'. rewrite Ew in E. injection E as <- <-.
      destruct (le_lt_dec k (n - w)) as [Hkn|Hkn].
      * assert (Ew' : pull src (w + k) x = Ok (u, bs ++ l')).
        { rewrite pull_app, Ew. cbn [bind]. rewrite E'. reflexivity. }
        apply Hbytes in Ew'; [|lia]. apply Forall_app in Ew'. apply Ew'.
      * assert (Ew' : pull src (w + k) x = Fault flt) by (apply Hstuck; lia).
        rewrite pull_app, Ew in Ew'. cbn [bind] in Ew'. rewrite E' in Ew'. discriminate Ew'.
    + intros x' bs' E. rewrite Hf in E. discriminate E.
  - assert (Ew : pull src w x = Fault flt) by (apply Hstuck; exact Hnw).
    assert (Hf : mc_fetch (format_of kr) src (mk_machine [] out table) x = Fault flt).
    { unfold mc_fetch. cbn [mc_table mc_in app]. rewrite M0, Ew. reflexivity. }
    split; [unfold mc_read; rewrite Hf; reflexivity|]. unfold readable. cbn [mc_table mc_in app]. rewrite M0.
    split; [|split].
    + intros k z l Hle E. destruct (le_lt_dec k n) as [Hkn|Hkn]; [apply (Hbytes k z l); auto|].
      rewrite (Hstuck k Hkn) in E. discriminate E.
    + intros z l E. rewrite Ew in E. discriminate E.
    + intros x' bs' E. rewrite Hf in E. discriminate E.
Qed.

(** ** Reading through an iterator *)

(** As many elements as there are bytes in the packet are fetched, then the
    callback runs. *)
Theorem C83_reads : forall (I S V : Type) p (fetch : fetcher I S) dbl (kr : keyring V) ft table out b i f args it it' s s' v v' r,
  wf_platform p -> keyring_ok p kr -> well_sized dbl kr ft ->
  lived p dbl (aside_keyring kr) ft b (mk_machine [] out (map aside table)) -> (dbl = true \/ out = []) ->
  nth_error table i = Some f -> calls p kr f args v v' r ->
  fetches fetch (length (packet kr i f args)) it s = Ok (it', s', packet kr i f args) ->
  exists b', read_from_it p fetch it b s v = Ok (b', s', v', RESOLVED_PACKET)
    /\ lived p dbl (aside_keyring kr) ft b' (mk_machine [] (answer kr f r) (map aside table)).
Proof.
  intros I S V p fetch dbl kr ft table out b i f args it it' s s' v v' r Hp Hk Hs H Hq Hi Hc Hf.
  pose proof (aside_ok (I := I) (O := unit) (S := S) (T := unit) p kr Hk) as Hk'.
  pose proof (aside_sized (I := I) (O := unit) (S := S) (T := unit) dbl kr ft Hs) as Hs'.
  pose proof (lived_table p dbl _ ft Hp Hk' Hs' _ _ H) as Ht. cbn [mc_table] in Ht.
  assert (Hi' : nth_error (map aside table) i = Some (aside (I := I) (O := unit) (S := S) (T := unit) f))
    by (rewrite nth_error_map, Hi; reflexivity).
  pose proof (aside_calls (O := unit) (T := unit) p kr f args it' s' tt tt v v' r Hc) as Hc'.
  destruct (mc_read_packet p (aside_keyring kr) Hk' (reader fetch) i (aside f) args (mk_site it s tt tt v)
              (mk_site it' s' tt tt v) (mk_site it' s' tt tt v') r (mk_machine [] out (map aside table)) 0 Ht Hi' Hc')
    as [Hr Hread].
  { reflexivity. }
  { rewrite aside_packet. rewrite (packet_length p kr i f args v v' r Hc).
    pose proof (index_size V kr (proj1 Hk)). lia. }
  { rewrite aside_packet, Nat.sub_0_r, pull_reader, Hf. reflexivity. }
  destruct (lived_does p dbl _ ft Hp Hk' Hs' (ReadFrom (reader fetch)) b _ (mk_site it s tt tt v)
              (mk_machine [] (answer kr f r) (map aside table)) (mk_site it' s' tt tt v') (OStatus RESOLVED_PACKET) H)
    as (b' & E & H').
  { split; [exact Hread|exact Hq]. }
  { cbn [mc_step]. rewrite Hr. reflexivity. }
  exists b'. split; auto. cbn [step] in E. ok_inv E q. destruct q as [[b1 y] st]. injection E as -> -> ->.
  unfold read_from_it. rewrite E0. reflexivity.
Qed.

(** If an element is missing, the call does not return. *)
Theorem C83_waits : forall (I S V : Type) p (fetch : fetcher I S) dbl (kr : keyring V) ft table out b i f args it it' s s' v v' r n flt,
  wf_platform p -> keyring_ok p kr -> well_sized dbl kr ft ->
  lived p dbl (aside_keyring kr) ft b (mk_machine [] out (map aside table)) -> (dbl = true \/ out = []) ->
  nth_error table i = Some f -> calls p kr f args v v' r -> n < length (packet kr i f args) ->
  fetches fetch n it s = Ok (it', s', firstn n (packet kr i f args)) -> fetch it' s' = Fault flt ->
  read_from_it p fetch it b s v = Fault flt.
Proof.
  intros I S V p fetch dbl kr ft table out b i f args it it' s s' v v' r n flt Hp Hk Hs H Hq Hi Hc Hlt Hf Hflt.
  pose proof (aside_ok (I := I) (O := unit) (S := S) (T := unit) p kr Hk) as Hk'.
  pose proof (aside_sized (I := I) (O := unit) (S := S) (T := unit) dbl kr ft Hs) as Hs'.
  pose proof (lived_table p dbl _ ft Hp Hk' Hs' _ _ H) as Ht. cbn [mc_table] in Ht.
  assert (Hi' : nth_error (map aside table) i = Some (aside (I := I) (O := unit) (S := S) (T := unit) f))
    by (rewrite nth_error_map, Hi; reflexivity).
  pose proof (aside_calls (O := unit) (T := unit) p kr f args it' s' tt tt v v' r Hc) as Hc'.
  destruct (mc_read_stuck _ p (aside_keyring kr) (reader fetch) n i (aside f) args (mk_site it s tt tt v)
              (mk_site it' s' tt tt v) _ _ r out flt (map aside table) Hk' Ht Hi' Hc') as [Hr Hread].
  { rewrite aside_packet. exact Hlt. }
  { rewrite aside_packet, pull_reader, Hf. reflexivity. }
  { unfold reader. cbn [in_it in_medium]. rewrite Hflt. reflexivity. }
  assert (Hl : legitimate p dbl (aside_keyring kr) ft (ReadFrom (reader fetch)) (mk_machine [] out (map aside table))
                 (mk_site it s tt tt v)) by (split; [exact Hread|exact Hq]).
  assert (E : step p (ReadFrom (reader fetch)) b (mk_site it s tt tt v) = Fault flt).
  { apply (lived_faults p dbl _ ft Hp Hk' Hs' _ b _ _ flt H Hl). cbn [mc_step]. rewrite Hr. reflexivity. }
  cbn [step] in E. unfold read_from_it.
  destruct (read_from p (reader fetch) b (mk_site it s tt tt v)) as [[[b1 y] st]|]; cbn [bind] in E |- *; [discriminate E|congruence].
Qed.

(** [dispatcher(it, it')]: the response is written through the second iterator. *)
Theorem C83_process : forall (I O S T V : Type) p (fetch : fetcher I S) (emit : emitter O T) dbl (kr : keyring V) ft table b i f args
    it it' s s' o t v v' r,
  wf_platform p -> keyring_ok p kr -> well_sized dbl kr ft ->
  lived p dbl (aside_keyring kr) ft b (mk_machine [] [] (map aside table)) ->
  nth_error table i = Some f -> calls p kr f args v v' r ->
  fetches fetch (length (packet kr i f args)) it s = Ok (it', s', packet kr i f args) ->
  match emits emit (answer kr f r) o t with
  | Ok (_, t') =>
      exists b', process_it p fetch emit it o b s t v = Ok (b', s', t', v', RESOLVED_PACKET)
        /\ lived p dbl (aside_keyring kr) ft b' (mk_machine [] [] (map aside table))
  | Fault flt => process_it p fetch emit it o b s t v = Fault flt
  end.
Proof.
  intros I O S T V p fetch emit dbl kr ft table b i f args it it' s s' o t v v' r Hp Hk Hs H Hi Hc Hf.
  pose proof (aside_ok (I := I) (O := O) (S := S) (T := T) p kr Hk) as Hk'.
  pose proof (aside_sized (I := I) (O := O) (S := S) (T := T) dbl kr ft Hs) as Hs'.
  pose proof (lived_table p dbl _ ft Hp Hk' Hs' _ _ H) as Ht. cbn [mc_table] in Ht.
  assert (Hi' : nth_error (map aside table) i = Some (aside (I := I) (O := O) (S := S) (T := T) f))
    by (rewrite nth_error_map, Hi; reflexivity).
  pose proof (aside_calls p kr f args it' s' o t v v' r Hc) as Hc'.
  destruct (mc_read_packet p (aside_keyring (I := I) (O := O) (S := S) (T := T) kr) Hk' (reader fetch) i (aside f) args (mk_site it s o t v)
              (mk_site it' s' o t v) (mk_site it' s' o t v') r (mk_machine [] [] (map aside table)) 0 Ht Hi' Hc')
    as [Hr Hread].
  { reflexivity. }
  { rewrite aside_packet. rewrite (packet_length p kr i f args v v' r Hc).
    pose proof (index_size V kr (proj1 Hk)). lia. }
  { rewrite aside_packet, Nat.sub_0_r, pull_reader, Hf. reflexivity. }
  assert (Hl : legitimate p dbl (aside_keyring kr) ft (Process (reader fetch) (writer emit))
                 (mk_machine [] [] (map aside table)) (mk_site it s o t v)) by (split; [exact Hread|right; reflexivity]).
  assert (E : mc_step (format_of (aside_keyring (I := I) (O := O) (S := S) (T := T) kr)) (Process (reader fetch) (writer emit))
                (mk_machine [] [] (map aside table)) (mk_site it s o t v)
              = ('(o', t') <- emits emit (answer kr f r) o t;;
                 Ok (mk_machine [] [] (map aside table), mk_site it' s' o' t' v', OStatus RESOLVED_PACKET))).
  { cbn [mc_step]. unfold mc_process. rewrite Hr. cbn [bind]. unfold mc_write. cbn [mc_out mc_in mc_table].
    change (answer (aside_keyring (I := I) (O := O) (S := S) (T := T) kr) (aside f) r) with (answer kr f r). rewrite push_writer.
    destruct (emits emit (answer kr f r) o t) as [[o' t']|]; reflexivity. }
  unfold process_it. destruct (emits emit (answer kr f r) o t) as [[o' t']|flt]; cbn [bind] in E.
  - destruct (lived_does p dbl _ ft Hp Hk' Hs' _ b _ _ _ _ _ H Hl E) as (b' & E' & H').
    exists b'. split; auto. cbn [step] in E'. ok_inv E' q. destruct q as [[b1 y] st]. injection E' as -> -> ->. reflexivity.
  - pose proof (lived_faults p dbl _ ft Hp Hk' Hs' _ b _ _ flt H Hl E) as E'.
    cbn [step] in E'. destruct (process p (reader fetch) (writer emit) b (mk_site it s o t v)) as [[[b1 y] st]|];
      [discriminate|]. cbn [bind] in E' |- *. congruence.
Qed.

(** [key.read_from(it)] *)
Theorem C83_key_reads : forall (I S : Type) p k (fetch : fetcher I S) it it' s s' v,
  wf_platform p -> ret_ty_ok p (k_e k) (k_m k) (sig_ret (k_sig k)) ->
  ret_encodable p (k_m k) (sig_ret (k_sig k)) v ->
  fetches fetch (wire_size_ret (sig_ret (k_sig k))) it s
    = Ok (it', s', response (k_e k) (k_m k) (sig_ret (k_sig k)) v) ->
  key_read_it p k fetch it s = Ok (s', option_map (fun _ => v) (sig_ret (k_sig k))).
Proof.
  intros I S p k fetch it it' s s' v Hp Hr He Hf. unfold key_read_it.
  rewrite (C28_returns _ p k (reader fetch) (mk_site it s tt tt tt) (mk_site it' s' tt tt tt) v); auto.
  rewrite pull_reader, Hf. reflexivity.
Qed.

(** ** Pointers *)

(** Bytes written through a pointer and read back are the same if and only if the
    elements are not [bool]. *)
Theorem C83_elements : forall c t,
  is_input_byte_iterator c t = true -> is_output_byte_iterator false t = true ->
  ((forall byte, is_byte byte -> elem_to_byte t (elem_of_byte t byte) = Ok byte) <-> t <> EBool).
Proof.
  intros c t Hi Ho. unfold is_input_byte_iterator, is_output_byte_iterator in *. split.
  - intros H ->. specialize (H 2%Z ltac:(unfold is_byte; lia)). discriminate H.
  - intros Hne byte Hb. unfold is_byte in Hb.
    assert (Hm : (byte mod 256 = byte)%Z) by (apply Z.mod_small; lia).
    destruct t as [|[|] [|[|w]]| |s w| |]; cbn [elem_to_byte elem_of_byte] in *;
      try discriminate Ho; try (rewrite Hm; reflexivity); [congruence| |].
    + destruct (Z.ltb_spec byte 128); [rewrite Hm; reflexivity|]. f_equal.
      replace (byte - 256)%Z with (byte + (-1) * 256)%Z by lia. rewrite Z.mod_add by lia. exact Hm.
    + destruct (Z.leb_spec 0 byte); [|lia]. destruct (Z.ltb_spec byte 256); [reflexivity|lia].
Qed.

(** A [bool] receives whether the byte is not zero: what is read back is 1 or 0. *)
Theorem C83_bool : forall byte,
  elem_to_byte EBool (elem_of_byte EBool byte) = Ok (Z.b2z (negb (byte =? 0)))%Z
  /\ (elem_to_byte EBool (elem_of_byte EBool byte) = Ok byte <-> byte = 0 \/ byte = 1)%Z.
Proof.
  intros byte. unfold elem_to_byte, elem_of_byte. destruct (Z.eqb_spec byte 0); subst; split; auto.
  - split; [auto|reflexivity].
  - split; [intros H; injection H as <-; auto|intros [->| ->]; [congruence|reflexivity]].
Qed.

Example C83_bool_example :
  map (fun byte => elem_to_byte EBool (elem_of_byte EBool byte)) [0; 1; 2; 255]%Z = [Ok 0; Ok 1; Ok 1; Ok 1]%Z.
Proof. reflexivity. Qed.

(** What is stored is a value of the type of the elements: bytes above 127 are
    stored as negative numbers in a [signed char]. *)
Theorem C83_stored : forall t byte, is_byte byte -> is_output_byte_iterator false t = true ->
  match t with
  | EBool => elem_of_byte t byte = 0 \/ elem_of_byte t byte = 1
  | EInt true w => (1 <= w)%nat -> - 2 ^ (8 * Z.of_nat w - 1) <= elem_of_byte t byte < 2 ^ (8 * Z.of_nat w - 1)
  | EInt false w => (1 <= w)%nat -> 0 <= elem_of_byte t byte < 2 ^ (8 * Z.of_nat w)
  | _ => elem_of_byte t byte = byte
  end%Z.
Proof.
  intros t byte Hb Ho. unfold is_byte in Hb. destruct t as [|[|] w| |s w| |]; try discriminate Ho; cbn [elem_of_byte].
  - destruct (byte =? 0)%Z; auto.
  - intros Hw. destruct w as [|[|w]]; [lia| |].
    + change (2 ^ (8 * Z.of_nat 1 - 1))%Z with 128%Z. destruct (Z.ltb_spec byte 128); lia.
    + assert (2 ^ 15 <= 2 ^ (8 * Z.of_nat (S (S w)) - 1))%Z by (apply Z.pow_le_mono_r; lia).
      change (2 ^ 15)%Z with 32768%Z in *. lia.
  - intros Hw. assert (2 ^ 8 <= 2 ^ (8 * Z.of_nat w))%Z by (apply Z.pow_le_mono_r; lia).
    change (2 ^ 8)%Z with 256%Z in *. lia.
  - reflexivity.
Qed.

Example C83_stored_example : elem_of_byte (EInt true 1) 200 = (-56)%Z /\ elem_of_byte (EInt true 2) 200 = 200%Z.
Proof. split; reflexivity. Qed.

(** The byte an element gives: an integer is reduced modulo 256, a floating-point
    number is truncated and has to fit. *)
Theorem C83_given : forall t z,
  (t <> EFloat -> exists byte k, elem_to_byte t z = Ok byte /\ is_byte byte /\ z = byte + 256 * k)%Z
  /\ (t = EFloat -> (elem_to_byte t z = Ok z <-> is_byte z)
                    /\ (elem_to_byte t z = Fault SignedOverflow <-> ~ is_byte z)).
Proof.
  intros t z. split.
  - intros Ht. exists (z mod 256)%Z, (z / 256)%Z. split; [destruct t; auto; congruence|].
    split; [apply (Z.mod_pos_bound z 256); lia|]. pose proof (Z.div_mod z 256). lia.
  - intros ->. unfold elem_to_byte, is_byte.
    destruct (Z.leb_spec 0 z), (Z.ltb_spec z 256); cbn [andb]; split; split; intros; auto; try discriminate; lia.
Qed.

Example C83_given_example :
  elem_to_byte (EInt true 4) (-2) = Ok 254%Z /\ elem_to_byte (EEnum false 2) 513 = Ok 1%Z
  /\ elem_to_byte EFloat 200 = Ok 200%Z /\ elem_to_byte EFloat 256 = Fault SignedOverflow.
Proof. repeat split. Qed.

(** The pointers which are accepted. *)
Theorem C83_types : forall c t,
  (is_input_byte_iterator c t = true <-> t <> EScoped /\ t <> EClass)
  /\ (is_output_byte_iterator c t = true
      <-> c = false /\ (t = EBool \/ t = EFloat \/ exists s w, t = EInt s w)).
Proof.
  intros c t. split.
  - destruct t; split; intros H; try discriminate H; auto; try (split; discriminate); destruct H; congruence.
  - destruct c, t; split; intros H; try discriminate H; eauto 6;
      destruct H as [H1 H2]; try discriminate H1; destruct H2 as [H2|[H2|[s' [w' H2]]]]; discriminate H2.
Qed.

(** test/static.cpp 12-16; [std::byte] is refused, [const int *] and pointers to
    unscoped enumerations can only be read. *)
Example C83_accepted :
  is_input_byte_iterator false (EInt false 1) = true /\ is_input_byte_iterator true (EInt false 1) = true
  /\ is_output_byte_iterator false (EInt false 1) = true /\ is_output_byte_iterator true (EInt false 1) = false
  /\ is_input_byte_iterator false EScoped = false /\ is_output_byte_iterator false EScoped = false
  /\ is_input_byte_iterator true (EInt true 4) = true /\ is_output_byte_iterator true (EInt true 4) = false
  /\ is_input_byte_iterator false (EEnum false 1) = true /\ is_output_byte_iterator false (EEnum false 1) = false.
Proof. repeat split. Qed.

Lemma load_app : forall pre z post, load (pre ++ z :: post) (length pre) = Ok z.
Proof.
  intros pre z post. unfold load. rewrite nth_error_app2 by lia. rewrite Nat.sub_diag. reflexivity.
Qed.

Lemma pointer_fetches : forall t zs bs pre post, Forall2 (fun z c => elem_to_byte t z = Ok c) zs bs ->
  fetches (pointer_in t) (length bs) (length pre) (pre ++ zs ++ post)
  = Ok (length pre + length bs, pre ++ zs ++ post, bs).
Proof.
  intros t zs bs pre post H. revert pre. induction H as [|z c zs bs Hz H IH]; intros pre; cbn [length fetches].
  - do 3 f_equal. lia.
  - unfold pointer_in at 1. cbn [app]. rewrite load_app. cbn [bind]. rewrite Hz. cbn [bind].
    specialize (IH (pre ++ [z])). rewrite app_length in IH. cbn [length] in IH.
    rewrite <- !app_assoc in IH. cbn [app] in IH. replace (length pre + 1) with (S (length pre)) in IH by lia.
    rewrite IH. cbn [bind]. do 3 f_equal. lia.
Qed.

Lemma store_app : forall pre z post c, store (pre ++ z :: post) (length pre) c = Ok (pre ++ c :: post).
Proof.
  induction pre as [|y pre IH]; intros z post c; cbn [app length store]; [reflexivity|]. rewrite IH. reflexivity.
Qed.

Lemma store_end : forall mem c, store mem (length mem) c = Fault OutOfBounds.
Proof. induction mem as [|y mem IH]; intros c; cbn [length store]; [reflexivity|]. rewrite IH. reflexivity. Qed.

Lemma pointer_emits : forall t bs zs pre post, length zs = length bs ->
  emits (pointer_out t) bs (length pre) (pre ++ zs ++ post)
  = Ok (length pre + length bs, pre ++ map (elem_of_byte t) bs ++ post).
Proof.
  intros t. induction bs as [|c bs IH]; intros zs pre post Hl; destruct zs as [|z zs]; try discriminate Hl;
    cbn [emits map length].
  - do 2 f_equal. lia.
  - unfold pointer_out at 1. cbn [app]. rewrite store_app. cbn [bind].
    specialize (IH zs (pre ++ [elem_of_byte t c]) post ltac:(cbn in Hl; lia)). rewrite app_length in IH. cbn [length] in IH.
    rewrite <- !app_assoc in IH. cbn [app] in IH. replace (length pre + 1) with (S (length pre)) in IH by lia.
    rewrite IH. do 2 f_equal. lia.
Qed.

Lemma pointer_short : forall t bs zs pre, length zs < length bs ->
  emits (pointer_out t) bs (length pre) (pre ++ zs) = Fault OutOfBounds.
Proof.
  intros t. induction bs as [|c bs IH]; intros zs pre Hl; [cbn in Hl; lia|]. cbn [emits]. unfold pointer_out at 1.
  destruct zs as [|z zs].
  - rewrite app_nil_r, store_end. reflexivity.
  - rewrite store_app. cbn [bind].
    specialize (IH zs (pre ++ [elem_of_byte t c]) ltac:(cbn in Hl; lia)). rewrite app_length in IH. cbn [length] in IH.
    rewrite <- !app_assoc in IH. cbn [app] in IH. replace (length pre + 1) with (S (length pre)) in IH by lia. exact IH.
Qed.

Lemma back_emits : forall t bs l, emits (back_out t) bs tt l = Ok (tt, l ++ map (elem_of_byte t) bs).
Proof.
  intros t. induction bs as [|c bs IH]; intros l; cbn [emits map].
  - rewrite app_nil_r. reflexivity.
  - unfold back_out at 1. cbn [bind]. rewrite IH, <- app_assoc. reflexivity.
Qed.

(** A pointer passed to a call is not advanced: the same pointer passed again
    processes the same packet again. *)
Theorem C83_again : forall (V : Type) p dbl (kr : keyring V) ft table b i f args t u pre zs post l v v1 v2 r1 r2,
  wf_platform p -> keyring_ok p kr -> well_sized dbl kr ft ->
  lived p dbl (aside_keyring kr) ft b (mk_machine [] [] (map aside table)) ->
  nth_error table i = Some f -> calls p kr f args v v1 r1 -> calls p kr f args v1 v2 r2 ->
  Forall2 (fun z c => elem_to_byte t z = Ok c) zs (packet kr i f args) ->
  let mem := pre ++ zs ++ post in
  exists b1 b2,
    process_it p (pointer_in t) (back_out u) (length pre) tt b mem l v
      = Ok (b1, mem, l ++ map (elem_of_byte u) (answer kr f r1), v1, RESOLVED_PACKET)
    /\ process_it p (pointer_in t) (back_out u) (length pre) tt b1 mem (l ++ map (elem_of_byte u) (answer kr f r1)) v1
      = Ok (b2, mem, (l ++ map (elem_of_byte u) (answer kr f r1)) ++ map (elem_of_byte u) (answer kr f r2), v2, RESOLVED_PACKET)
    /\ lived p dbl (aside_keyring kr) ft b2 (mk_machine [] [] (map aside table)).
Proof.
  intros V p dbl kr ft table b i f args t u pre zs post l v v1 v2 r1 r2 Hp Hk Hs H Hi Hc1 Hc2 Hz mem.
  pose proof (pointer_fetches t zs _ pre post Hz) as Hf. fold mem in Hf.
  pose proof (C83_process _ _ _ _ V p (pointer_in t) (back_out u) dbl kr ft table b i f args (length pre) _ mem mem
                tt l v v1 r1 Hp Hk Hs H Hi Hc1 Hf) as P1. rewrite back_emits in P1. destruct P1 as (b1 & E1 & H1).
  pose proof (C83_process _ _ _ _ V p (pointer_in t) (back_out u) dbl kr ft table b1 i f args (length pre) _ mem mem
                tt (l ++ map (elem_of_byte u) (answer kr f r1)) v1 v2 r2 Hp Hk Hs H1 Hi Hc2 Hf) as P2.
  rewrite back_emits in P2. destruct P2 as (b2 & E2 & H2). eauto.
Qed.

Lemma key_write_push : forall (X Y : Type) p (kr : keyring X) name f k args (dest : destination Y) y,
  wf_platform p -> keyring_ok p kr -> In (name, f) (kr_funcs kr) -> kr_get kr name f = Some k ->
  Forall2 (encodable p (kr_m kr)) (sig_params (f_sig f)) args ->
  key_write p k args dest y = push dest (packet kr (k_index k) f args) y.
Proof.
  intros X Y p kr name f k args dest y Hp [Hl Hsigs] Hin Hk Ha.
  destruct (kr_get_nth X kr name f k Hk Hin) as (Hi & _ & Ek).
  assert (Hs : sig_ok p (kr_e kr) (kr_m kr) (f_sig f)).
  { rewrite Forall_forall in Hsigs. apply (Hsigs (name, f) Hin). }
  assert (Hlt : k_index k < length (kr_funcs kr)) by (apply nth_error_Some; congruence).
  destruct (index_size X kr Hl) as (_ & Hsp & _).
  unfold key_write, packet. rewrite Ek at 1 2 3 4 6. cbn [k_index_size k_sig k_e k_m].
  rewrite write_tuple_ok; auto.
  - constructor; [apply index_ty_ok; auto|apply Hs].
  - constructor; auto. split; cbn [has_type all_signed]; auto. lia.
Qed.

Lemma key_writes_it : forall (X O T : Type) p (kr : keyring X) name f k args (emit : emitter O T) o l,
  wf_platform p -> keyring_ok p kr -> In (name, f) (kr_funcs kr) -> kr_get kr name f = Some k ->
  Forall2 (encodable p (kr_m kr)) (sig_params (f_sig f)) args ->
  key_write_it p k args emit o l = ('(_, l') <- emits emit (packet kr (k_index k) f args) o l;; Ok l').
Proof.
  intros X O T p kr name f k args emit o l Hp Hk Hin Hget Ha. unfold key_write_it.
  rewrite (key_write_push X _ p kr name f k args) by auto. rewrite push_writer.
  destruct (emits emit (packet kr (k_index k) f args) o l) as [[? ?]|]; reflexivity.
Qed.

(** A request written through a pointer fills the array from there, if it is large
    enough ... *)
Theorem C83_writes : forall (X : Type) p (kr : keyring X) name f k args t pre zs post,
  wf_platform p -> keyring_ok p kr -> In (name, f) (kr_funcs kr) -> kr_get kr name f = Some k ->
  Forall2 (encodable p (kr_m kr)) (sig_params (f_sig f)) args ->
  exists i, nth_error (kr_funcs kr) i = Some (name, f)
    /\ (length zs = length (packet kr i f args) ->
          key_write_it p k args (pointer_out t) (length pre) (pre ++ zs ++ post)
          = Ok (pre ++ map (elem_of_byte t) (packet kr i f args) ++ post))
    /\ (length zs < length (packet kr i f args) ->
          key_write_it p k args (pointer_out t) (length pre) (pre ++ zs) = Fault OutOfBounds)
    /\ forall l, key_write_it p k args (back_out t) tt l = Ok (l ++ map (elem_of_byte t) (packet kr i f args)).
Proof.
  intros X p kr name f k args t pre zs post Hp Hk Hin Hget Ha.
  destruct (kr_get_nth X kr name f k Hget Hin) as (Hi & _ & _).
  assert (W : forall (O T : Type) (emit : emitter O T) o l,
            key_write_it p k args emit o l
            = ('(_, l') <- emits emit (packet kr (k_index k) f args) o l;; Ok l')).
  { intros. apply (key_writes_it X O T p kr name f k args); auto. }
  exists (k_index k). split; [exact Hi|]. split; [|split].
  - intros Hz. rewrite W, pointer_emits by exact Hz. reflexivity.
  - intros Hz. rewrite W, pointer_short by exact Hz. reflexivity.
  - intros l. rewrite W, back_emits. reflexivity.
Qed.

(** ... and is processed by whoever reads the array from there, unless its
    elements are [bool]. *)
Theorem C83_round_trip : forall (V : Type) p dbl (kr : keyring V) ft out b name f k args t pre zs post v v' r,
  wf_platform p -> keyring_ok p kr -> well_sized dbl kr ft ->
  In (name, f) (kr_funcs kr) -> kr_get kr name f = Some k ->
  is_output_byte_iterator false t = true -> t <> EBool ->
  lived p dbl (aside_keyring kr) ft b (mk_machine [] out (map aside (map snd (kr_funcs kr)))) -> (dbl = true \/ out = []) ->
  length zs = kr_index_size kr + wire_sizes (sig_params (f_sig f)) -> calls p kr f args v v' r ->
  exists mem b',
    key_write_it p k args (pointer_out t) (length pre) (pre ++ zs ++ post) = Ok mem
    /\ length mem = length (pre ++ zs ++ post)
    /\ firstn (length pre) mem = pre /\ skipn (length pre + length zs) mem = post
    /\ read_from_it p (pointer_in t) (length pre) b mem v = Ok (b', mem, v', RESOLVED_PACKET)
    /\ lived p dbl (aside_keyring kr) ft b' (mk_machine [] (answer kr f r) (map aside (map snd (kr_funcs kr)))).
Proof.
  intros V p dbl kr ft out b name f k args t pre zs post v v' r Hp Hk Hs Hin Hget Ho Hne H Hq Hl Hc.
  destruct (kr_get_nth V kr name f k Hget Hin) as (Hi & _ & _).
  assert (Hit : is_input_byte_iterator false t = true) by (destruct t; cbn in *; congruence).
  pose proof (packet_length p kr (k_index k) f args v v' r Hc) as Hlp. set (bs := packet kr (k_index k) f args) in *.
  assert (Hz : Forall2 (fun z c => elem_to_byte t z = Ok c) (map (elem_of_byte t) bs) bs).
  { pose proof (packet_bytes kr (k_index k) f args) as Hb. fold bs in Hb.
    clearbody bs. clear Hlp. induction Hb as [|c l Hc' Hb IH]; cbn [map]; constructor; auto.
    apply (proj2 (C83_elements false t Hit Ho) Hne c Hc'). }
  assert (Ti : nth_error (map snd (kr_funcs kr)) (k_index k) = Some f) by (rewrite nth_error_map, Hi; reflexivity).
  destruct (C83_reads _ _ V p (pointer_in t) dbl kr ft _ out b (k_index k) f args (length pre) _ _ _ v v' r Hp Hk Hs H Hq Ti Hc
              (pointer_fetches t (map (elem_of_byte t) bs) bs pre post Hz)) as (b' & E & H').
  exists (pre ++ map (elem_of_byte t) bs ++ post), b'.
  split. { rewrite (key_writes_it V _ _ p kr name f k args) by (auto; apply Hc). fold bs. rewrite pointer_emits by lia. reflexivity. }
  split. { rewrite !app_length, map_length. lia. }
  split. { apply firstn_app_exact. }
  split; [|split; [exact E|exact H']]. rewrite app_assoc. replace (length pre + length zs) with (length (pre ++ map (elem_of_byte t) bs)).
  - apply skipn_app_exact.
  - rewrite app_length, map_length. lia.
Qed.

(** ** Streams *)

Definition bytes_of (cs : list Z) : list Z := map (fun c => (c mod 256)%Z) cs.

Lemma streambuf_fetches : forall cs more closed,
  fetches streambuf_in (length cs) tt (mk_channel (cs ++ more) closed) = Ok (tt, mk_channel more closed, bytes_of cs).
Proof.
  induction cs as [|c cs IH]; intros more closed; cbn [length fetches app bytes_of map]; auto.
  unfold streambuf_in at 1. cbn [ch_ready ch_closed bind]. rewrite IH. reflexivity.
Qed.

(** [std::istreambuf_iterator]: the characters of the packet are consumed and no
    others, whatever follows. *)
Theorem C83_streambuf : forall (V : Type) p dbl (kr : keyring V) ft table out b i f args cs more closed v v' r,
  wf_platform p -> keyring_ok p kr -> well_sized dbl kr ft ->
  lived p dbl (aside_keyring kr) ft b (mk_machine [] out (map aside table)) -> (dbl = true \/ out = []) ->
  nth_error table i = Some f -> calls p kr f args v v' r -> bytes_of cs = packet kr i f args ->
  exists b', read_from_it p streambuf_in tt b (mk_channel (cs ++ more) closed) v
             = Ok (b', mk_channel more closed, v', RESOLVED_PACKET)
    /\ lived p dbl (aside_keyring kr) ft b' (mk_machine [] (answer kr f r) (map aside table)).
Proof.
  intros V p dbl kr ft table out b i f args cs more closed v v' r Hp Hk Hs H Hq Hi Hc Hb.
  apply (C83_reads _ _ V p streambuf_in dbl kr ft table out b i f args tt tt _ _ v v' r); auto.
  rewrite <- Hb. unfold bytes_of at 1. rewrite map_length. apply streambuf_fetches.
Qed.

Lemma stream_fetches : forall cs c c' more closed,
  fetches (stream_in false) (length (c :: cs)) (Some c) (mk_channel (cs ++ c' :: more) closed)
  = Ok (Some c', mk_channel more closed, bytes_of (c :: cs)).
Proof.
  induction cs as [|d cs IH]; intros c c' more closed; [reflexivity|].
  change (length (c :: d :: cs)) with (S (length (d :: cs))). cbn [fetches]. unfold stream_in at 1.
  unfold extract. cbn [ch_ready ch_closed app bind]. rewrite IH. reflexivity.
Qed.

Lemma last_cons : forall cs (d c : Z), last (d :: cs) c = last cs d.
Proof.
  induction cs as [|e cs IH]; intros d c; [reflexivity|].
  change (last (d :: e :: cs) c) with (last (e :: cs) c). rewrite (IH e c), (IH e d). reflexivity.
Qed.

Lemma stream_stops : forall cs c closed,
  fetches (stream_in false) (length cs) (Some c) (mk_channel cs closed)
  = Ok (Some (last cs c), mk_channel [] closed, firstn (length cs) (bytes_of (c :: cs))).
Proof.
  induction cs as [|d cs IH]; intros c closed; [reflexivity|].
  cbn [length fetches]. unfold stream_in at 1. unfold extract. cbn [ch_ready ch_closed bind]. rewrite IH. cbn [bind].
  rewrite last_cons. reflexivity.
Qed.

(** [std::istream_iterator], which holds a value read in advance: the character
    which follows the packet is awaited, and is lost when the iterator goes. *)
Theorem C83_stream : forall (V : Type) p dbl (kr : keyring V) ft table out b i f args cs more closed v v' r,
  wf_platform p -> keyring_ok p kr -> well_sized dbl kr ft ->
  lived p dbl (aside_keyring kr) ft b (mk_machine [] out (map aside table)) -> (dbl = true \/ out = []) ->
  nth_error table i = Some f -> calls p kr f args v v' r -> bytes_of cs = packet kr i f args ->
  exists it ch, extract false (mk_channel (cs ++ more) closed) = Ok (it, ch)
    /\ match more, closed with
       | [], false => read_from_it p (stream_in false) it b ch v = Fault NoInput
       | _, _ =>
           exists b', read_from_it p (stream_in false) it b ch v
                      = Ok (b', mk_channel (tl more) closed, v', RESOLVED_PACKET)
             /\ lived p dbl (aside_keyring kr) ft b' (mk_machine [] (answer kr f r) (map aside table))
       end.
Proof.
  intros V p dbl kr ft table out b i f args cs more closed v v' r Hp Hk Hs H Hq Hi Hc Hb.
  pose proof (packet_length p kr i f args v v' r Hc) as Hl. pose proof (index_size V kr (proj1 Hk)) as Hw.
  destruct cs as [|c cs]; [cbn in Hb; rewrite <- Hb in Hl; cbn in Hl; lia|].
  exists (Some c), (mk_channel (cs ++ more) closed). split; [reflexivity|].
  assert (Hn : length (packet kr i f args) = length (c :: cs)) by (rewrite <- Hb; apply map_length).
  destruct more as [|d more].
  - rewrite app_nil_r. pose proof (stream_stops cs c closed) as Hf. rewrite Hb in Hf. destruct closed.
    + apply (C83_reads _ _ V p (stream_in false) dbl kr ft table out b i f args (Some c) None _ _ v v' r); auto.
      rewrite Hn, <- Hb. cbn [length]. replace (S (length cs)) with (length cs + 1) by lia.
      clear - c. revert c. induction cs as [|d cs IH]; intros c; [reflexivity|].
      cbn [length Nat.add fetches]. unfold stream_in at 1. unfold extract. cbn [ch_ready ch_closed bind].
      rewrite IH. reflexivity.
    + apply (C83_waits _ _ V p (stream_in false) dbl kr ft table out b i f args (Some c) (Some (last cs c))
               (mk_channel cs false) (mk_channel [] false) v v' r (length cs)); auto.
      rewrite Hn. cbn [length]. lia.
  - assert (G : exists b', read_from_it p (stream_in false) (Some c) b (mk_channel (cs ++ d :: more) closed) v
                = Ok (b', mk_channel more closed, v', RESOLVED_PACKET)
              /\ lived p dbl (aside_keyring kr) ft b' (mk_machine [] (answer kr f r) (map aside table))).
    { apply (C83_reads _ _ V p (stream_in false) dbl kr ft table out b i f args (Some c) (Some d) _ _ v v' r); auto.
      rewrite Hn, <- Hb. apply stream_fetches. }
    destruct closed; exact G.
Qed.

(** With [std::skipws], which is the default, the characters read are those
    which are not white space. *)
Definition dark (cs : list Z) : list Z :=
  filter (fun c => negb (existsb (Z.eqb c) [9; 10; 11; 12; 13; 32]%Z)) cs.

Lemma is_space_listed : forall c, is_space c = existsb (Z.eqb c) [9; 10; 11; 12; 13; 32]%Z.
Proof.
  intros c. unfold is_space. apply Bool.eq_iff_eq_true.
  rewrite orb_true_iff, andb_true_iff, Z.eqb_eq, !Z.leb_le, existsb_exists. split.
  - intros H. exists c. split; [|apply Z.eqb_refl]. cbn. lia.
  - intros (x & Hx & E). apply Z.eqb_eq in E. subst x. cbn in Hx. lia.
Qed.

Lemma dark_skip : forall l, dark (skip_space l) = dark l
  /\ match skip_space l with c :: _ => is_space c = false | [] => True end.
Proof.
  induction l as [|c l [IH1 IH2]]; cbn [skip_space]; [split; auto|].
  destruct (is_space c) eqn:E; [|split; auto]. split; [|exact IH2]. unfold dark in *. cbn [filter]. rewrite <- is_space_listed, E. exact IH1.
Qed.

Lemma stream_some : forall skipws c ch,
  stream_in skipws (Some c) ch = ('(i', ch') <- extract skipws ch;; Ok (i', ch', (c mod 256)%Z)).
Proof. reflexivity. Qed.

Theorem C83_white_space : forall n it l closed,
  match fetches (stream_in true) n it (mk_channel l closed),
        fetches (stream_in false) n it (mk_channel (dark l) closed) with
  | Ok (it1, ch1, bs1), Ok (it2, ch2, bs2) =>
      it1 = it2 /\ bs1 = bs2 /\ ch2 = mk_channel (dark (ch_ready ch1)) (ch_closed ch1)
  | Fault flt1, Fault flt2 => flt1 = flt2
  | _, _ => False
  end.
Proof.
  induction n as [|n IH]; intros it l closed; cbn [fetches]; [auto|].
  destruct it as [c|]; [|reflexivity]. rewrite !stream_some. unfold extract. cbn [ch_ready ch_closed].
  destruct (dark_skip l) as [D1 D2]. rewrite <- D1.
  destruct (skip_space l) as [|d l'].
  - cbn [dark filter]. destruct closed; cbn [bind]; [|reflexivity]. specialize (IH None [] true). cbn [dark filter] in IH.
    destruct (fetches (stream_in true) n None (mk_channel [] true)) as [[[? ?] ?]|],
             (fetches (stream_in false) n None (mk_channel [] true)) as [[[? ?] ?]|]; cbn [bind]; try exact IH.
    destruct IH as (-> & -> & ->). repeat split; auto.
  - assert (Ed : dark (d :: l') = d :: dark l') by (unfold dark; cbn [filter]; rewrite <- is_space_listed, D2; reflexivity).
    rewrite Ed. cbn [bind]. specialize (IH (Some d) l' closed).
    destruct (fetches (stream_in true) n (Some d) (mk_channel l' closed)) as [[[? ?] ?]|],
             (fetches (stream_in false) n (Some d) (mk_channel (dark l') closed)) as [[[? ?] ?]|];
      cbn [bind]; try exact IH.
    destruct IH as (-> & -> & ->). repeat split; auto.
Qed.

(** ** Cases *)

Definition ex_dispatcher : option (buffered (site (option Z) unit channel unit log)) :=
  make_double (aside_keyring ex_keyring) ANY [9; 9; 9; 9]%Z [].

(** [add(10, 5)] then [notify()], sent as characters on a connection which stays
    open.  [std::istreambuf_iterator] is not concerned (C83_streambuf). *)
Definition ex_chars : list Z := [0; 0; 10; 5; 1]%Z.

(** The call which reads the first request consumes the index of the second; with
    white space skipped, 10 is not received; a request alone is not processed. *)
Theorem C83_stream_refuted : exists b,
  ex_dispatcher = Some b
  /\ bytes_of ex_chars = packet ex_keyring 0 ex_add [VInt 10; VInt 5] ++ packet ex_keyring 1 ex_notify []
  /\ (exists b' , read_from_it pc_native (stream_in false) (Some 0%Z) b (mk_channel [0; 10; 5; 1]%Z false) []
                  = Ok (b', mk_channel [] false, [(0, [VInt 10; VInt 5])], RESOLVED_PACKET))
  /\ (exists b', read_from_it pc_native (stream_in true) (Some 0%Z) b (mk_channel [0; 10; 5; 1; 1]%Z false) []
                 = Ok (b', mk_channel [] false, [(0, [VInt 5; VInt 1])], RESOLVED_PACKET))
  /\ read_from_it pc_native (stream_in false) (Some 0%Z) b (mk_channel [0; 10; 5]%Z false) [] = Fault NoInput.
Proof.
  eexists. split; [vm_compute; reflexivity|]. split; [vm_compute; reflexivity|].
  split; [eexists; vm_compute; reflexivity|]. split; [eexists; vm_compute; reflexivity|]. vm_compute. reflexivity.
Qed.

(** The hypotheses are met: [add(10, 5)] held by an array of [char] from its
    second element, received by a new dispatcher, twice. *)
Definition ex_array : list Z := [77; 0; 0; 10; 5; 78]%Z.
Example C83_example : exists b,
  make_double (aside_keyring (I := nat) (O := unit) (S := list Z) (T := list Z) ex_keyring) ANY [9; 9; 9; 9]%Z [] = Some b
  /\ lived pc_native true (aside_keyring ex_keyring) ANY b (mk_machine [] [] (map aside (map snd (kr_funcs ex_keyring))))
  /\ Forall2 (fun z c => elem_to_byte (EInt true 1) z = Ok c) [0; 0; 10; 5]%Z (packet ex_keyring 0 ex_add [VInt 10; VInt 5])
  /\ calls pc_native ex_keyring ex_add [VInt 10; VInt 5] [] [(0, [VInt 10; VInt 5])] (VInt 15)
  /\ ('(b1, mem, l, v, st) <- process_it pc_native (pointer_in (EInt true 1)) (back_out (EInt true 1)) 1 tt b ex_array [] [];;
      '(_, mem', l', v', st') <- process_it pc_native (pointer_in (EInt true 1)) (back_out (EInt true 1)) 1 tt b1 mem l v;;
      Ok ((mem, l, v, st), (mem', l', v', st')))
     = Ok ((ex_array, [0; 0; 0; 15]%Z, [(0, [VInt 10; VInt 5])], RESOLVED_PACKET),
           (ex_array, [0; 0; 0; 15; 0; 0; 0; 15]%Z, [(0, [VInt 10; VInt 5]); (0, [VInt 10; VInt 5])], RESOLVED_PACKET)).
Proof.
  eexists. split; [reflexivity|]. split.
  { pose proof (lived_new pc_native true (aside_keyring (I := nat) (O := unit) (S := list Z) (T := list Z) ex_keyring) ANY
                  [9; 9; 9; 9]%Z []) as L.
    refine (L _ _). reflexivity. }
  split. { vm_compute. repeat constructor. }
  split. { split; [encs|]. split; [reflexivity|]. split; range. }
  vm_compute. reflexivity.
Qed.

(** [add(-2, 5)] written in an array of [short], of [char], of [bool]: only the
    last one does not give the packet back. *)
Example C83_arrays :
  key_write_it pc_native ex_key_add [VInt (-2); VInt 5] (pointer_out (EInt true 2)) 1 [7; 7; 7; 7; 7; 7]%Z
    = Ok [7; 0; 255; 254; 5; 7]%Z
  /\ key_write_it pc_native ex_key_add [VInt (-2); VInt 5] (pointer_out (EInt true 1)) 1 [7; 7; 7; 7; 7; 7]%Z
    = Ok [7; 0; -1; -2; 5; 7]%Z
  /\ fetches (pointer_in (EInt true 1)) 4 1 [7; 0; -1; -2; 5; 7]%Z = Ok (5, [7; 0; -1; -2; 5; 7]%Z, [0; 255; 254; 5]%Z)
  /\ key_write_it pc_native ex_key_add [VInt (-2); VInt 5] (pointer_out EBool) 1 [1; 1; 1; 1; 1; 1]%Z
    = Ok [1; 0; 1; 1; 1; 1]%Z
  /\ key_write_it pc_native ex_key_add [VInt (-2); VInt 5] (pointer_out (EInt true 1)) 1 [7; 7; 7; 7]%Z = Fault OutOfBounds
  /\ key_read_it pc_native ex_key_add (pointer_in (EInt true 1)) 1 [9; 0; 0; 1; -2]%Z
    = Ok ([9; 0; 0; 1; -2]%Z, Some (VInt 510)).
Proof. repeat split; vm_compute; reflexivity. Qed.

Print Assumptions C83_reads.
Print Assumptions C83_waits.
Print Assumptions C83_process.
Print Assumptions C83_key_reads.
Print Assumptions C83_elements.
Print Assumptions C83_bool.
Print Assumptions C83_stored.
Print Assumptions C83_given.
Print Assumptions C83_types.
Print Assumptions C83_again.
Print Assumptions C83_writes.
Print Assumptions C83_round_trip.
Print Assumptions C83_streambuf.
Print Assumptions C83_stream.
Print Assumptions C83_white_space.
Print Assumptions C83_stream_refuted.
