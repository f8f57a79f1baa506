(** Properties C41, C45 and C46: interleavings of reception, emission,
    replacements and moves. *)

From Coq Require Import List ZArith Lia Bool Arith.
From Verif Require Import Base CInt Spec IntModel Conditions MemFacts TypeLevel Serial TupleModel
  TypeLevelProofs IntProofs SignedProofs SerialProofs CodecFacts Bounds TupleProofs SpecRpc Rpc RpcProofs
  Hosts Closed PropertiesTypes PropertiesRpc Buffered SpecBuffered BufferedProofs PropertiesBuffered
  PropertiesBuffers PropertiesPackets.
Import ListNotations.
Open Scope nat_scope.

(** ** C41 *)

(** What remains to be sent. *)
Definition same_output {X : Type} (b b' : buffered X) : Prop :=
  b_obuf_next b' = b_obuf_next b /\ b_obuf_bottom b' = b_obuf_bottom b
  /\ obuf (b_bufs b') = obuf (b_bufs b).

(** In any state: a byte which does not complete a request leaves the output
    of a double buffered dispatcher as it is. *)
Theorem C41_put : forall (X : Type) p byte (b : buffered X) x b' x' s,
  is_double (b_bufs b) = true -> put p byte b x = Ok (b', x', s) -> s <> RESOLVED_PACKET ->
  same_output b b' /\ is_double (b_bufs b') = true /\ x' = x.
Proof.
  intros X p byte b x b' x' s Hd H Hs. unfold put in H. ok_inv H m.
  assert (Ho : obuf (set_ibuf m (b_bufs b)) = obuf (b_bufs b)) by (destruct (b_bufs b); [discriminate|reflexivity]).
  assert (Hd' : is_double (set_ibuf m (b_bufs b)) = true) by (rewrite is_double_set_ibuf; auto).
  destruct (b_load_count b) as [|count]; [discriminate|].
  destruct (0 <? count); [injection H as <- <- <-; repeat split; auto|].
  destruct (b_is_index_loaded b).
  { ok_inv H q. destruct q. injection H as <- <- <-. congruence. }
  ok_inv H q. destruct q as [w0 i]. destruct (i <? d_size (b_dispatcher b)).
  - ok_inv H a. ok_inv H n. destruct (n =? 0).
    + ok_inv H q. destruct q. injection H as <- <- <-. congruence.
    + injection H as <- <- <-. repeat split; auto.
  - injection H as <- <- <-. repeat split; auto.
Qed.

Lemma read_index_output : forall (X : Type) p (src : source X) fuel b x s0 b' x' s,
  is_double (b_bufs b) = true -> read_index p fuel src b x s0 = Ok (b', x', s) -> s <> RESOLVED_PACKET ->
  same_output b b' /\ is_double (b_bufs b') = true.
Proof.
  intros X p src. induction fuel as [|fuel IH]; intros b x s0 b' x' s Hd H Hs; cbn [read_index] in H.
  - destruct (negb (b_is_index_loaded b) && is_loading s0); [discriminate|].
    injection H as <- _ _. repeat split; auto.
  - destruct (negb (b_is_index_loaded b) && is_loading s0) eqn:E; [|injection H as <- _ _; repeat split; auto].
    ok_inv H q. destruct q as [x1 byte]. ok_inv H q. destruct q as [[b1 x2] s1].
    assert (Hs1 : s1 <> RESOLVED_PACKET).
    { intros ->. destruct fuel; cbn [read_index is_loading] in H; rewrite andb_false_r in H; injection H as _ _ <-; auto. }
    destruct (C41_put X p byte b x1 b1 x2 s1 Hd E1 Hs1) as ((A1 & A2 & A3) & A4 & _).
    destruct (IH b1 x2 s1 b' x' s A4 H Hs) as ((B1 & B2 & B3) & B4).
    repeat split; congruence.
Qed.

(** A dispatcher which is reading the arguments resolves the packet. *)
Lemma read_payload_resolves : forall (X : Type) p (src : source X) fuel b x s0 b' x' s,
  read_payload p fuel src b x s0 = Ok (b', x', s) -> b_is_index_loaded b = true -> s = RESOLVED_PACKET.
Proof.
  intros X p src. induction fuel as [|fuel IH]; intros b x s0 b' x' s H Hl; cbn [read_payload] in H;
    rewrite Hl in H; [discriminate|].
  ok_inv H q. destruct q as [x1 byte]. ok_inv H q. destruct q as [[b1 x2] s1].
  destruct (put_progress p X byte b x1 b1 x2 s1 E0) as [(_ & Hl1 & _)|[(Hl1 & _)|(Hl1 & Hs)]].
  - eapply IH; [exact H|congruence].
  - congruence.
  - assert (s1 = RESOLVED_PACKET).
    { clear - E0 Hs Hl. unfold put in E0. ok_inv E0 m. destruct (b_load_count b) as [|count]; [discriminate|].
      destruct (0 <? count); [injection E0 as _ _ <-; congruence|]. rewrite Hl in E0.
      ok_inv E0 q. destruct q. injection E0 as _ _ <-. auto. }
    destruct fuel; cbn [read_payload] in H; rewrite Hl1 in H; injection H as _ _ <-; auto.
Qed.

Theorem C41_read_from : forall (X : Type) p (src : source X) b x b' x' s,
  is_double (b_bufs b) = true -> read_from p src b x = Ok (b', x', s) -> s <> RESOLVED_PACKET ->
  same_output b b'.
Proof.
  intros X p src b x b' x' s Hd H Hs. unfold read_from in H. ok_inv H q. destruct q as [[b1 x1] s1].
  destruct (b_is_index_loaded b1) eqn:Hl.
  - exfalso. apply Hs. eapply read_payload_resolves; eauto.
  - assert (E1 : (b1, x1, s1) = (b', x', s)) by (destruct (b_load_count b1); cbn [read_payload] in H; rewrite Hl in H; congruence).
    injection E1 as <- <- <-. eapply read_index_output; eauto.
Qed.

(** The operations of an emission, those of a reception. *)
Definition emits {X : Type} (o : op X) : bool :=
  match o with Get | IsLoaded | WriteTo _ => true | _ => false end.
Definition receives {X : Type} (o : op X) : bool :=
  match o with Put _ => true | _ => false end.
Definition is_status (v : obs) : bool := match v with OStatus _ => true | _ => false end.

Lemma same_output_loaded : forall (X : Type) (b c : buffered X), same_output b c -> is_loaded c = is_loaded b.
Proof. intros X b c (H1 & H2 & _). unfold is_loaded. rewrite H1, H2. reflexivity. Qed.

Lemma same_output_get : forall (X : Type) (b c : buffered X) b' byte, same_output b c -> get_byte b = Ok (b', byte) ->
  exists c', get_byte c = Ok (c', byte) /\ same_output b' c' /\ b_bufs b' = b_bufs b.
Proof.
  intros X b c b' byte H E. pose proof H as (H1 & H2 & H3). unfold get_byte in *.
  rewrite (same_output_loaded X b c H), H1, H3. destruct (is_loaded b).
  - ok_inv E l. injection E as <- <-. cbn [bind]. eexists. split; [reflexivity|].
    cbn [b_bufs]. split; [|reflexivity]. unfold same_output. cbn [b_obuf_next b_obuf_bottom b_bufs]. auto.
  - injection E as <- <-. eauto.
Qed.

Lemma same_output_write : forall (X Y : Type) (dest : destination Y) fuel (b c : buffered X) y b' y', same_output b c ->
  write_loop fuel dest b y = Ok (b', y') ->
  exists c', write_loop fuel dest c y = Ok (c', y') /\ same_output b' c' /\ b_bufs b' = b_bufs b.
Proof.
  intros X Y dest. induction fuel as [|fuel IH]; intros b c y b' y' H E; cbn [write_loop] in *;
    rewrite (same_output_loaded X b c H); destruct (is_loaded b).
  - discriminate.
  - injection E as <- <-. eauto.
  - ok_inv E q. destruct q as [b1 byte]. ok_inv E y1.
    destruct (same_output_get X b c b1 byte H E0) as (c1 & Ec & H1 & Hb).
    destruct (IH b1 c1 y1 b' y' H1 E) as (c' & Ec' & H' & Hb'). exists c'. rewrite Ec. cbn [bind]. rewrite E1. cbn [bind].
    split; auto. split; auto. congruence.
  - injection E as <- <-. eauto.
Qed.

(** In any state: as long as no request is resolved, what is sent is what would
    have been sent if nothing had been received. *)
Theorem C41_interleaving : forall (X : Type) p ops (b : buffered X) x b' x' vs,
  is_double (b_bufs b) = true -> Forall (fun o => emits o = true \/ receives o = true) ops ->
  run_ops p ops b x = Ok (b', x', vs) -> ~ In (OStatus RESOLVED_PACKET) vs ->
  exists b'', run_ops p (filter emits ops) b x = Ok (b'', x', filter (fun v => negb (is_status v)) vs)
    /\ same_output b' b''.
Proof.
  intros X p ops b x b' x' vs Hd Hops H Hv.
  assert (G : forall c, same_output b c ->
    exists c', run_ops p (filter emits ops) c x = Ok (c', x', filter (fun v => negb (is_status v)) vs)
      /\ same_output b' c').
  { revert b x b' x' vs Hd H Hv. induction Hops as [|o ops Ho Hops IH]; intros b x b' x' vs Hd H Hv c Hc.
    - cbn [run_ops filter] in *. injection H as <- <- <-. exists c. auto.
    - cbn [run_ops] in H. ok_inv H q. destruct q as [[b1 x1] v]. ok_inv H q. destruct q as [[b2 x2] vs2].
      injection H as <- <- <-.
      assert (Hv2 : ~ In (OStatus RESOLVED_PACKET) vs2) by (intros Hin; apply Hv; right; auto).
      destruct o as [byte| | |src|dest|src dest|i r|g|]; cbn [emits receives] in Ho;
        try (destruct Ho; discriminate); cbn [filter emits step] in *.
      + ok_inv E q. destruct q as [[b3 x3] s]. injection E as <- <- <-.
        assert (Hs : s <> RESOLVED_PACKET) by (intros ->; apply Hv; left; reflexivity).
        destruct (C41_put X p byte b x b3 x3 s Hd E1 Hs) as ((A1 & A2 & A3) & A4 & ->).
        cbn [filter is_status negb]. apply (IH b3 x b2 x2 vs2 A4 E0 Hv2). destruct Hc as (C1 & C2 & C3).
        repeat split; congruence.
      + ok_inv E q. destruct q as [b3 byte]. injection E as <- <- <-.
        destruct (same_output_get X b c b3 byte Hc E1) as (c3 & Ec & H3 & Hb).
        destruct (IH b3 x b2 x2 vs2) with (c := c3) as (c' & Er & Hc'); auto; [congruence|].
        exists c'. split; auto. cbn [run_ops step]. rewrite Ec. cbn [bind]. rewrite Er. reflexivity.
      + injection E as <- <- <-. destruct (IH b x b2 x2 vs2) with (c := c) as (c' & Er & Hc'); auto.
        exists c'. split; auto. cbn [run_ops step]. rewrite (same_output_loaded X b c Hc). cbn [bind]. rewrite Er. reflexivity.
      + ok_inv E q. destruct q as [b3 x3]. injection E as <- <- <-. unfold write_to in *.
        destruct (same_output_write X X dest _ b c x b3 x3 Hc E1) as (c3 & Ec & H3 & Hb).
        destruct (IH b3 x3 b2 x2 vs2) with (c := c3) as (c' & Er & Hc'); auto; [congruence|].
        exists c'. split; auto. cbn [run_ops step]. unfold write_to. destruct Hc as (_ & _ & Ho').
        rewrite Ho', Ec. cbn [bind]. rewrite Er. reflexivity. }
  apply G. repeat split.
Qed.

(** Conversely what is received, resolved requests included, does not depend on
    what is sent meanwhile. *)
Theorem C41_reception : forall (X : Type) p (kr : keyring X) ft b a x ops,
  wf_platform p -> keyring_ok p kr -> well_sized true kr ft -> reached p true kr ft b a x ->
  Forall (fun o => o = Get \/ o = IsLoaded \/ receives o = true) ops ->
  along (format_of kr) (legitimate p true kr ft) ops a x ->
  exists b' x' vs, run_ops p ops b x = Ok (b', x', vs)
  /\ exists b'', run_ops p (filter receives ops) b x = Ok (b'', x', filter is_status vs).
Proof.
  intros X p kr ft b a x ops Hp Hk Hs H Hops Hal.
  set (fm := format_of kr).
  assert (G : forall a c x, mc_in c = mc_in a -> mc_table c = mc_table a ->
    along fm (legitimate p true kr ft) ops a x ->
    exists a' c' x' vs, mc_run fm ops a x = Ok (a', x', vs)
      /\ mc_run fm (filter receives ops) c x = Ok (c', x', filter is_status vs)
      /\ along fm (legitimate p true kr ft) (filter receives ops) c x).
  { clear H Hal. clear a x. induction Hops as [|o ops Ho Hops IH]; intros a c x Hi Ht Hal.
    - exists a, c, x, []. cbn. auto.
    - cbn [along] in Hal. destruct Hal as [Hl Hal]. destruct Ho as [->|[->|Ho]].
      + cbn [mc_step] in Hal. destruct (mc_get a) as [a1 byte] eqn:E.
        assert (Ha : mc_in a1 = mc_in a /\ mc_table a1 = mc_table a).
        { unfold mc_get in E. destruct (mc_out a); injection E as <- _; auto. }
        destruct Ha as [Ha1 Ha2].
        destruct (IH a1 c x ltac:(congruence) ltac:(congruence) (Hal _ _ _ eq_refl)) as (a' & c' & x' & vs & E1 & E2 & E3).
        exists a', c', x', (OByte byte :: vs). cbn [mc_run mc_step filter receives is_status]. rewrite E. cbn [bind].
        rewrite E1. cbn [bind]. auto.
      + destruct (IH a c x Hi Ht (Hal _ _ _ eq_refl)) as (a' & c' & x' & vs & E1 & E2 & E3).
        exists a', c', x', (OBool (mc_loaded a) :: vs). cbn [mc_run mc_step filter receives is_status bind].
        rewrite E1. cbn [bind]. auto.
      + destruct o as [byte| | | | | | | |]; try discriminate. clear Ho.
        cbn [filter receives mc_run along]. cbn [mc_step] in Hal |- *. unfold mc_put in *. rewrite Hi.
        assert (Hr : exists a1 c1 x1 s, received fm (mc_in a ++ [byte]) a x = (a1, x1, s)
                       /\ received fm (mc_in a ++ [byte]) c x = (c1, x1, s)
                       /\ mc_in c1 = mc_in a1 /\ mc_table c1 = mc_table a1).
        { unfold received. rewrite Ht. destruct (examine fm (mc_table a) (mc_in a ++ [byte])) as [| |f pl].
          - do 4 eexists. split; [reflexivity|]. split; [reflexivity|]. auto.
          - do 4 eexists. split; [reflexivity|]. split; [reflexivity|]. auto.
          - destruct (serve fm f pl x). do 4 eexists. split; [reflexivity|]. split; [reflexivity|]. auto. }
        destruct Hr as (a1 & c1 & x1 & s & R1 & R2 & Hi1 & Ht1). fold fm in Hal. rewrite R1 in Hal |- *. rewrite R2.
        cbn [bind]. destruct (IH a1 c1 x1 Hi1 Ht1 (Hal _ _ _ eq_refl)) as (a' & c' & x' & vs & E1 & E2 & E3).
        exists a', c', x', (OStatus s :: vs). rewrite E1, E2. cbn [bind filter is_status].
        split; auto. split; auto. split.
        * destruct Hl as [[Hb Hsv] _]. split; [|left; reflexivity]. cbn [step_ok]. rewrite Ht, Hi. auto.
        * intros a2 x2 v E. injection E as <- <- <-. auto. }
  destruct (G a a x eq_refl eq_refl Hal) as (a' & c' & x' & vs & E1 & E2 & E3).
  destruct (reached_run p true kr ft Hp Hk Hs ops b a x a' x' vs H Hal E1) as (b' & R1 & _).
  destruct (reached_run p true kr ft Hp Hk Hs _ b a x c' x' _ H E3 E2) as (b'' & R2 & _).
  exists b', x', vs. split; auto. exists b''. auto.
Qed.

Example C41_example : exists b,
  make_double ex_keyring ANY [] [] = Some b
  /\ is_double (b_bufs b) = true
  /\ observe (run_ops pc_native [Put 0; Put 255; Put 254; Put 5; Get; Put 2; Get; Put 1; IsLoaded; Get; Get; Put 0; Put 7; Get]%Z b [])
     = Ok ([(2, [VList [VInt 1; VInt 7]]); (0, [VInt (-2); VInt 5])],
           [OStatus LOADING_PACKET; OStatus LOADING_PACKET; OStatus LOADING_PACKET; OStatus RESOLVED_PACKET; OByte 0;
            OStatus LOADING_PACKET; OByte 0; OStatus LOADING_PACKET; OBool true; OByte 0; OByte 3;
            OStatus LOADING_PACKET; OStatus RESOLVED_PACKET; OByte 7]%Z)
  /\ along (format_of ex_keyring) (legitimate pc_native true ex_keyring ANY)
       [Put 0; Put 255; Put 254; Put 5; Get; Put 2; Get; Put 1; IsLoaded; Get; Get; Put 0; Put 7; Get]%Z (fresh ex_keyring) [].
Proof. eexists. split; [reflexivity|]. split; [reflexivity|]. split; [vm_compute; reflexivity|]. legit. Qed.

(** ** C45 *)

Definition is_move {X : Type} (o : op X) : bool := match o with Move => true | _ => false end.

(** The observations of a history without those of the moves. *)
Fixpoint without_moves {X : Type} (ops : list (op X)) (vs : list obs) : list obs :=
  match ops, vs with
  | o :: ops', v :: vs' => if is_move o then without_moves ops' vs' else v :: without_moves ops' vs'
  | _, _ => []
  end.

Lemma move_same : forall (X : Type) (b : buffered X), fst (move_buffered b) = b.
Proof. intros X [[kr ft acts] l c i o t bufs]. reflexivity. Qed.

(** In any state, whatever the number of moves and wherever they take place:
    same world, same observations, same final state, same fault. *)
Theorem C45_moves : forall (X : Type) p ops (b : buffered X) x,
  run_ops p (filter (fun o => negb (is_move o)) ops) b x
  = ('(b', x', vs) <- run_ops p ops b x;; Ok (b', x', without_moves ops vs)).
Proof.
  intros X p. induction ops as [|o ops IH]; intros b x; [reflexivity|].
  destruct (is_move o) eqn:Em.
  - destruct o; try discriminate. cbn [filter is_move negb run_ops step bind]. rewrite move_same, IH.
    destruct (run_ops p ops b x) as [[[b' x'] vs]|]; reflexivity.
  - cbn [filter]. rewrite Em. cbn [negb run_ops]. destruct (step p o b x) as [[[b1 x1] v]|]; cbn [bind]; auto.
    rewrite IH. destruct (run_ops p ops b1 x1) as [[[b' x'] vs]|]; cbn [bind without_moves]; auto.
    rewrite Em. reflexivity.
Qed.

Lemma put_dispatcher : forall (X : Type) p byte (b : buffered X) x b' x' s,
  put p byte b x = Ok (b', x', s) -> b_dispatcher b' = b_dispatcher b.
Proof.
  intros X p byte b x b' x' s H.
  assert (Hcall : forall b1 b2 y, call_loaded p b1 x = Ok (b2, y) -> b_dispatcher b2 = b_dispatcher b1).
  { clear. intros b1 b2 y H. unfold call_loaded in H. ok_inv H q. destruct q. ok_inv H a. ok_inv H w.
    injection H as <- _. reflexivity. }
  unfold put in H. ok_inv H m. destruct (b_load_count b) as [|count]; [discriminate|].
  destruct (0 <? count); [injection H as <- _ _; reflexivity|].
  destruct (b_is_index_loaded b).
  { ok_inv H q. destruct q as [b2 y]. apply Hcall in E0. injection H as <- _ _. exact E0. }
  ok_inv H q. destruct q as [w0 i]. destruct (i <? d_size (b_dispatcher b)).
  - ok_inv H a. ok_inv H n. destruct (n =? 0).
    + ok_inv H q. destruct q as [b2 y]. apply Hcall in E3. injection H as <- _ _. exact E3.
    + injection H as <- _ _. reflexivity.
  - injection H as <- _ _. reflexivity.
Qed.

(** What a history does to the actions. *)
Lemma becomes_conform : forall (X : Type) p (b0 b : buffered X), becomes p b0 b -> conform (b_dispatcher b0) ->
  conform (b_dispatcher b) /\ d_keyring (b_dispatcher b) = d_keyring (b_dispatcher b0)
  /\ d_features (b_dispatcher b) = d_features (b_dispatcher b0).
Proof.
  intros X p b0 b H H0. induction H as [|b byte x b' x' s H IH E|b b' byte H IH E|b i r b' H IH E|b H IH]; auto.
  - rewrite (put_dispatcher X p byte b x b' x' s E). auto.
  - assert (b_dispatcher b' = b_dispatcher b) as ->; auto.
    unfold get_byte in E. destruct (is_loaded b); [|congruence]. ok_inv E l. injection E as <- _. reflexivity.
  - destruct IH as (I1 & I2 & I3). unfold replace_buffered in E.
    destruct (replace (b_dispatcher b) i r) as [[d|]|] eqn:Er; try discriminate. injection E as <-. cbn [b_dispatcher].
    destruct (replace_inv X (b_dispatcher b) i r d I1 Er) as (_ & _ & Ed).
    split; [eapply replace_conform; eauto|]. rewrite Ed. auto.
Qed.

Lemma made_conform : forall (X : Type) p (kr : keyring X) ft dbl g g' ops b0 x0 b x vs,
  make_buffered dbl kr ft g g' = Some b0 -> run_ops p ops b0 x0 = Ok (b, x, vs) ->
  conform (b_dispatcher b) /\ d_keyring (b_dispatcher b) = kr /\ d_features (b_dispatcher b) = ft.
Proof.
  intros X p kr ft dbl g g' ops b0 x0 b x vs Hb Hr.
  assert (E0 : b_dispatcher b0 = make_dispatcher kr ft).
  { unfold make_buffered, make_double, make_single in Hb.
    destruct dbl, (needed_input_buffer_size kr) as [n|], (needed_output_buffer_size kr) as [m|]; try discriminate.
    - injection Hb as <-. reflexivity.
    - destruct (max17 [n; m]); [|discriminate]. injection Hb as <-. reflexivity. }
  destruct (becomes_conform X p b0 b) as (H1 & H2 & H3).
  - eapply becomes_run; [apply becomes_self|exact Hr].
  - rewrite E0. apply make_dispatcher_conform.
  - rewrite E0 in H2, H3. auto.
Qed.

Lemma conform_actions : forall (X : Type) (d : dispatcher X), conform d ->
  Forall (fun a => match d_features d with
                   | ANY => moved_from_action a = Storage None
                   | WEAK_REFERENCE => moved_from_action a = a
                   end) (d_actions d).
Proof.
  intros X d H. unfold conform in H. induction H as [|s a l l' (f & _ & ->) Hl IH]; constructor; auto.
  destruct (d_features d); reflexivity.
Qed.

(** The dispatcher which was moved from.  With [no_storage_action]s it is left
    as it was. *)
Theorem C45_moved_from_weak : forall (X : Type) p (kr : keyring X) dbl g g' ops b0 x0 b x vs,
  make_buffered dbl kr WEAK_REFERENCE g g' = Some b0 -> run_ops p ops b0 x0 = Ok (b, x, vs) ->
  snd (move_buffered b) = b.
Proof.
  intros X p kr dbl g g' ops b0 x0 b x vs Hb Hr.
  destruct (made_conform X p kr _ dbl g g' ops b0 x0 b x vs Hb Hr) as (Hc & _ & Hf).
  pose proof (conform_actions X _ Hc) as Ha. rewrite Hf in Ha. clear - Ha.
  destruct b as [[kr ft acts] l c i o t bufs]. unfold move_buffered, move_dispatcher.
  cbn [b_dispatcher d_actions d_keyring d_features snd b_is_index_loaded b_load_count b_ibuf_next b_obuf_next b_obuf_bottom b_bufs] in *.
  replace (map moved_from_action acts) with acts; auto.
  induction Ha as [|a acts Hx Hacts IH]; cbn [map]; congruence.
Qed.

(** With [action]s it must not be used: the last byte of the index of a
    callback dereferences a null pointer... *)
Lemma moved_from_byte : forall (X : Type) p dbl (kr : keyring X) b a x byte,
  wf_platform p -> keyring_ok p kr -> well_sized dbl kr ANY -> reached p dbl kr ANY b a x -> is_byte byte ->
  let b' := snd (move_buffered b) in
  let bs := mc_in a ++ [byte] in
  exists m, store (ibuf (b_bufs b')) (b_ibuf_next b') byte = Ok m /\ Forall is_byte bs
  /\ b_load_count b' = missing (format_of kr) (mc_table a) (mc_in a)
  /\ b_is_index_loaded b' = negb (length (mc_in a) <? kr_index_size kr)
  /\ d_actions (b_dispatcher b') = map (fun _ => Storage None) (mc_table a)
  /\ d_size (b_dispatcher b') = length (mc_table a)
  /\ (kr_index_size kr <= length bs ->
      get_index p (framed_dispatcher (b_dispatcher b')) ibuf_source (mk_frame (set_ibuf m (b_bufs b')) 0 0 x)
      = Ok (mk_frame (set_ibuf m (b_bufs b')) (kr_index_size kr) 0 x,
            Z.to_nat (wire_value (kr_e kr) (firstn (kr_index_size kr) bs)))).
Proof.
  intros X p dbl kr b a x byte Hp Hk Hs H Hbyte b' bs.
  destruct (reached_represents p dbl kr ANY Hp Hk Hs b a x H) as (ni & no & Hroom & Hframing & R).
  pose proof (represents_progress kr ANY ni no dbl Hroom b a R) as (P1 & P2 & _).
  destruct R as (Ht & Hni & Hno & Hdbl & Hnext & Hin & _ & _ & _ & Hbytes & Hprog).
  assert (Hlbs : length bs = S (length (mc_in a))) by (unfold bs; rewrite app_length; cbn; lia).
  assert (Hfree : length bs <= ni).
  { unfold progress in Hprog. destruct (b_is_index_loaded b).
    - destruct Hprog as (f & Hd & H1 & H2 & H3). unfold designated in Hd.
      destruct (table_sig p kr ANY ni no Hk Hframing _ _ _ _ Ht Hd) as [_ (_ & Hf & _)]. unfold params in *. lia.
    - destruct Hprog as [H1 H2]. lia. }
  unfold b', move_buffered, move_dispatcher.
  cbn [snd b_dispatcher b_bufs b_ibuf_next b_load_count b_is_index_loaded d_actions].
  set (m1 := splice (ibuf (b_bufs b)) (length (mc_in a)) [byte]).
  exists m1. split; [rewrite Hnext; apply store_ok; lia|]. split; [apply Forall_app; auto|].
  split; [exact P2|]. split; [exact P1|].
  destruct Ht as (T1 & T2 & T3 & T4).
  split; [rewrite T3, map_map; reflexivity|].
  split; [apply (d_size_ok p kr ANY Hk (b_dispatcher b) (mc_table a)); repeat split; auto|].
  intros Hw.
  change (get_index p (framed_dispatcher (mk_dispatcher (d_keyring (b_dispatcher b)) (d_features (b_dispatcher b))
                         (map moved_from_action (d_actions (b_dispatcher b))))))
    with (get_index p (framed_dispatcher (b_dispatcher b))).
  assert (Hl1 : length m1 = ni) by (unfold m1; rewrite splice_length; cbn; lia).
  apply (get_index_frame p kr ANY ni Hp Hk Hroom _ (mc_table a)); auto.
  - repeat split; auto.
  - rewrite ibuf_set_ibuf, Hlbs. replace (S (length (mc_in a))) with (length (mc_in a) + 1) by lia.
    rewrite slice_app by lia. unfold bs. cbn [Nat.add]. f_equal.
    + transitivity (slice (ibuf (b_bufs b)) 0 (length (mc_in a))); auto.
      unfold m1. apply slice_splice_disjoint; cbn; lia.
    + unfold m1. apply (slice_splice_same _ _ [byte]). cbn. lia.
  - rewrite ibuf_set_ibuf. lia.
  - apply Forall_app. auto.
Qed.

Theorem C45_moved_from_index : forall (X : Type) p dbl (kr : keyring X) b a x byte,
  wf_platform p -> keyring_ok p kr -> well_sized dbl kr ANY -> reached p dbl kr ANY b a x -> is_byte byte ->
  S (length (mc_in a)) = kr_index_size kr ->
  (wire_value (kr_e kr) (mc_in a ++ [byte]) < Z.of_nat (length (kr_funcs kr)))%Z ->
  put p byte (snd (move_buffered b)) x = Fault NullDeref.
Proof.
  intros X p dbl kr b a x byte Hp Hk Hs H Hbyte Hlen Hval.
  pose proof (reached_table p dbl kr ANY Hp Hk Hs b a x H) as Ht.
  pose proof (table_len kr (mc_table a) Ht) as Htl.
  destruct (moved_from_byte X p dbl kr b a x byte Hp Hk Hs H Hbyte) as (m & Hst & Hbs & Hc & Hl & Ha & Hsz & Hg).
  unfold put. rewrite Hst. cbn [bind]. rewrite Hc, Hl. unfold missing. cbn [format_of fm_w].
  destruct (Nat.ltb_spec (length (mc_in a)) (kr_index_size kr)); [|lia].
  replace (kr_index_size kr - length (mc_in a)) with 1 by lia. change (0 <? 0) with false. cbn [negb].
  rewrite Hg by (rewrite app_length; cbn; lia). cbn [bind]. rewrite firstn_all2 by (rewrite app_length; cbn; lia).
  rewrite Hsz. set (i := Z.to_nat (wire_value (kr_e kr) (mc_in a ++ [byte]))).
  assert (Hi : i < length (mc_table a)) by (pose proof (wire_value_bounds (kr_e kr) _ Hbs) as [? _]; unfold i; lia).
  destruct (Nat.ltb_spec i (length (mc_table a))); [|lia].
  unfold action_at. rewrite Ha, nth_error_map.
  destruct (nth_error (mc_table a) i) eqn:En; [|apply nth_error_None in En; lia]. reflexivity.
Qed.

(** ... and the last byte of a packet whose index was received before the move
    resolves it without running anything nor giving a response. *)
Theorem C45_moved_from_packet : forall (X : Type) p dbl (kr : keyring X) b a x byte i f args x' r,
  wf_platform p -> keyring_ok p kr -> well_sized dbl kr ANY -> reached p dbl kr ANY b a x ->
  kr_index_size kr <= length (mc_in a) ->
  nth_error (mc_table a) i = Some f -> calls p kr f args x x' r -> mc_in a ++ [byte] = packet kr i f args ->
  exists b', put p byte (snd (move_buffered b)) x = Ok (b', x, RESOLVED_PACKET) /\ is_loaded b' = false.
Proof.
  intros X p dbl kr b a x byte i f args x' r Hp Hk Hs H Hlen Hi Hcall Hpk.
  pose proof (reached_table p dbl kr ANY Hp Hk Hs b a x H) as Ht.
  pose proof (table_len kr (mc_table a) Ht) as Htl.
  assert (Hbyte : is_byte byte).
  { pose proof (packet_bytes kr i f args) as Hb. rewrite <- Hpk in Hb. apply Forall_app in Hb. destruct Hb as [_ Hb].
    inversion Hb. auto. }
  destruct (moved_from_byte X p dbl kr b a x byte Hp Hk Hs H Hbyte) as (m & Hst & Hbs & Hc & Hl & Ha & Hsz & Hg).
  pose proof (packet_length p kr i f args x x' r Hcall) as Hpl. rewrite <- Hpk, app_length in Hpl. cbn [length] in Hpl.
  assert (Hd : designated (format_of kr) (mc_table a) (mc_in a) = Some f).
  { apply (packet_designates p kr Hk (mc_table a) Ht i f args); auto. rewrite <- Hpk, firstn_app.
    replace (kr_index_size kr - length (mc_in a)) with 0 by lia. cbn [firstn]. rewrite app_nil_r. reflexivity. }
  unfold put. rewrite Hst. cbn [bind]. rewrite Hc, Hl. unfold missing. cbn [format_of fm_w].
  destruct (Nat.ltb_spec (length (mc_in a)) (kr_index_size kr)); [lia|]. fold (format_of kr). rewrite Hd.
  unfold params.
  replace (kr_index_size kr + wire_sizes (sig_params (f_sig f)) - length (mc_in a)) with 1 by lia.
  change (0 <? 0) with false. cbn [negb]. unfold call_loaded. cbn [b_dispatcher b_bufs].
  rewrite Hg by (rewrite app_length; cbn; lia). cbn [bind].
  assert (Ei : nth_error (mc_table a) (Z.to_nat (wire_value (kr_e kr) (firstn (kr_index_size kr) (mc_in a ++ [byte])))) = Some f).
  { rewrite firstn_app. replace (kr_index_size kr - length (mc_in a)) with 0 by lia. cbn [firstn]. rewrite app_nil_r.
    exact Hd. }
  unfold action_at, framed_dispatcher. cbn [d_actions]. rewrite Ha, map_map, nth_error_map, Ei.
  cbn [option_map framed_action bind run]. eexists. split; reflexivity.
Qed.

Example C45_example : exists b,
  make_double ex_keyring ANY [] [] = Some b
  /\ observe (run_ops pc_native [Put 0; Put 255; Move; Put 254; Put 5; Get; Move; Get; Get; Get]%Z b [])
     = Ok ([(0, [VInt (-2); VInt 5])],
           [OStatus LOADING_PACKET; OStatus LOADING_PACKET; ONone; OStatus LOADING_PACKET; OStatus RESOLVED_PACKET;
            OByte 0; ONone; OByte 0; OByte 0; OByte 3]%Z)
  /\ (1 = kr_index_size ex_keyring /\ (wire_value (kr_e ex_keyring) [2%Z] < Z.of_nat (length (kr_funcs ex_keyring)))%Z)
  /\ observe (run_ops pc_native [Put 2]%Z (snd (move_buffered b)) []) = Fault NullDeref
  /\ exists b1, run_ops pc_native [Put 0; Put 255; Put 254]%Z b [] = Ok (b1, [], repeat (OStatus LOADING_PACKET) 3)
     /\ kr_index_size ex_keyring <= length [0; 255; 254]%Z
     /\ [0; 255; 254]%Z ++ [5%Z] = packet ex_keyring 0 ex_add [VInt (-2); VInt 5]
     /\ observe (run_ops pc_native [Put 5; IsLoaded]%Z (snd (move_buffered b1)) [])
        = Ok ([], [OStatus RESOLVED_PACKET; OBool false]).
Proof.
  eexists. split; [reflexivity|]. split; [vm_compute; reflexivity|]. split; [split; vm_compute; reflexivity|].
  split; [vm_compute; reflexivity|]. eexists. split; [vm_compute; reflexivity|]. split; [vm_compute; lia|].
  split; [reflexivity|]. vm_compute. reflexivity.
Qed.

(** ** C46 *)

(** The shape of an observation: what framing is about. *)
Definition shape (v : obs) : obs := match v with OByte _ => OByte 0 | _ => v end.
Definition is_visible (v : obs) : bool := match v with ONone => false | _ => true end.

Definition replaces {X : Type} (o : op X) : bool := match o with Replace _ _ => true | _ => false end.
Definition local {X : Type} (o : op X) : bool :=
  match o with Put _ | Get | IsLoaded | Replace _ _ | Outside _ | Move => true | _ => false end.

(** Replacements anywhere in a history change neither the statuses nor the
    number of bytes of the responses: the visible observations have the same
    shapes without them. *)
Theorem C46_framing : forall (X : Type) p dbl (kr : keyring X) ft b a x ops,
  wf_platform p -> keyring_ok p kr -> well_sized dbl kr ft -> reached p dbl kr ft b a x ->
  Forall (fun o => local o = true) ops ->
  along (format_of kr) (legitimate p dbl kr ft) ops a x ->
  along (format_of kr) (legitimate p dbl kr ft) (filter (fun o => negb (replaces o)) ops) a x ->
  exists b1 x1 vs1 b2 x2 vs2,
    run_ops p ops b x = Ok (b1, x1, vs1)
    /\ run_ops p (filter (fun o => negb (replaces o)) ops) b x = Ok (b2, x2, vs2)
    /\ map shape (filter is_visible vs1) = map shape (filter is_visible vs2).
Proof.
  intros X p dbl kr ft b a x ops Hp Hk Hs H Hops Hal Hal'.
  set (fm := format_of kr) in *.
  pose proof (reached_table p dbl kr ft Hp Hk Hs b a x H) as Ht0.
  assert (Hup : forall (t : list (func X)) i f, nth_error (map f_sig t) i = Some (f_sig f) -> map f_sig (update t i f) = map f_sig t).
  { induction t as [|g t IH]; intros [|i] f E; cbn [map update nth_error] in *; try discriminate.
    - congruence.
    - rewrite IH; auto. }
  assert (G : forall a c x y, mc_in c = mc_in a -> length (mc_out c) = length (mc_out a) ->
    map f_sig (mc_table c) = map f_sig (mc_table a) -> map f_sig (mc_table a) = kr_signatures kr ->
    along fm (legitimate p dbl kr ft) ops a x ->
    along fm (legitimate p dbl kr ft) (filter (fun o => negb (replaces o)) ops) c y ->
    exists a' c' x' y' vs ws, mc_run fm ops a x = Ok (a', x', vs)
      /\ mc_run fm (filter (fun o => negb (replaces o)) ops) c y = Ok (c', y', ws)
      /\ map shape (filter is_visible vs) = map shape (filter is_visible ws)).
  { clear H Hal Hal' Ht0. clear a x. induction Hops as [|o ops Ho Hops IH]; intros a c x y Hi Hlo Ht Hta Hal Hal'.
    - exists a, c, x, y, [], []. cbn. auto.
    - cbn [along] in Hal. destruct Hal as [Hl Hal].
      destruct o as [byte| | |src|dest|src dest|i r|g|]; cbn [local] in Ho; try discriminate; clear Ho;
        cbn [filter replaces negb along] in Hal' |- *; try (destruct Hal' as [Hl' Hal']);
        cbn [mc_step mc_run] in Hal, Hal' |- *.
      + (* Put *)
        unfold mc_put in *. rewrite Hi in Hal' |- *.
        destruct Hl as [[_ Hsv] _]. destruct Hl' as [[_ Hsv'] _]. rewrite Hi in Hsv'.
        assert (Hr : exists a1 c1 x1 y1 s, received fm (mc_in a ++ [byte]) a x = (a1, x1, s)
                       /\ received fm (mc_in a ++ [byte]) c y = (c1, y1, s)
                       /\ mc_in c1 = mc_in a1 /\ length (mc_out c1) = length (mc_out a1)
                       /\ mc_table a1 = mc_table a /\ mc_table c1 = mc_table c).
        { unfold servable in Hsv, Hsv'. fold fm in Hsv, Hsv'. unfold received. unfold examine in *.
          destruct (length (mc_in a ++ [byte]) <? fm_w fm).
          { do 5 eexists. split; [reflexivity|]. split; [reflexivity|]. auto. }
          unfold designated in *. set (j := Z.to_nat _) in *.
          assert (Hj : option_map f_sig (nth_error (mc_table c) j) = option_map f_sig (nth_error (mc_table a) j)).
          { rewrite <- !nth_error_map. congruence. }
          destruct (nth_error (mc_table a) j) as [f|], (nth_error (mc_table c) j) as [h|]; try discriminate Hj.
          2:{ do 5 eexists. split; [reflexivity|]. split; [reflexivity|]. auto. }
          cbn [option_map] in Hj. assert (Ej : f_sig h = f_sig f) by congruence.
          assert (Ep : params h = params f) by (unfold params; congruence).
          assert (Er : ret h = ret f) by (unfold ret; congruence).
          rewrite Ep in *.
          destruct (length (mc_in a ++ [byte]) <? fm_w fm + wire_sizes (params f)).
          { do 5 eexists. split; [reflexivity|]. split; [reflexivity|]. auto. }
          destruct Hsv as [_ He]. destruct Hsv' as [_ He'].
          destruct (serve fm f (skipn (fm_w fm) (mc_in a ++ [byte])) x) as [x1 o1] eqn:S1.
          destruct (serve fm h (skipn (fm_w fm) (mc_in a ++ [byte])) y) as [y1 o2] eqn:S2.
          do 5 eexists. split; [reflexivity|]. split; [reflexivity|]. split; [reflexivity|].
          split; [|auto]. cbn [mc_out].
          rewrite (serve_length p kr f _ x x1 o1 He S1).
          rewrite (serve_length p kr h _ y y1 o2 He' S2). congruence. }
        destruct Hr as (a1 & c1 & x1 & y1 & s & R1 & R2 & Hi1 & Ho1 & Ta & Tc).
        rewrite R1 in Hal |- *. rewrite R2 in Hal' |- *. cbn [bind].
        destruct (IH a1 c1 x1 y1) as (a' & c' & x' & y' & vs & ws & E1 & E2 & E3); try congruence.
        { apply (Hal _ _ _ eq_refl). } { apply (Hal' _ _ _ eq_refl). }
        rewrite E1, E2. cbn [bind]. do 6 eexists. split; [reflexivity|]. split; [reflexivity|].
        cbn [filter is_visible map]. congruence.
      + (* Get *)
        destruct (mc_get a) as [a1 v1] eqn:G1. destruct (mc_get c) as [c1 v2] eqn:G2. cbn [bind].
        assert (Hg : mc_in a1 = mc_in a /\ mc_in c1 = mc_in c /\ length (mc_out c1) = length (mc_out a1)
                     /\ mc_table a1 = mc_table a /\ mc_table c1 = mc_table c).
        { unfold mc_get in G1, G2. destruct (mc_out a) eqn:Oa, (mc_out c) eqn:Oc; try discriminate Hlo;
            injection G1 as <- <-; injection G2 as <- <-; cbn [mc_in mc_out mc_table].
          - rewrite Oa, Oc. auto.
          - cbn [length] in Hlo. auto. }
        destruct Hg as (I1 & I2 & I3 & I4 & I5).
        destruct (IH a1 c1 x y) as (a' & c' & x' & y' & vs & ws & E1 & E2 & E3); try congruence.
        { apply (Hal _ _ _ eq_refl). } { apply (Hal' _ _ _ eq_refl). }
        rewrite E1, E2. cbn [bind]. do 6 eexists. split; [reflexivity|]. split; [reflexivity|].
        cbn [filter is_visible map shape]. congruence.
      + (* IsLoaded *)
        cbn [bind]. destruct (IH a c x y) as (a' & c' & x' & y' & vs & ws & E1 & E2 & E3); try congruence.
        { apply (Hal _ _ _ eq_refl). } { apply (Hal' _ _ _ eq_refl). }
        rewrite E1, E2. cbn [bind]. do 6 eexists. split; [reflexivity|]. split; [reflexivity|].
        cbn [filter is_visible map shape]. f_equal; auto. unfold mc_loaded.
        destruct (mc_out a), (mc_out c); try discriminate; reflexivity.
      + (* Replace *)
        cbn [bind]. destruct Hl as [[Hr _] _].
        destruct (IH (mc_replace i (replacing r) a) c x y) as (a' & c' & x' & y' & vs & ws & E1 & E2 & E3);
          cbn [mc_replace mc_in mc_out mc_table]; auto.
        { rewrite Hup; auto. rewrite Hta. auto. }
        { rewrite Hup; auto. rewrite Hta. auto. }
        { apply (Hal _ _ _ eq_refl). }
        rewrite E1, E2. cbn [bind]. do 6 eexists. split; [reflexivity|]. split; [reflexivity|]. auto.
      + (* Outside *)
        cbn [bind]. destruct (IH a c (g x) (g y)) as (a' & c' & x' & y' & vs & ws & E1 & E2 & E3); try congruence.
        { apply (Hal _ _ _ eq_refl). } { apply (Hal' _ _ _ eq_refl). }
        rewrite E1, E2. cbn [bind]. do 6 eexists. split; [reflexivity|]. split; [reflexivity|]. auto.
      + (* Move *)
        cbn [bind]. destruct (IH a c x y) as (a' & c' & x' & y' & vs & ws & E1 & E2 & E3); try congruence.
        { apply (Hal _ _ _ eq_refl). } { apply (Hal' _ _ _ eq_refl). }
        rewrite E1, E2. cbn [bind]. do 6 eexists. split; [reflexivity|]. split; [reflexivity|]. auto. }
  destruct (G a a x x eq_refl eq_refl eq_refl Ht0 Hal Hal') as (a' & c' & x' & y' & vs & ws & E1 & E2 & E3).
  destruct (reached_run p dbl kr ft Hp Hk Hs ops b a x a' x' vs H Hal E1) as (b1 & R1 & _).
  destruct (reached_run p dbl kr ft Hp Hk Hs _ b a x c' y' ws H Hal' E2) as (b2 & R2 & _).
  exists b1, x', vs, b2, y', ws. auto.
Qed.

(** The callback which runs is the one in place when the packet is resolved. *)
Theorem C46_callback : forall (X : Type) p dbl (kr : keyring X) ft b a x i j f rep args k x' r,
  wf_platform p -> keyring_ok p kr -> well_sized dbl kr ft -> reached p dbl kr ft b a x -> quiet dbl a ->
  nth_error (mc_table a) i = Some f -> replaceable ft (kr_signatures kr) j rep ->
  k < length (packet kr i f args) -> mc_in a = firstn k (packet kr i f args) ->
  let g := if i =? j then replacing rep else f in
  calls p kr g args x x' r ->
  exists b', run_ops p (Replace j rep :: map Put (skipn k (packet kr i f args))) b x
             = Ok (b', x', ONone :: repeat (OStatus LOADING_PACKET) (length (packet kr i f args) - k - 1)
                             ++ [OStatus RESOLVED_PACKET])
    /\ reached p dbl kr ft b' (mk_machine [] (answer kr g r) (update (mc_table a) j (replacing rep))) x'.
Proof.
  intros X p dbl kr ft b a x i j f rep args k x' r Hp Hk Hs H Hq Hi Hrep Hlt Hin g Hc.
  destruct (reached_step p dbl kr ft Hp Hk Hs (Replace j rep) b a x (mc_replace j (replacing rep) a) x ONone H)
    as (b1 & E1 & H1).
  { split; [exact Hrep|right; exact I]. }
  { reflexivity. }
  pose proof (reached_table p dbl kr ft Hp Hk Hs b a x H) as Ht0.
  pose proof (reached_table p dbl kr ft Hp Hk Hs _ _ _ H1) as Ht.
  assert (Hj : j < length (mc_table a)).
  { rewrite (table_len kr (mc_table a) Ht0). destruct Hrep as [Hn _].
    assert (j < length (kr_signatures kr)) by (apply nth_error_Some; congruence).
    unfold kr_signatures in H0. rewrite map_length in H0. auto. }
  assert (Hn : nth_error (mc_table (mc_replace j (replacing rep) a)) i = Some g).
  { cbn [mc_replace mc_table]. rewrite update_set_nth. unfold g. destruct (Nat.eqb_spec i j) as [->|Hne].
    - apply set_nth_same. auto.
    - rewrite set_nth_other by auto. auto. }
  assert (Es : f_sig g = f_sig f).
  { unfold g. destruct (Nat.eqb_spec i j) as [->|]; auto. destruct Hrep as [Hr _].
    rewrite <- Ht0, nth_error_map, Hi in Hr. cbn [option_map] in Hr. congruence. }
  assert (Epk : packet kr i g args = packet kr i f args) by (unfold packet; rewrite Es; reflexivity).
  rewrite <- Epk in Hlt, Hin |- *.
  destruct (mc_feed p dbl kr ft Hk (length (packet kr i g args) - k) k i g args x x' r
              (mc_replace j (replacing rep) a)) as [F1 F2]; auto; [lia|].
  destruct (reached_run p dbl kr ft Hp Hk Hs _ b1 _ x _ _ _ H1 F2 F1) as (b2 & E2 & H2).
  exists b2. split.
  - cbn [run_ops]. rewrite E1. cbn [bind]. rewrite E2. reflexivity.
  - exact H2.
Qed.

Example C46_example : exists b,
  make_double ex_keyring WEAK_REFERENCE [] [] = Some b
  /\ replaceable WEAK_REFERENCE (kr_signatures ex_keyring) 0 (ByUnevaluated ex_sub)
  /\ observe (run_ops pc_native [Put 0; Put 255; Replace 0 (ByUnevaluated ex_sub); Put 254; Put 5; Get; Get; Get; Get]%Z b [])
     = Ok ([(3, [VInt (-2); VInt 5])],
           [OStatus LOADING_PACKET; OStatus LOADING_PACKET; ONone; OStatus LOADING_PACKET; OStatus RESOLVED_PACKET;
            OByte 255; OByte 255; OByte 255; OByte 249]%Z).
Proof.
  eexists. split; [reflexivity|]. split; [|vm_compute; reflexivity].
  unfold replaceable. vm_compute. repeat split; auto.
Qed.

Print Assumptions C41_put.
Print Assumptions C41_read_from.
Print Assumptions C41_interleaving.
Print Assumptions C41_reception.
Print Assumptions C45_moves.
Print Assumptions C45_moved_from_weak.
Print Assumptions C45_moved_from_index.
Print Assumptions C45_moved_from_packet.
Print Assumptions C46_framing.
Print Assumptions C46_callback.
