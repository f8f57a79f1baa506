(** Property C91: the single buffered dispatcher while a response is pending.
    A byte received in position [n] of a request takes the place of the byte
    [n] of the response; nothing else happens. *)

From Coq Require Import List ZArith Lia Bool Arith.
From Verif Require Import Base CInt Spec IntModel Conditions MemFacts TypeLevel Serial TupleModel
  TypeLevelProofs IntProofs SignedProofs SerialProofs CodecFacts Bounds TupleProofs PropertiesTuple SpecRpc Rpc RpcProofs
  Hosts Closed PropertiesTypes PropertiesRpc Buffered SpecBuffered BufferedProofs PropertiesBuffered
  PropertiesBuffers PropertiesDuplex PropertiesFormats PropertiesHostile.
Import ListNotations.
Open Scope nat_scope.

(** ** What is expected *)

(** The bytes [bs] written over those of [r]. *)
Definition overlay (bs r : list Z) : list Z := firstn (length r) bs ++ skipn (length bs) r.

(** The state: what was received of the request, the whole response, how many
    of its bytes were sent, the callbacks. *)
Record duplex (X : Type) : Type := mk_duplex {
  fd_in : list Z;
  fd_resp : list Z;
  fd_sent : nat;
  fd_table : list (func X)
}.
Arguments mk_duplex {X} fd_in fd_resp fd_sent fd_table.
Arguments fd_in {X} d.
Arguments fd_resp {X} d.
Arguments fd_sent {X} d.
Arguments fd_table {X} d.

Section Duplex.
  Context {X : Type}.
  Variables (fm : format) (dbl : bool).

  (** What the bytes of a request do to the response: nothing if there are two
      buffers. *)
  Definition spoilt (bs r : list Z) : list Z := if dbl then r else overlay bs r.

  (** Having received [bs] since the beginning of the request. *)
  Definition fd_received (bs : list Z) (a : duplex X) (x : X) : duplex X * X * packet_status :=
    match examine fm (fd_table a) bs with
    | Incomplete => (mk_duplex bs (spoilt bs (fd_resp a)) (fd_sent a) (fd_table a), x, LOADING_PACKET)
    | Invalid => (mk_duplex [] (spoilt bs (fd_resp a)) (fd_sent a) (fd_table a), x, DROPPED_PACKET)
    | Request f payload =>
        let (x', out) := serve fm f payload x in
        (mk_duplex [] out 0 (fd_table a), x', RESOLVED_PACKET)
    end.

  (** The same, without a response. *)
  Definition inner (a : duplex X) : machine X := mk_machine (fd_in a) [] (fd_table a).

  Definition fd_read (src : source X) (a : duplex X) (x : X) : res (duplex X * X * packet_status) :=
    '(x1, bs) <- mc_fetch fm src (inner a) x;;
    Ok (fd_received bs a x1).

  Definition fd_get (a : duplex X) : duplex X * Z :=
    match skipn (fd_sent a) (fd_resp a) with
    | [] => (a, 0%Z)
    | b :: _ => (mk_duplex (fd_in a) (fd_resp a) (S (fd_sent a)) (fd_table a), b)
    end.

  Definition fd_loaded (a : duplex X) : bool := fd_sent a <? length (fd_resp a).

  Definition fd_write (dest : destination X) (a : duplex X) (x : X) : res (duplex X * X) :=
    x' <- push dest (skipn (fd_sent a) (fd_resp a)) x;;
    Ok (mk_duplex (fd_in a) (fd_resp a) (length (fd_resp a)) (fd_table a), x').

  Definition fd_process (src : source X) (dest : destination X) (a : duplex X) (x : X)
      : res (duplex X * X * packet_status) :=
    '(a1, x1, s) <- fd_read src a x;;
    match s with
    | RESOLVED_PACKET => '(a2, x2) <- fd_write dest a1 x1;; Ok (a2, x2, s)
    | _ => Ok (a1, x1, s)
    end.

  Definition fd_step (o : op X) (a : duplex X) (x : X) : res (duplex X * X * obs) :=
    match o with
    | Put byte => let '(a', x', s) := fd_received (fd_in a ++ [byte]) a x in Ok (a', x', OStatus s)
    | Get => let (a', b) := fd_get a in Ok (a', x, OByte b)
    | IsLoaded => Ok (a, x, OBool (fd_loaded a))
    | ReadFrom src => '(a', x', s) <- fd_read src a x;; Ok (a', x', OStatus s)
    | WriteTo dest => '(a', x') <- fd_write dest a x;; Ok (a', x', ONone)
    | Process src dest => '(a', x', s) <- fd_process src dest a x;; Ok (a', x', OStatus s)
    | Replace i r => Ok (mk_duplex (fd_in a) (fd_resp a) (fd_sent a) (update (fd_table a) i (replacing r)), x, ONone)
    | Outside g => Ok (a, g x, ONone)
    | Move => Ok (a, x, ONone)
    end.

  Fixpoint fd_run (ops : list (op X)) (a : duplex X) (x : X) : res (duplex X * X * list obs) :=
    match ops with
    | [] => Ok (a, x, [])
    | o :: ops' =>
        '(a1, x1, b) <- fd_step o a x;;
        '(a2, x2, bs) <- fd_run ops' a1 x1;;
        Ok (a2, x2, b :: bs)
    end.

  Fixpoint fd_along (P : op X -> duplex X -> X -> Prop) (ops : list (op X)) (a : duplex X) (x : X) : Prop :=
    match ops with
    | [] => True
    | o :: ops' => P o a x /\ forall a1 x1 b, fd_step o a x = Ok (a1, x1, b) -> fd_along P ops' a1 x1
    end.
End Duplex.

(** A new dispatcher. *)
Definition fd_fresh {X : Type} (kr : keyring X) : duplex X := mk_duplex [] [] 0 (map snd (kr_funcs kr)).

(** The conditions on an operation do not depend on the response. *)
Definition fd_ok {X : Type} (p : platform) (kr : keyring X) (ft : action_features)
    (o : op X) (a : duplex X) (x : X) : Prop :=
  step_ok (format_of kr) p ft (kr_signatures kr) o (inner a) x.

(** ** Bytes written over others *)

Lemma overlay_length : forall bs r, length (overlay bs r) = length r.
Proof. intros bs r. unfold overlay. rewrite app_length, firstn_length, skipn_length. lia. Qed.

Lemma overlay_nil : forall r, overlay [] r = r.
Proof. intros r. unfold overlay. rewrite firstn_nil. reflexivity. Qed.

Lemma overlay_app : forall l k r, overlay (l ++ k) (overlay l r) = overlay (l ++ k) r.
Proof.
  intros l k r. unfold overlay at 1. rewrite overlay_length. unfold overlay. f_equal.
  rewrite app_length. destruct (Nat.le_gt_cases (length l) (length r)).
  - rewrite (firstn_all2 l) by auto. rewrite skipn_app, skipn_all2 by lia. cbn [app].
    replace (length l + length k - length l) with (length k) by lia. rewrite skipn_skipn. f_equal; lia.
  - rewrite !skipn_all2; auto; rewrite ?app_length, ?firstn_length, ?skipn_length; lia.
Qed.

Lemma spoilt_length : forall dbl bs r, length (spoilt dbl bs r) = length r.
Proof. intros [|] bs r; [reflexivity|apply overlay_length]. Qed.

Lemma spoilt_app : forall dbl l k r, spoilt dbl (l ++ k) (spoilt dbl l r) = spoilt dbl (l ++ k) r.
Proof. intros [|] l k r; [reflexivity|apply overlay_app]. Qed.

(** The memory after a store in the byte which follows [l]. *)
Lemma store_after : forall l b (m m' : list Z), firstn (length l) m = l -> length l <= length m ->
  store m (length l) b = Ok m' -> m' = (l ++ [b]) ++ skipn (length (l ++ [b])) m /\ length l < length m.
Proof.
  induction l as [|c l IH]; intros b m m' Hl Hlen H; (destruct m as [|y m]; [discriminate|]).
  - cbn in H. injection H as <-. split; [reflexivity|cbn; lia].
  - cbn [length firstn] in Hl, Hlen. injection Hl as -> Hl. cbn [length store] in H. ok_inv H m1. injection H as <-.
    destruct (IH b m m1 Hl ltac:(lia) E) as [-> Hlt]. split; [|cbn [length]; lia].
    cbn [app length skipn]. reflexivity.
Qed.

Lemma store_overlay : forall l b (m m' : list Z) n, firstn (length l) m = l -> length l <= length m -> n <= length m ->
  store m (length l) b = Ok m' -> firstn n m' = overlay (l ++ [b]) (firstn n m).
Proof.
  intros l b m m' n Hl Hlen Hn H. destruct (store_after l b m m' Hl Hlen H) as [-> Hlt].
  unfold overlay. rewrite firstn_app, firstn_length, (Nat.min_l n) by lia. f_equal.
  rewrite firstn_skipn_comm. destruct (Nat.le_gt_cases (length (l ++ [b])) n).
  - f_equal. f_equal. lia.
  - rewrite !skipn_all2; auto; rewrite firstn_length; lia.
Qed.

(** ** The dispatcher does what is expected *)

Section Simulation.
  Context {X : Type}.
  Variables (p : platform) (dbl : bool) (kr : keyring X) (ft : action_features) (ni no : nat).
  Hypothesis Hp : wf_platform p.
  Hypothesis Hk : keyring_ok p kr.
  Hypothesis Hroom : kr_index_size kr <= ni.
  Hypothesis Hframing : Forall (framing_ok ft ni no (kr_index_size kr)) (kr_signatures kr).
  Let fm := format_of kr.
  Let w := kr_index_size kr.

  Definition shows (b : buffered X) (a : duplex X) : Prop :=
    represents kr ft ni no dbl (drained b) (inner a)
    /\ b_obuf_next b = fd_sent a /\ fd_sent a <= length (fd_resp a)
    /\ b_obuf_bottom b = length (fd_resp a)
    /\ firstn (length (fd_resp a)) (obuf (b_bufs b)) = fd_resp a.

  Lemma shows_room : forall b a, shows b a ->
    length (fd_resp a) <= no /\ length (obuf (b_bufs b)) = no /\ length (ibuf (b_bufs b)) = ni
    /\ is_double (b_bufs b) = dbl
    /\ b_ibuf_next b = length (fd_in a) /\ firstn (length (fd_in a)) (ibuf (b_bufs b)) = fd_in a.
  Proof.
    intros b a ((_ & R2 & R3 & R4 & R5 & R6 & _ & R8 & _) & _ & _ & Hb & _).
    cbn [drained with_next b_bufs b_obuf_bottom b_ibuf_next inner mc_in] in *. rewrite Hb in R8.
    repeat (split; [solve [auto]|]). exact R6.
  Qed.

  Lemma shows_progress : forall b a, shows b a ->
    b_is_index_loaded b = negb (length (fd_in a) <? w)
    /\ b_load_count b = missing fm (fd_table a) (fd_in a)
    /\ 1 <= b_load_count b.
  Proof. intros b a (H & _). exact (represents_progress kr ft ni no dbl Hroom _ _ H). Qed.

  Lemma shows_put : forall b a x byte, shows b a -> is_byte byte ->
    servable fm p (fd_table a) (fd_in a ++ [byte]) x ->
    let '(a', x', s) := fd_received fm dbl (fd_in a ++ [byte]) a x in
    exists b', put p byte b x = Ok (b', x', s) /\ shows b' a'.
  Proof.
    intros b a x byte Hs Hb Hsv. destruct (shows_room b a Hs) as (G1 & G2 & G3 & G4 & G5 & G6).
    destruct Hs as (Hr & Hn & Hle & Hbot & Hresp).
    pose proof (put_ok p kr ft ni no dbl Hp Hk Hroom Hframing (drained b) (inner a) x byte Hr Hb (or_intror eq_refl) Hsv) as H.
    unfold mc_put, received in H. cbn [inner mc_in mc_out mc_table] in H. fold fm in H. unfold fd_received.
    set (bs := fd_in a ++ [byte]) in *.
    destruct (examine fm (fd_table a) bs) as [| |f pl] eqn:Ex.
    1,2: destruct H as (b1 & E & Hr1); destruct (put_next X p byte _ b x b1 x _ E) as (b2 & E2 & Hc);
      exists b2; (split; [exact E2|]);
      (destruct Hc as [(Hbad & _)|(_ & -> & Hn1 & Hb1 & mem & Hst & Hbufs)]; [discriminate|]);
      split; [|split; [exact Hn|cbn [fd_resp fd_sent]; split; [rewrite spoilt_length; exact Hle|split; [rewrite spoilt_length; cbn [with_next b_obuf_bottom]; congruence|]]]];
      [replace (drained (with_next (b_obuf_next b) b1)) with b1; [exact Hr1|];
       destruct b1 as [d l c k o bt bufs]; unfold drained, with_next in Hn1, Hb1 |- *;
       cbn [b_obuf_next b_obuf_bottom b_dispatcher b_is_index_loaded b_load_count b_ibuf_next b_bufs] in *; congruence|];
      cbn [with_next b_bufs fd_resp]; rewrite spoilt_length, Hbufs;
      assert (Hlm : length mem = length (ibuf (b_bufs b))) by
        (rewrite G5 in Hst; destruct (store_after _ _ _ _ G6 ltac:(rewrite <- (firstn_skipn (length (fd_in a)) (ibuf (b_bufs b))), app_length, G6; lia) Hst) as [-> Hlt];
         rewrite app_length, skipn_length, app_length; cbn [length]; lia);
      rewrite G5 in Hst; revert Hst Hlm G6 Hresp G2 G3 G4; unfold spoilt;
      destruct (b_bufs b) as [m|i o]; cbn [is_double ibuf obuf set_ibuf]; intros Hst Hlm G6 Hresp G2 G3 <-; [|exact Hresp];
      rewrite (store_overlay _ _ _ _ (length (fd_resp a)) G6 ltac:(rewrite <- (firstn_skipn (length (fd_in a)) m), app_length, G6; lia) ltac:(lia) Hst), Hresp; reflexivity.
    destruct (serve fm f pl x) as [x' out]. destruct H as (b1 & E & Hr1).
    destruct (put_next X p byte _ b x b1 x' _ E) as (b2 & E2 & Hc).
    destruct Hc as [(_ & -> & Hz)|(Hbad & _)]; [|congruence]. exists b1. split; [exact E2|].
    destruct Hr1 as (R1 & R2 & R3 & R4 & R5 & R6 & R7 & R8 & R9 & R10 & R11).
    cbn [mc_in mc_out mc_table] in *. rewrite Hz in *.
    split; [|split; [exact Hz|split; [cbn [fd_sent]; lia|split; [cbn [fd_resp]; lia|exact R9]]]].
    unfold represents, drained, with_next, inner.
    cbn [b_dispatcher b_bufs b_ibuf_next b_obuf_next b_obuf_bottom mc_in mc_out mc_table fd_in fd_table length slice firstn].
    repeat (split; [solve [auto | lia]|]). exact R11.
  Qed.

  Lemma fd_received_more : forall bs l (a : duplex X) (x : X),
    fd_received fm dbl (bs ++ l) (mk_duplex bs (spoilt dbl bs (fd_resp a)) (fd_sent a) (fd_table a)) x
    = fd_received fm dbl (bs ++ l) a x.
  Proof.
    intros bs l a x. unfold fd_received. cbn [fd_table fd_resp fd_sent]. rewrite spoilt_app. reflexivity.
  Qed.

  Lemma fd_received_end : forall bs a (x x' : X) a' s, examine fm (fd_table a) bs <> Incomplete ->
    fd_received fm dbl bs a x = (a', x', s) -> fd_in a' = [] /\ s <> LOADING_PACKET.
  Proof.
    intros bs a x x' a' s H E. unfold fd_received in E. destruct (examine fm (fd_table a) bs) as [| |f pl]; [congruence| |].
    - injection E as <- _ <-. split; [reflexivity|discriminate].
    - destruct (serve fm f pl x) as [y out]. injection E as <- _ <-. split; [reflexivity|discriminate].
  Qed.

  Definition shows_agrees {V : Type} (c : res (buffered X * X * V)) (s : res (duplex X * X * V)) : Prop :=
    match s with
    | Ok (a', x', v) => exists b', c = Ok (b', x', v) /\ shows b' a'
    | Fault f => c = Fault f
    end.

  Lemma f_examine_missing : forall (table : list (func X)) bs,
    (missing fm table bs = 0 <-> examine fm table bs <> Incomplete).
  Proof. exact (examine_missing kr ni Hroom). Qed.
  Lemma f_missing_cons : forall (table : list (func X)) bs b, 2 <= missing fm table bs ->
    missing fm table (bs ++ [b]) = missing fm table bs - 1.
  Proof. exact (missing_cons kr ni Hroom). Qed.
  Lemma f_missing_last : forall (table : list (func X)) bs b, w <= length bs -> missing fm table bs = 1 ->
    missing fm table (bs ++ [b]) = 0.
  Proof. exact (missing_last kr ni Hroom). Qed.
  Lemma f_designated_app : forall (table : list (func X)) bs l, w <= length bs ->
    designated fm table (bs ++ l) = designated fm table bs.
  Proof. exact (designated_app kr ni Hroom). Qed.

  Lemma shows_put_incomplete : forall b a x byte, shows b a -> is_byte byte -> 2 <= b_load_count b ->
    exists b', put p byte b x = Ok (b', x, LOADING_PACKET)
      /\ shows b' (mk_duplex (fd_in a ++ [byte]) (spoilt dbl (fd_in a ++ [byte]) (fd_resp a)) (fd_sent a) (fd_table a))
      /\ b_load_count b' = b_load_count b - 1 /\ b_is_index_loaded b' = b_is_index_loaded b.
  Proof.
    intros b a x byte Hr Hb Hn. destruct (shows_progress b a Hr) as (H1 & H2 & _).
    assert (Hm : missing fm (fd_table a) (fd_in a ++ [byte]) = b_load_count b - 1) by (rewrite f_missing_cons; lia).
    assert (Ex : examine fm (fd_table a) (fd_in a ++ [byte]) = Incomplete).
    { destruct (examine fm (fd_table a) (fd_in a ++ [byte])) eqn:E; auto; exfalso;
        assert (H0 : missing fm (fd_table a) (fd_in a ++ [byte]) = 0) by (apply f_examine_missing; congruence); lia. }
    pose proof (shows_put b a x byte Hr Hb) as Hput. unfold fd_received, servable in Hput.
    rewrite Ex in Hput. destruct (Hput I) as (b' & Ep & Hr'). exists b'. split; auto. split; auto.
    destruct (shows_progress b' _ Hr') as (H1' & H2' & _). cbn [fd_in fd_table] in *. split; [lia|].
    rewrite H1, H1'. f_equal. rewrite app_length. cbn [length].
    destruct (Nat.ltb_spec (length (fd_in a)) w), (Nat.ltb_spec (length (fd_in a) + 1) w); auto; try lia.
    exfalso. unfold missing in H2. cbn [fm format_of fm_w] in H2. fold w in H2.
    destruct (Nat.ltb_spec (length (fd_in a)) w); lia.
  Qed.

  Lemma shows_read_index_ok : forall src n fuel b a x, gives_bytes src n x -> shows b a -> b_is_index_loaded b = false -> b_load_count b = n -> n < fuel ->
    (forall x1 bs, pull src n x = Ok (x1, bs) -> servable fm p (fd_table a) (fd_in a ++ bs) x1) ->
    match pull src n x with
    | Ok (x1, bs) =>
        let '(a', x', s) := fd_received fm dbl (fd_in a ++ bs) a x1 in
        exists b', read_index p fuel src b x LOADING_PACKET = Ok (b', x', s) /\ shows b' a'
    | Fault f => read_index p fuel src b x LOADING_PACKET = Fault f
    end.
  Proof.
    intros src. induction n as [|n IH]; intros fuel b a x Hg Hr Hl Hn Hf Hs.
    { destruct (shows_progress b a Hr) as (_ & _ & H). lia. }
    destruct fuel as [|fuel]; [lia|]. cbn [pull read_index] in *. rewrite Hl. cbn [negb andb is_loading].
    destruct (src x) as [[x1 byte]|flt] eqn:Esrc; cbn [bind] in *; [|reflexivity].
    destruct (gives_bytes_next kr ni Hroom src n x x1 byte Hg Esrc) as [Hb Hg'].
    destruct (Nat.eq_dec n 0) as [->|Hn0].
    - cbn [pull bind] in *.
      pose proof (shows_put b a x1 byte Hr Hb (Hs x1 [byte] eq_refl)) as Hput. 
      destruct (fd_received fm dbl (fd_in a ++ [byte]) a x1) as [[a' x'] s] eqn:Erec.
      destruct Hput as (b' & Ep & Hr'). exists b'. split; auto. rewrite Ep. cbn [bind].
      destruct (shows_progress b' a' Hr') as (H1' & _).
      assert (Hstop : negb (b_is_index_loaded b') && is_loading s = false).
      { unfold fd_received in Erec. destruct (examine fm (fd_table a) (fd_in a ++ [byte])) as [| |f pl].
        - injection Erec as <- _ <-. cbn [fd_in] in H1'. rewrite H1', app_length. cbn [length].
          destruct (shows_progress b a Hr) as (H1 & H2 & _).
          rewrite Hl in H1. destruct (Nat.ltb_spec (length (fd_in a)) w); [|discriminate].
          unfold missing in H2. cbn [fm format_of fm_w] in H2. fold w in H2.
          destruct (Nat.ltb_spec (length (fd_in a)) w); [|lia].
          destruct (Nat.ltb_spec (length (fd_in a) + 1) w); [lia|]. reflexivity.
        - injection Erec as _ _ <-. apply andb_false_r.
        - destruct (serve fm f pl x1). injection Erec as _ _ <-. apply andb_false_r. }
      destruct fuel; cbn [read_index]; rewrite Hstop; reflexivity.
    - destruct (shows_put_incomplete b a x1 byte Hr Hb ltac:(lia)) as (b' & Ep & Hr' & Hn' & Hl').
      rewrite Ep. cbn [bind].
      set (a1 := mk_duplex (fd_in a ++ [byte]) (spoilt dbl (fd_in a ++ [byte]) (fd_resp a)) (fd_sent a) (fd_table a)) in *.
      assert (Hs' : forall x2 bs, pull src n x1 = Ok (x2, bs) ->
                servable fm p (fd_table a1) (fd_in a1 ++ bs) x2).
      { intros x2 bs Hpull. rewrite Hpull in Hs. cbn [bind] in Hs.
        specialize (Hs x2 (byte :: bs) eq_refl). rewrite app_cons in Hs. exact Hs. }
      specialize (IH fuel b' a1 x1 Hg' Hr' ltac:(congruence) ltac:(lia) ltac:(lia) Hs').
      destruct (pull src n x1) as [[x2 bs]|flt]; cbn [bind]; auto.
      rewrite app_cons. rewrite <- (fd_received_more _ _ a) . exact IH.
  Qed.

  Lemma shows_read_payload_ok : forall src n fuel b a x s0, gives_bytes src n x -> shows b a -> b_is_index_loaded b = true -> b_load_count b = n -> n < fuel ->
    (forall x1 bs, pull src n x = Ok (x1, bs) -> servable fm p (fd_table a) (fd_in a ++ bs) x1) ->
    match pull src n x with
    | Ok (x1, bs) =>
        let '(a', x', s) := fd_received fm dbl (fd_in a ++ bs) a x1 in
        exists b', read_payload p fuel src b x s0 = Ok (b', x', s) /\ shows b' a'
    | Fault f => read_payload p fuel src b x s0 = Fault f
    end.
  Proof.
    intros src. induction n as [|n IH]; intros fuel b a x s0 Hg Hr Hl Hn Hf Hs.
    { destruct (shows_progress b a Hr) as (_ & _ & H). lia. }
    destruct fuel as [|fuel]; [lia|]. cbn [pull read_payload] in *. rewrite Hl.
    destruct (src x) as [[x1 byte]|flt] eqn:Esrc; cbn [bind] in *; [|reflexivity].
    destruct (gives_bytes_next kr ni Hroom src n x x1 byte Hg Esrc) as [Hb Hg'].
    destruct (shows_progress b a Hr) as (H1 & H2 & _).
    destruct (Nat.eq_dec n 0) as [->|Hn0].
    - cbn [pull bind] in *.
      pose proof (shows_put b a x1 byte Hr Hb (Hs x1 [byte] eq_refl)) as Hput. 
      destruct (fd_received fm dbl (fd_in a ++ [byte]) a x1) as [[a' x'] s] eqn:Erec.
      destruct Hput as (b' & Ep & Hr'). exists b'. split; auto. rewrite Ep. cbn [bind].
      destruct (shows_progress b' a' Hr') as (H1' & _).
      assert (Hw : w <= length (fd_in a)).
      { rewrite Hl in H1. destruct (Nat.ltb_spec (length (fd_in a)) w); [discriminate|auto]. }
      assert (Hend : examine fm (fd_table a) (fd_in a ++ [byte]) <> Incomplete).
      { apply f_examine_missing. apply f_missing_last; auto. lia. }
      destruct (fd_received_end _ _ _ _ _ _ Hend Erec) as [Hin _].
      assert (Hstop : b_is_index_loaded b' = false).
      { rewrite H1', Hin. cbn [length]. destruct (w_bounds p kr Hk) as (Hw1 & _).
        destruct (Nat.ltb_spec 0 w); auto. lia. }
      destruct fuel; cbn [read_payload]; rewrite Hstop; reflexivity.
    - destruct (shows_put_incomplete b a x1 byte Hr Hb ltac:(lia)) as (b' & Ep & Hr' & Hn' & Hl').
      rewrite Ep. cbn [bind].
      set (a1 := mk_duplex (fd_in a ++ [byte]) (spoilt dbl (fd_in a ++ [byte]) (fd_resp a)) (fd_sent a) (fd_table a)) in *.
      assert (Hs' : forall x2 bs, pull src n x1 = Ok (x2, bs) ->
                servable fm p (fd_table a1) (fd_in a1 ++ bs) x2).
      { intros x2 bs Hpull. rewrite Hpull in Hs. cbn [bind] in Hs.
        specialize (Hs x2 (byte :: bs) eq_refl). rewrite app_cons in Hs. exact Hs. }
      specialize (IH fuel b' a1 x1 LOADING_PACKET Hg' Hr' ltac:(congruence) ltac:(lia) ltac:(lia) Hs').
      destruct (pull src n x1) as [[x2 bs]|flt]; cbn [bind]; auto.
      rewrite app_cons. rewrite <- (fd_received_more _ _ a) . exact IH.
  Qed.

  Lemma shows_read_from_ok : forall src b a x, shows b a -> readable fm p src (inner a) x ->
    shows_agrees (read_from p src b x) (fd_read fm dbl src a x).
  Proof.
    intros src b a x Hr (Hg & Hg2 & Hs). unfold shows_agrees, read_from, fd_read. unfold mc_fetch in *. cbn [inner mc_in mc_table] in *.
    destruct (shows_progress b a Hr) as (H1 & H2 & H3).
    destruct (b_is_index_loaded b) eqn:Hl.
    - (* the index is known *)
      assert (E1 : read_index p (S (b_load_count b)) src b x LOADING_PACKET = Ok (b, x, LOADING_PACKET)).
      { cbn [read_index]. rewrite Hl. reflexivity. }
      rewrite E1. cbn [bind].
      assert (Hw : w <= length (fd_in a)).
      { destruct (Nat.ltb_spec (length (fd_in a)) w); [discriminate|auto]. }
      assert (Hz : forall bs, length bs = missing fm (fd_table a) (fd_in a) ->
                missing fm (fd_table a) (fd_in a ++ bs) = 0).
      { intros bs Hlen. unfold missing in Hlen |- *. rewrite app_length. cbn [fm format_of fm_w] in Hlen |- *.
        fold w in Hlen |- *. fold fm in Hlen |- *. rewrite f_designated_app by auto.
        destruct (Nat.ltb_spec (length (fd_in a)) w); [lia|].
        destruct (Nat.ltb_spec (length (fd_in a) + length bs) w); [lia|].
        destruct (designated fm (fd_table a) (fd_in a)); lia. }
      pose proof (shows_read_payload_ok src _ (S (b_load_count b)) b a x LOADING_PACKET Hg Hr Hl
                    H2 ltac:(lia)) as Hrp.
      destruct (pull src (missing fm (fd_table a) (fd_in a)) x) as [[x1 bs]|flt] eqn:Epull; cbn [bind] in *.
      + rewrite Hz in * by (apply (pull_length _ _ _ _ _ _ Epull)). cbn [pull bind] in *. rewrite app_nil_r in *.
        assert (Hsv : forall y l, Ok (x1, bs) = Ok (y, l) -> servable fm p (fd_table a) (fd_in a ++ l) y).
        { intros y l E. injection E as <- <-. apply Hs. reflexivity. }
        specialize (Hrp Hsv). destruct (fd_received fm dbl (fd_in a ++ bs) a x1) as [[a' x'] s]. exact Hrp.
      + apply Hrp. intros. discriminate.
    - (* first the index *)
      assert (Hw : length (fd_in a) < w).
      { destruct (Nat.ltb_spec (length (fd_in a)) w); [auto|discriminate]. }
      pose proof (shows_read_index_ok src _ (S (b_load_count b)) b a x Hg Hr Hl
                    H2 ltac:(lia)) as Hri.
      destruct (pull src (missing fm (fd_table a) (fd_in a)) x) as [[x1 bs]|flt] eqn:Epull; cbn [bind] in *.
      2:{ rewrite (Hri ltac:(intros; discriminate)). reflexivity. }
      pose proof (pull_length _ _ _ _ _ _ Epull) as Hlen.
      assert (Hlw : length (fd_in a ++ bs) = w).
      { rewrite app_length, Hlen. unfold missing. cbn [fm format_of fm_w]. fold w.
        destruct (Nat.ltb_spec (length (fd_in a)) w); lia. }
      destruct (Nat.eq_dec (missing fm (fd_table a) (fd_in a ++ bs)) 0) as [Hz|Hz].
      + rewrite Hz in *. cbn [pull bind] in *. rewrite app_nil_r in *.
        assert (Hsv : forall y l, Ok (x1, bs) = Ok (y, l) -> servable fm p (fd_table a) (fd_in a ++ l) y).
        { intros y l E. injection E as <- <-. apply Hs. reflexivity. }
        specialize (Hri Hsv). apply f_examine_missing in Hz.
        destruct (fd_received fm dbl (fd_in a ++ bs) a x1) as [[a' x'] s] eqn:Erec.
        destruct Hri as (b' & E & Hr'). rewrite E. cbn [bind]. exists b'. split; auto.
        destruct (fd_received_end _ _ _ _ _ _ Hz Erec) as [Hin _].
        destruct (shows_progress b' a' Hr') as (H1' & _).
        cbn [read_payload]. rewrite H1', Hin. cbn [length]. destruct (w_bounds p kr Hk) as (Hw1 & _).
        destruct (Nat.ltb_spec 0 w); [reflexivity|lia].
      + assert (Ex : examine fm (fd_table a) (fd_in a ++ bs) = Incomplete).
        { destruct (examine fm (fd_table a) (fd_in a ++ bs)) eqn:E; auto; exfalso; apply Hz;
            apply f_examine_missing; congruence. }
        assert (Hsv : forall y l, Ok (x1, bs) = Ok (y, l) -> servable fm p (fd_table a) (fd_in a ++ l) y).
        { intros y l E. injection E as <- <-. unfold servable. rewrite Ex. exact I. }
        specialize (Hri Hsv). unfold fd_received in Hri at 1. rewrite Ex in Hri.
        destruct Hri as (b' & E & Hr'). rewrite E. cbn [bind].
        set (a1 := mk_duplex (fd_in a ++ bs) (spoilt dbl (fd_in a ++ bs) (fd_resp a)) (fd_sent a) (fd_table a)) in *.
        destruct (shows_progress b' a1 Hr') as (H1' & H2' & H3').
        assert (Hl' : b_is_index_loaded b' = true).
        { rewrite H1'. cbn [a1 fd_in]. rewrite Hlw, Nat.ltb_irrefl. reflexivity. }
        pose proof (shows_read_payload_ok src (missing fm (fd_table a1) (fd_in a1)) (S (b_load_count b')) b' a1 x1 LOADING_PACKET (Hg2 x1 bs eq_refl) Hr' Hl'
                      H2' ltac:(lia)) as Hrp. cbn [a1 fd_in fd_table fd_resp] in Hrp.
        destruct (pull src (missing fm (fd_table a) (fd_in a ++ bs)) x1) as [[x2 bs2]|flt] eqn:Epull2; cbn [bind] in *.
        2:{ apply Hrp. intros. discriminate. }
        rewrite app_assoc in *. rewrite <- (fd_received_more _ _ a) .
        assert (Hsv2 : forall y l, Ok (x2, bs2) = Ok (y, l) -> servable fm p (fd_table a) ((fd_in a ++ bs) ++ l) y).
        { intros y l E'. injection E' as <- <-. apply Hs. reflexivity. }
        specialize (Hrp Hsv2). unfold a1. unfold a1 in Hrp.
        destruct (fd_received fm dbl ((fd_in a ++ bs) ++ bs2) _ x2) as [[a' x'] s]. exact Hrp.
  Qed.

  (** What remains of the response. *)
  Definition outer (a : duplex X) : machine X := mk_machine (fd_in a) (skipn (fd_sent a) (fd_resp a)) (fd_table a).

  Lemma shows_represents : forall b a, shows b a -> represents kr ft ni no dbl b (outer a).
  Proof.
    intros b a ((R1 & R2 & R3 & R4 & R5 & R6 & R7 & R8 & R9 & R10 & R11) & Hn & Hle & Hbot & Hresp).
    cbn [drained with_next b_dispatcher b_bufs b_ibuf_next b_obuf_next b_obuf_bottom inner mc_in mc_table] in *.
    unfold represents. cbn [outer mc_in mc_out mc_table]. rewrite skipn_length.
    do 6 (split; [solve [auto]|]). split; [lia|]. split; [auto|]. split; [|split; [auto|exact R11]].
    rewrite Hn. rewrite <- Hresp at 2. unfold slice. rewrite firstn_skipn_comm. do 2 f_equal. lia.
  Qed.

  Lemma shows_advance : forall b a n, shows b a -> fd_sent a + n <= length (fd_resp a) ->
    shows (advance b n) (mk_duplex (fd_in a) (fd_resp a) (fd_sent a + n) (fd_table a)).
  Proof.
    intros b a n (R & Hn & Hle & Hbot & Hresp) H. split; [exact R|].
    cbn [advance b_obuf_next b_obuf_bottom b_bufs fd_sent fd_resp]. split; [lia|]. auto.
  Qed.

  Lemma shows_write : forall dest b a x, shows b a ->
    match fd_write dest a x with
    | Ok (a', x') => exists b', write_to dest b x = Ok (b', x') /\ shows b' a'
    | Fault f => write_to dest b x = Fault f
    end.
  Proof.
    intros dest b a x Hs. rewrite (write_to_ok kr ft ni no dbl Hroom X dest b (outer a) x (shows_represents b a Hs)).
    unfold fd_write. cbn [outer mc_out]. destruct (push dest (skipn (fd_sent a) (fd_resp a)) x) as [x'|f]; cbn [bind]; auto.
    eexists. split; [reflexivity|]. rewrite skipn_length.
    pose proof Hs as (_ & _ & Hle & _). pose proof (shows_advance b a (length (fd_resp a) - fd_sent a) Hs ltac:(lia)) as H.
    replace (fd_sent a + (length (fd_resp a) - fd_sent a)) with (length (fd_resp a)) in H by lia. exact H.
  Qed.

  Lemma shows_step : forall o b a x, shows b a -> fd_ok p kr ft o a x ->
    shows_agrees (step p o b x) (fd_step fm dbl o a x).
  Proof.
    intros o b a x Hs Hok. unfold fd_ok in Hok.
    destruct o as [byte| | |src|dest|src dest|i r|g|]; cbn [step fd_step step_ok] in *.
    - destruct Hok as [Hb Hsv]. pose proof (shows_put b a x byte Hs Hb Hsv) as H.
      destruct (fd_received fm dbl (fd_in a ++ [byte]) a x) as [[a' x'] s]. destruct H as (b' & E & H'). rewrite E.
      exists b'. auto.
    - unfold fd_get. destruct (skipn (fd_sent a) (fd_resp a)) as [|c l] eqn:Es.
      + exists b. split; auto. unfold get_byte.
        rewrite (is_loaded_ok kr ft ni no dbl Hroom b (outer a) (shows_represents b a Hs)). unfold mc_loaded, outer.
        cbn [mc_out]. rewrite Es. reflexivity.
      + rewrite (get_byte_cons kr ft ni no dbl Hroom b (outer a) c l (shows_represents b a Hs) Es). cbn [bind].
        exists (advance b 1). split; auto. replace (S (fd_sent a)) with (fd_sent a + 1) by lia. apply (shows_advance b a 1); auto.
        assert (length (skipn (fd_sent a) (fd_resp a)) <> 0) by (rewrite Es; discriminate). rewrite skipn_length in *. lia.
    - exists b. split; auto. rewrite (is_loaded_ok kr ft ni no dbl Hroom b (outer a) (shows_represents b a Hs)).
      unfold mc_loaded, outer, fd_loaded. cbn [mc_out]. pose proof (skipn_length (fd_sent a) (fd_resp a)) as L.
      destruct (skipn (fd_sent a) (fd_resp a)); cbn [length] in L; do 3 f_equal; symmetry;
        [apply Nat.ltb_ge|apply Nat.ltb_lt]; lia.
    - pose proof (shows_read_from_ok src b a x Hs Hok) as H. unfold shows_agrees in *.
      destruct (fd_read fm dbl src a x) as [[[a' x'] s]|f]; cbn [bind].
      + destruct H as (b' & E & H'). rewrite E. exists b'. auto.
      + rewrite H. reflexivity.
    - pose proof (shows_write dest b a x Hs) as H. unfold shows_agrees.
      destruct (fd_write dest a x) as [[a' x']|f]; cbn [bind].
      + destruct H as (b' & E & H'). rewrite E. exists b'. auto.
      + rewrite H. reflexivity.
    - pose proof (shows_read_from_ok src b a x Hs Hok) as H. unfold shows_agrees, process, fd_process in *.
      destruct (fd_read fm dbl src a x) as [[[a1 x1] s]|f]; cbn [bind].
      + destruct H as (b1 & E & H1). rewrite E. cbn [bind]. destruct s; try (exists b1; auto; fail).
        pose proof (shows_write dest b1 a1 x1 H1) as H. destruct (fd_write dest a1 x1) as [[a2 x2]|f]; cbn [bind].
        * destruct H as (b2 & E2 & H2). rewrite E2. exists b2. auto.
        * rewrite H. reflexivity.
      + rewrite H. reflexivity.
    - destruct Hs as (R & Hn & Hle & Hbot & Hresp).
      pose proof (step_refines p kr ft ni no dbl Hp Hk Hroom Hframing (Replace i r) (drained b) (inner a) x R Hok (or_intror I)) as H.
      unfold agrees in H. cbn [mc_step step] in H. destruct H as (b1 & E & R1).
      unfold replace_buffered in E |- *. cbn [drained with_next b_dispatcher] in E.
      destruct (replace (b_dispatcher b) i r) as [[d|f]|]; try discriminate. cbn [bind] in E |- *.
      injection E as <-. eexists. split; [reflexivity|]. split; [exact R1|]. auto.
    - exists b. auto.
    - exists b. rewrite move_same. auto.
  Qed.

  Lemma shows_run : forall ops b a x, shows b a -> fd_along fm dbl (fd_ok p kr ft) ops a x ->
    shows_agrees (run_ops p ops b x) (fd_run fm dbl ops a x).
  Proof.
    induction ops as [|o ops IH]; intros b a x Hs Hal; cbn [run_ops fd_run fd_along] in *.
    - exists b. auto.
    - destruct Hal as [Hok Hrest]. pose proof (shows_step o b a x Hs Hok) as H.
      unfold shows_agrees in H |- *. destruct (fd_step fm dbl o a x) as [[[a1 x1] v]|f]; cbn [bind].
      + destruct H as (b1 & E & H1). rewrite E. cbn [bind].
        specialize (IH b1 a1 x1 H1 (Hrest a1 x1 v eq_refl)). unfold shows_agrees in IH.
        destruct (fd_run fm dbl ops a1 x1) as [[[a2 x2] vs]|f]; cbn [bind].
        * destruct IH as (b2 & E2 & H2). rewrite E2. exists b2. auto.
        * rewrite IH. reflexivity.
      + rewrite H. reflexivity.
  Qed.
End Simulation.

(** ** C91 *)

(** A buffered dispatcher, single or double, does what [fd_step] says in every
    history, whether responses are pending or not. *)
Theorem C91_full_duplex : forall (X : Type) p dbl (kr : keyring X) ft g g' b ops x,
  wf_platform p -> keyring_ok p kr -> well_sized dbl kr ft ->
  make_buffered dbl kr ft g g' = Some b ->
  fd_along (format_of kr) dbl (fd_ok p kr ft) ops (fd_fresh kr) x ->
  observe (run_ops p ops b x) = observe (fd_run (format_of kr) dbl ops (fd_fresh kr) x).
Proof.
  intros X p dbl kr ft g g' b ops x Hp Hk Hs Hb Hal.
  destruct (make_buffered_represents X p dbl kr ft g g' b Hk Hs Hb) as (ni & no & Hw & Hf & Hr).
  assert (Hsh : shows dbl kr ft ni no b (fd_fresh kr)).
  { unfold shows, fd_fresh. cbn [fd_sent fd_resp length firstn].
    pose proof Hr as (R1 & R2 & R3 & R4 & R5 & R6 & R7 & R8 & R9 & R10 & R11).
    cbn [fresh mc_in mc_out mc_table length] in *.
    destruct (make_buffered_spec dbl kr ft g g' b Hb) as (bufs & Eb & _).
    assert (E : b_obuf_next b = 0 /\ b_obuf_bottom b = 0) by (subst b; split; reflexivity). destruct E as [E1 E2].
    split; [|split; [auto|split; [lia|split; [auto|reflexivity]]]].
    unfold represents, drained, with_next, inner.
    cbn [b_dispatcher b_bufs b_ibuf_next b_obuf_next b_obuf_bottom mc_in mc_out mc_table fd_in fd_table length].
    rewrite E2. do 6 (split; [solve [auto]|]). split; [lia|]. split; [lia|]. split; [reflexivity|]. split; [constructor|].
    exact R11. }
  pose proof (shows_run p dbl kr ft ni no Hp Hk Hw Hf ops b (fd_fresh kr) x Hsh Hal) as H.
  unfold shows_agrees, observe in *.
  destruct (fd_run (format_of kr) dbl ops (fd_fresh kr) x) as [[[a' x'] vs]|f]; cbn [bind].
  - destruct H as (b' & E & _). rewrite E. reflexivity.
  - rewrite H. reflexivity.
Qed.

(** *** Which responses are not spoilt *)

Lemma fetch_cases : forall (X : Type) fm (src : source X) (a : machine X) x x' bs,
  mc_fetch fm src a x = Ok (x', bs) ->
  (exists l, bs = mc_in a ++ l)
  /\ examine fm (mc_table a) bs <> Incomplete
  /\ (examine fm (mc_table a) bs = Invalid -> bs = mc_in a \/ length bs = fm_w fm).
Proof.
  intros X fm src a x x' bs H. unfold mc_fetch in H. ok_inv H r. destruct r as [x1 bs1]. ok_inv H r. destruct r as [x2 bs2].
  injection H as -> <-. pose proof (pull_length _ _ _ _ _ _ E) as L1. pose proof (pull_length _ _ _ _ _ _ E0) as L2.
  assert (D : forall l k, fm_w fm <= length l -> designated fm (mc_table a) (l ++ k) = designated fm (mc_table a) l).
  { intros l k Hl. unfold designated. rewrite firstn_app. replace (fm_w fm - length l) with 0 by lia.
    cbn [firstn]. rewrite app_nil_r. reflexivity. }
  set (i := mc_in a) in *. set (t := mc_table a) in *.
  split; [eauto|]. rewrite app_assoc. set (l := i ++ bs1) in *.
  assert (Hl : fm_w fm <= length l).
  { unfold l. rewrite app_length, L1. unfold missing. destruct (Nat.ltb_spec (length i) (fm_w fm)); lia. }
  assert (M2 : length bs2 = match designated fm t l with Some f => fm_w fm + wire_sizes (params f) - length l | None => 0 end).
  { rewrite L2. unfold missing. destruct (Nat.ltb_spec (length l) (fm_w fm)); [lia|]. reflexivity. }
  unfold examine. rewrite D by auto. rewrite app_length.
  destruct (Nat.ltb_spec (length l + length bs2) (fm_w fm)); [lia|].
  destruct (designated fm t l) as [f|] eqn:Ed.
  - destruct (Nat.ltb_spec (length l + length bs2) (fm_w fm + wire_sizes (params f))); [lia|]. split; discriminate.
  - split; [discriminate|]. intros _. destruct bs2; [|discriminate]. rewrite app_nil_r, Nat.add_0_r.
    unfold l in *. rewrite app_length in *. unfold missing in L1. destruct (Nat.ltb_spec (length i) (fm_w fm)).
    + right. lia.
    + left. rewrite D in Ed by auto. rewrite Ed in L1. destruct bs1; [|discriminate]. apply app_nil_r.
Qed.

(** The bytes received take the place of bytes which were already sent, or of
    none. *)
Definition untouched {X : Type} (fm : format) (o : op X) (a : duplex X) : Prop :=
  match o with
  | Put _ => length (fd_in a) < fd_sent a \/ length (fd_resp a) <= length (fd_in a) \/ length (fd_resp a) <= fd_sent a
  | ReadFrom _ | Process _ _ =>
      fm_w fm <= fd_sent a \/ length (fd_resp a) <= length (fd_in a) \/ length (fd_resp a) <= fd_sent a
  | _ => True
  end.

(** The single buffered dispatcher [a] and the double buffered [c] have the same
    bytes to send. *)
Definition alike {X : Type} (a c : duplex X) : Prop :=
  fd_in a = fd_in c /\ fd_sent a = fd_sent c /\ fd_table a = fd_table c
  /\ length (fd_resp a) = length (fd_resp c)
  /\ skipn (fd_sent a) (fd_resp a) = skipn (fd_sent c) (fd_resp c)
  /\ overlay (fd_in a) (fd_resp a) = fd_resp a.

Lemma overlay_sent : forall l r n, length l <= n -> skipn n (overlay l r) = skipn n r.
Proof.
  intros l r n H. unfold overlay. rewrite skipn_app, skipn_all2 by (rewrite firstn_length; lia). cbn [app].
  rewrite firstn_length. destruct (Nat.le_gt_cases (length r) (length l)).
  - rewrite !(skipn_all2 r) by lia. rewrite skipn_nil. reflexivity.
  - rewrite skipn_skipn. f_equal. lia.
Qed.

Lemma overlay_beyond : forall i l r, length r <= length i -> overlay i r = r -> overlay (i ++ l) r = r.
Proof.
  intros i l r H <-. unfold overlay at 1. rewrite overlay_length. unfold overlay.
  rewrite !(skipn_all2) by (rewrite ?app_length, ?firstn_length, ?skipn_length; lia). rewrite !app_nil_r.
  rewrite firstn_app. replace (length r - length i) with 0 by lia. cbn [firstn]. apply app_nil_r.
Qed.

Section Lag.
  Context {X : Type}.
  Variable fm : format.

  Definition agree2 {V : Type} (R : duplex X -> duplex X -> Prop) (r r' : res (duplex X * X * V)) : Prop :=
    match r, r' with
    | Ok (a, x, v), Ok (c, y, u) => R a c /\ x = y /\ v = u
    | Fault f, Fault g => f = g
    | _, _ => False
    end.

  (** Having received [bs], of which the bytes which matter were already sent. *)
  Lemma alike_received : forall bs (a c : duplex X) x, alike a c -> (exists l, bs = fd_in a ++ l) ->
    (length bs <= fd_sent a \/ length (fd_resp a) <= length (fd_in a) \/ length (fd_resp a) <= fd_sent a
     \/ (exists f pl, examine fm (fd_table a) bs = Request f pl) \/ bs = fd_in a) ->
    let '(a', x1, s) := fd_received fm false bs a x in
    let '(c', x2, s') := fd_received fm true bs c x in
    alike a' c' /\ x1 = x2 /\ s = s'.
  Proof.
    intros bs a c x (E1 & E2 & E3 & E4 & E5 & E6) [l Hl] H. unfold fd_received. rewrite <- E3.
    assert (K : (forall f pl, examine fm (fd_table a) bs <> Request f pl) ->
                skipn (fd_sent a) (overlay bs (fd_resp a)) = skipn (fd_sent c) (fd_resp c)).
    { intros Hn. rewrite <- E5. destruct H as [H|[H|[H|[(f & pl & H)|H]]]].
      - apply overlay_sent. auto.
      - subst bs. rewrite overlay_beyond; auto.
      - rewrite !skipn_all2; auto. rewrite overlay_length. auto.
      - exfalso. eapply Hn; eauto.
      - subst bs. rewrite H. rewrite E6. reflexivity. }
    destruct (examine fm (fd_table a) bs) as [| |f pl].
    - split; [|auto]. unfold alike. cbn [fd_in fd_sent fd_table fd_resp spoilt].
      repeat (split; [solve [auto | rewrite overlay_length; auto | apply K; intros; discriminate]|]).
      pose proof (overlay_app bs [] (fd_resp a)) as O. rewrite app_nil_r in O. exact O.
    - split; [|auto]. unfold alike. cbn [fd_in fd_sent fd_table fd_resp spoilt].
      repeat (split; [solve [auto | rewrite overlay_length; auto | apply K; intros; discriminate]|]).
      apply overlay_nil.
    - destruct (serve fm f pl x) as [x' out]. split; [|auto]. unfold alike. cbn [fd_in fd_sent fd_table fd_resp].
      repeat (split; [solve [auto]|]). apply overlay_nil.
  Qed.

  Lemma alike_read : forall src (a c : duplex X) x, alike a c -> untouched fm (ReadFrom src) c ->
    agree2 alike (fd_read fm false src a x) (fd_read fm true src c x).
  Proof.
    intros src a c x H Hu. unfold fd_read, inner. pose proof H as (E1 & E2 & E3 & E4 & _). rewrite <- E1, <- E3.
    destruct (mc_fetch fm src (mk_machine (fd_in a) [] (fd_table a)) x) as [[x1 bs]|f] eqn:Ef; cbn [bind]; [|reflexivity].
    destruct (fetch_cases X fm src _ x x1 bs Ef) as (Hp & Hn & Hi). cbn [mc_in mc_table] in *.
    pose proof (alike_received bs a c x1 H Hp) as R.
    destruct (fd_received fm false bs a x1) as [[a' y] s]. destruct (fd_received fm true bs c x1) as [[c' y'] s'].
    apply R. cbn [untouched] in Hu. rewrite <- E1, <- E2, <- E4 in Hu.
    destruct (examine fm (fd_table a) bs) as [| |f pl]; [congruence| |eauto 8].
    destruct (Hi eq_refl) as [->| ->]; auto. intuition.
  Qed.

  Lemma alike_write : forall dest (a c : duplex X) x, alike a c ->
    match fd_write dest a x, fd_write dest c x with
    | Ok (a', x1), Ok (c', x2) => alike a' c' /\ x1 = x2
    | Fault f, Fault g => f = g
    | _, _ => False
    end.
  Proof.
    intros dest a c x (E1 & E2 & E3 & E4 & E5 & E6). unfold fd_write. rewrite E5.
    destruct (push dest (skipn (fd_sent c) (fd_resp c)) x) as [x'|f]; cbn [bind]; auto. split; auto.
    unfold alike. cbn [fd_in fd_sent fd_table fd_resp]. rewrite !skipn_all. auto 10.
  Qed.

  Lemma alike_step : forall o (a c : duplex X) x, alike a c -> untouched fm o c ->
    agree2 alike (fd_step fm false o a x) (fd_step fm true o c x).
  Proof.
    intros o a c x H Hu. pose proof H as (E1 & E2 & E3 & E4 & E5 & E6).
    destruct o as [byte| | |src|dest|src dest|i r|g|]; cbn [fd_step].
    - pose proof (alike_received (fd_in a ++ [byte]) a c x H (ex_intro _ _ eq_refl)) as R. rewrite E1 in R at 3.
      cbn [untouched] in Hu. rewrite <- E1, <- E2, <- E4 in Hu. rewrite <- E1 in *.
      destruct (fd_received fm false (fd_in a ++ [byte]) a x) as [[a' y] s].
      destruct (fd_received fm true (fd_in a ++ [byte]) c x) as [[c' y'] s']. cbn [agree2].
      destruct R as (R1 & R2 & R3).
      { rewrite app_length. cbn [length]. destruct Hu as [Hu|[Hu|Hu]]; auto. left. lia. }
      subst. auto.
    - unfold fd_get. rewrite <- E5. destruct (skipn (fd_sent a) (fd_resp a)) as [|z l] eqn:Es; cbn [agree2]; auto.
      split; [|auto]. unfold alike. cbn [fd_in fd_sent fd_table fd_resp].
      repeat (split; [solve [auto]|]). split; [|auto].
      assert (T : forall n (k : list Z), skipn (S n) k = tl (skipn n k)).
      { clear. induction n as [|n IH]; intros [|y k]; try reflexivity. cbn [skipn] in *. rewrite <- IH. reflexivity. }
      rewrite !T. congruence.
    - cbn [agree2]. split; auto. split; auto. unfold fd_loaded. rewrite E2, E4. reflexivity.
    - pose proof (alike_read src a c x H Hu) as R. unfold agree2 in *.
      destruct (fd_read fm false src a x) as [[[a' y] s]|f], (fd_read fm true src c x) as [[[c' y'] s']|g]; cbn [bind];
        try contradiction; auto. destruct R as (R1 & R2 & ->). auto.
    - pose proof (alike_write dest a c x H) as R. unfold agree2.
      destruct (fd_write dest a x) as [[a' y]|f], (fd_write dest c x) as [[c' y']|g]; cbn [bind];
        try contradiction; auto. destruct R as (R1 & R2). auto.
    - pose proof (alike_read src a c x H Hu) as R. unfold agree2, fd_process in *.
      destruct (fd_read fm false src a x) as [[[a' y] s]|f], (fd_read fm true src c x) as [[[c' y'] s']|g]; cbn [bind];
        try contradiction; auto. destruct R as (R1 & -> & ->). destruct s'; cbn [bind]; auto.
      pose proof (alike_write dest a' c' y' R1) as R.
      destruct (fd_write dest a' y') as [[a2 y2]|f], (fd_write dest c' y') as [[c2 y3]|g]; cbn [bind];
        try contradiction; auto. destruct R as (R2 & R3). auto.
    - cbn [agree2]. split; [|auto]. unfold alike. cbn [fd_in fd_sent fd_table fd_resp]. rewrite E3. auto 10.
    - cbn [agree2]. auto.
    - cbn [agree2]. auto.
  Qed.

  (** The other machine, when there are two buffers. *)
  Lemma fd_double_step : forall o (a : duplex X) x,
    mc_step fm o (outer a) x = ('(a', x', v) <- fd_step fm true o a x;; Ok (outer a', x', v)).
  Proof.
    assert (R : forall bs (a : duplex X) x, received fm bs (outer a) x
                = let '(a', x', s) := fd_received fm true bs a x in (outer a', x', s)).
    { intros bs a x. unfold received, fd_received. cbn [outer mc_table mc_out mc_in].
      destruct (examine fm (fd_table a) bs) as [| |f pl]; try reflexivity. destruct (serve fm f pl x). reflexivity. }
    assert (F : forall src (a : duplex X) x, mc_read fm src (outer a) x
                = ('(a', x', v) <- fd_read fm true src a x;; Ok (outer a', x', v))).
    { intros src a x. unfold mc_read, fd_read.
      change (mc_fetch fm src (outer a) x) with (mc_fetch fm src (inner a) x).
      destruct (mc_fetch fm src (inner a) x) as [[x1 bs]|f]; cbn [bind]; auto. rewrite R.
      destruct (fd_received fm true bs a x1) as [[a' x'] s]. reflexivity. }
    assert (W : forall dest (a : duplex X) x, mc_write dest (outer a) x
                = ('(a', x') <- fd_write dest a x;; Ok (outer a', x'))).
    { intros dest a x. unfold mc_write, fd_write. cbn [outer mc_out mc_in mc_table].
      destruct (push dest (skipn (fd_sent a) (fd_resp a)) x); cbn [bind]; auto.
      unfold outer. cbn [fd_in fd_sent fd_resp fd_table]. rewrite skipn_all. reflexivity. }
    intros o a x. destruct o as [byte| | |src|dest|src dest|i r|g|]; cbn [mc_step fd_step].
    - unfold mc_put. rewrite R. cbn [outer mc_in]. destruct (fd_received fm true (fd_in a ++ [byte]) a x) as [[a' x'] s]. reflexivity.
    - unfold mc_get, fd_get. cbn [outer mc_out mc_in mc_table]. destruct (skipn (fd_sent a) (fd_resp a)) as [|z l] eqn:Es; auto.
      cbn [bind]. unfold outer. cbn [fd_in fd_sent fd_resp fd_table].
      assert (T : forall n (k : list Z), skipn (S n) k = tl (skipn n k)).
      { clear. induction n as [|n IH]; intros [|y k]; try reflexivity. cbn [skipn] in *. rewrite <- IH. reflexivity. }
      rewrite T, Es. reflexivity.
    - cbn [bind]. unfold mc_loaded, fd_loaded. cbn [outer mc_out].
      pose proof (skipn_length (fd_sent a) (fd_resp a)) as L.
      destruct (skipn (fd_sent a) (fd_resp a)); cbn [length] in L; do 3 f_equal; symmetry;
        [apply Nat.ltb_ge|apply Nat.ltb_lt]; lia.
    - rewrite F. destruct (fd_read fm true src a x) as [[[a' x'] s]|f]; reflexivity.
    - rewrite W. destruct (fd_write dest a x) as [[a' x']|f]; reflexivity.
    - unfold mc_process, fd_process. rewrite F. destruct (fd_read fm true src a x) as [[[a' x'] s]|f]; cbn [bind]; auto.
      destruct s; cbn [bind]; auto. rewrite W. destruct (fd_write dest a' x') as [[a2 x2]|f]; reflexivity.
    - reflexivity.
    - reflexivity.
    - reflexivity.
  Qed.

  Lemma fd_double_run : forall ops (a : duplex X) x,
    observe (mc_run fm ops (outer a) x) = observe (fd_run fm true ops a x).
  Proof.
    induction ops as [|o ops IH]; intros a x; cbn [mc_run fd_run]; [reflexivity|].
    rewrite fd_double_step. destruct (fd_step fm true o a x) as [[[a1 x1] v]|f]; cbn [bind]; [|reflexivity].
    specialize (IH a1 x1). unfold observe in *.
    destruct (mc_run fm ops (outer a1) x1) as [[[a2 x2] vs]|f], (fd_run fm true ops a1 x1) as [[[a3 x3] us]|g];
      cbn [bind] in *; congruence.
  Qed.

  Lemma alike_run : forall (P : op X -> duplex X -> X -> Prop),
    (forall o a c x, fd_in a = fd_in c -> fd_table a = fd_table c -> P o c x -> P o a x) ->
    forall ops a c x, alike a c -> fd_along fm true (fun o c x => P o c x /\ untouched fm o c) ops c x ->
    fd_along fm false P ops a x /\ observe (fd_run fm false ops a x) = observe (fd_run fm true ops c x).
  Proof.
    intros P HP. induction ops as [|o ops IH]; intros a c x H Hal; cbn [fd_along fd_run] in *; auto.
    destruct Hal as [[H1 H2] H3]. pose proof H as (E1 & E2 & E3 & _).
    pose proof (alike_step o a c x H H2) as S. unfold agree2 in S.
    destruct (fd_step fm false o a x) as [[[a1 x1] v]|f], (fd_step fm true o c x) as [[[c1 y1] u]|g]; try contradiction.
    - destruct S as (S1 & -> & ->). destruct (IH a1 c1 y1 S1 (H3 c1 y1 u eq_refl)) as [I1 I2]. split.
      + split; [eapply HP; eauto|]. intros a2 x2 b E. injection E as <- <- <-. exact I1.
      + cbn [bind]. unfold observe in *.
        destruct (fd_run fm false ops a1 y1) as [[[a2 x2] vs]|f], (fd_run fm true ops c1 y1) as [[[a3 x3] us]|g];
          cbn [bind] in *; congruence.
    - subst. split; [|reflexivity]. split; [eapply HP; eauto|discriminate].
  Qed.
End Lag.

(** A single buffered dispatcher is as good as a double buffered one if every
    byte received in position [n] of a request comes after the byte [n] of the
    pending response was sent. *)
Theorem C91_lagging : forall (X : Type) p (kr : keyring X) ft g b ops x,
  wf_platform p -> keyring_ok p kr -> well_sized false kr ft ->
  make_single kr ft g = Some b ->
  fd_along (format_of kr) true (fun o c x => fd_ok p kr ft o c x /\ untouched (format_of kr) o c) ops (fd_fresh kr) x ->
  observe (run_ops p ops b x) = observe (mc_run (format_of kr) ops (fresh kr) x).
Proof.
  intros X p kr ft g b ops x Hp Hk Hs Hb Hal.
  destruct (alike_run (format_of kr) (fd_ok p kr ft)) with (ops := ops) (a := fd_fresh kr) (c := fd_fresh kr) (x := x)
    as [H1 H2]; auto.
  - intros o a c y E1 E2 H. unfold fd_ok, inner in *. rewrite E1, E2. exact H.
  - unfold alike. repeat (split; [reflexivity|]). reflexivity.
  - rewrite (C91_full_duplex X p false kr ft g [] b ops x Hp Hk Hs Hb H1), H2. symmetry.
    apply (fd_double_run (format_of kr) ops (fd_fresh kr) x).
Qed.

(** *** What is never spoilt *)

(** The operations which give bytes of the response to a byte putter. *)
Definition sends {X : Type} (o : op X) : bool :=
  match o with WriteTo _ | Process _ _ => true | _ => false end.

(** Both dispatchers are at the same point. *)
Definition parallel {X : Type} (a c : duplex X) : Prop :=
  fd_in a = fd_in c /\ fd_sent a = fd_sent c /\ fd_table a = fd_table c /\ length (fd_resp a) = length (fd_resp c).

Section Parallel.
  Context {X : Type}.
  Variable fm : format.

  Lemma parallel_received : forall bs (a c : duplex X) x, parallel a c ->
    let '(a', x1, s) := fd_received fm false bs a x in
    let '(c', x2, s') := fd_received fm true bs c x in
    parallel a' c' /\ x1 = x2 /\ s = s'.
  Proof.
    intros bs a c x (E1 & E2 & E3 & E4). unfold fd_received, parallel. rewrite <- E3.
    destruct (examine fm (fd_table a) bs) as [| |f pl]; cbn [fd_in fd_sent fd_table fd_resp]; rewrite ?spoilt_length; auto 10.
    destruct (serve fm f pl x) as [x' out]. cbn [fd_in fd_sent fd_table fd_resp]. auto 10.
  Qed.

  Lemma parallel_step : forall o (a c : duplex X) x, parallel a c -> sends o = false ->
    match fd_step fm false o a x, fd_step fm true o c x with
    | Ok (a', y, v), Ok (c', z, u) => parallel a' c' /\ y = z /\ shape v = shape u
    | Fault f, Fault g => f = g
    | _, _ => False
    end.
  Proof.
    intros o a c x H Ho. pose proof H as (E1 & E2 & E3 & E4).
    destruct o as [byte| | |src|dest|src dest|i r|g|]; cbn [fd_step]; try discriminate; auto.
    - pose proof (parallel_received (fd_in a ++ [byte]) a c x H) as R. rewrite <- E1.
      destruct (fd_received fm false (fd_in a ++ [byte]) a x) as [[a' y] s].
      destruct (fd_received fm true (fd_in a ++ [byte]) c x) as [[c' y'] s'].
      destruct R as (R1 & -> & ->). auto.
    - unfold fd_get. pose proof (skipn_length (fd_sent a) (fd_resp a)) as La.
      pose proof (skipn_length (fd_sent c) (fd_resp c)) as Lc.
      destruct (skipn (fd_sent a) (fd_resp a)), (skipn (fd_sent c) (fd_resp c)); cbn [length] in *; try (exfalso; lia); auto.
      unfold parallel. cbn [fd_in fd_sent fd_table fd_resp shape]. auto 10.
    - unfold fd_loaded. rewrite E2, E4. auto.
    - unfold fd_read, inner. rewrite <- E1, <- E3.
      destruct (mc_fetch fm src (mk_machine (fd_in a) [] (fd_table a)) x) as [[x1 bs]|f]; cbn [bind]; auto.
      pose proof (parallel_received bs a c x1 H) as R.
      destruct (fd_received fm false bs a x1) as [[a' y] s]. destruct (fd_received fm true bs c x1) as [[c' y'] s'].
      cbn [bind]. destruct R as (R1 & -> & ->). auto.
    - unfold parallel. cbn [fd_in fd_sent fd_table fd_resp]. rewrite E3. auto 10.
  Qed.

  Lemma parallel_run : forall (P : op X -> duplex X -> X -> Prop),
    (forall o a c x, fd_in a = fd_in c -> fd_table a = fd_table c -> P o c x -> P o a x) ->
    forall ops a c x, parallel a c -> Forall (fun o => sends o = false) ops -> fd_along fm true P ops c x ->
    fd_along fm false P ops a x
    /\ match observe (fd_run fm false ops a x), observe (fd_run fm true ops c x) with
       | Ok (y, vs), Ok (z, us) => y = z /\ map shape vs = map shape us
       | Fault f, Fault g => f = g
       | _, _ => False
       end.
  Proof.
    intros P HP. induction ops as [|o ops IH]; intros a c x H Hq Hal; cbn [fd_along fd_run] in *.
    { cbn. auto. }
    inversion Hq as [|? ? Hq1 Hq2]; subst.
    destruct Hal as [H1 H3]. pose proof H as (E1 & E2 & E3 & _).
    pose proof (parallel_step o a c x H Hq1) as S.
    destruct (fd_step fm false o a x) as [[[a1 x1] v]|f], (fd_step fm true o c x) as [[[c1 y1] u]|g]; try contradiction.
    - destruct S as (S1 & -> & Hsh). destruct (IH a1 c1 y1 S1 Hq2 (H3 c1 y1 u eq_refl)) as [I1 I2]. split.
      + split; [eapply HP; eauto|]. intros a2 x2 b E. injection E as <- <- <-. exact I1.
      + cbn [bind]. unfold observe in *.
        destruct (fd_run fm false ops a1 y1) as [[[a2 x2] vs]|f], (fd_run fm true ops c1 y1) as [[[a3 x3] us]|g];
          cbn [bind map] in *; try contradiction; auto.
        destruct I2 as [-> ->]. rewrite Hsh. auto.
    - subst. split; [|reflexivity]. split; [eapply HP; eauto|discriminate].
  Qed.

  Lemma along_double : forall (P : op X -> duplex X -> X -> Prop) (Q : op X -> machine X -> X -> Prop),
    (forall o a x, Q o (outer a) x -> P o a x) ->
    forall ops a x, along fm Q ops (outer a) x -> fd_along fm true P ops a x.
  Proof.
    intros P Q HPQ. induction ops as [|o ops IH]; intros a x H; cbn [along fd_along] in *; auto.
    destruct H as [H1 H2]. split; [apply HPQ; auto|]. intros a1 x1 b E. apply IH. apply (H2 (outer a1) x1 b).
    rewrite fd_double_step, E. reflexivity.
  Qed.
End Parallel.

(** Whatever is received while responses are pending, a single buffered
    dispatcher makes the same calls, gives the same statuses and has as many
    bytes to send as a double buffered dispatcher: only the values of these
    bytes may differ. *)
Theorem C91_calls : forall (X : Type) p (kr : keyring X) ft g h h' b c ops x,
  wf_platform p -> keyring_ok p kr -> well_sized true kr ft ->
  make_single kr ft g = Some b -> make_double kr ft h h' = Some c ->
  Forall (fun o => sends o = false) ops ->
  along (format_of kr) (step_ok (format_of kr) p ft (kr_signatures kr)) ops (fresh kr) x ->
  match observe (run_ops p ops b x), observe (run_ops p ops c x) with
  | Ok (y, vs), Ok (z, us) => y = z /\ map shape vs = map shape us
  | Fault f, Fault g => f = g
  | _, _ => False
  end.
Proof.
  intros X p kr ft g h h' b c ops x Hp Hk Hs Hb Hc Hq Hal.
  assert (Hd : fd_along (format_of kr) true (fd_ok p kr ft) ops (fd_fresh kr) x).
  { apply along_double with (Q := step_ok (format_of kr) p ft (kr_signatures kr)).
    - intros o a y H. unfold fd_ok. destruct o; exact H.
    - exact Hal. }
  destruct (parallel_run (format_of kr) (fd_ok p kr ft)) with (ops := ops) (a := fd_fresh kr) (c := fd_fresh kr) (x := x)
    as [H1 H2]; auto.
  - intros o a d y E1 E2 H. unfold fd_ok, inner in *. rewrite E1, E2. exact H.
  - repeat (split; [reflexivity|]). reflexivity.
  - assert (Hs' : well_sized false kr ft).
    { eapply Forall_impl; [|exact Hs]. intros s (S1 & S2 & S3). split; auto. split; auto. cbn [out_capacity] in *. lia. }
    rewrite (C91_full_duplex X p false kr ft g [] b ops x Hp Hk Hs' Hb H1).
    rewrite (C91_full_duplex X p true kr ft h h' c ops x Hp Hk Hs Hc Hd). exact H2.
Qed.

(** *** A request sent before the response was read *)

(** [q] is a request for [f]. *)
Definition asks {X : Type} (kr : keyring X) (f : func X) (q : list Z) : Prop :=
  let w := kr_index_size kr in
  Forall is_byte q /\ length q = w + wire_sizes (params f)
  /\ nth_error (map snd (kr_funcs kr)) (Z.to_nat (wire_value (kr_e kr) (firstn w q))) = Some f.

Section Pipelined.
  Context {X : Type}.
  Variables (p : platform) (dbl : bool) (kr : keyring X).
  Hypothesis Hk : keyring_ok p kr.
  Let fm := format_of kr.
  Let w := kr_index_size kr.
  Let table := map snd (kr_funcs kr).

  Lemma asks_prefix : forall f q l k, asks kr f q -> q = l ++ k -> k <> [] -> examine fm table l = Incomplete.
  Proof.
    intros f q l k (Hb & Hl & Hi) -> Hk0. unfold examine. cbn [fm format_of fm_w]. fold w.
    destruct (Nat.ltb_spec (length l) w); auto. fold fm. unfold designated. cbn [fm format_of fm_w fm_e]. fold w.
    fold w in Hi. rewrite firstn_app in Hi. replace (w - length l) with 0 in Hi by lia. cbn [firstn] in Hi.
    rewrite app_nil_r in Hi. fold table in Hi. rewrite Hi. rewrite app_length in Hl.
    destruct k; [congruence|]. cbn [length] in Hl. fold w in Hl. destruct (Nat.ltb_spec (length l) (w + wire_sizes (params f))); auto. lia.
  Qed.

  Lemma asks_whole : forall f q, asks kr f q -> examine fm table q = Request f (skipn w q).
  Proof.
    intros f q (Hb & Hl & Hi).
    assert (Hd : designated fm table q = Some f) by exact Hi.
    unfold examine. rewrite Hd. change (fm_w fm) with (kr_index_size kr). unfold w.
    destruct (Nat.ltb_spec (length q) (kr_index_size kr)); [lia|].
    destruct (Nat.ltb_spec (length q) (kr_index_size kr + wire_sizes (params f))); [lia|reflexivity].
  Qed.

  Lemma fd_run_app : forall ops ops' (a a1 : duplex X) x x1 vs, fd_run fm dbl ops a x = Ok (a1, x1, vs) ->
    fd_run fm dbl (ops ++ ops') a x = ('(a2, x2, us) <- fd_run fm dbl ops' a1 x1;; Ok (a2, x2, vs ++ us)).
  Proof.
    induction ops as [|o ops IH]; intros ops' a a1 x x1 vs H; cbn [fd_run app] in *.
    - injection H as <- <- <-. destruct (fd_run fm dbl ops' a x) as [[[a2 x2] us]|f]; reflexivity.
    - ok_inv H r. destruct r as [[a3 x3] v]. ok_inv H r. destruct r as [[a4 x4] us]. injection H as <- <- <-. cbn [bind].
      rewrite (IH ops' a3 a4 x3 x4 us E0). destruct (fd_run fm dbl ops' a4 x4) as [[[a2 x2] vs]|f]; reflexivity.
  Qed.

  (** A part of a request. *)
  Lemma fd_part : forall bs i r n x f q k, asks kr f q -> q = (i ++ bs) ++ k -> k <> [] ->
    spoilt dbl i r = r ->
    fd_run fm dbl (map Put bs) (mk_duplex i r n table) x
    = Ok (mk_duplex (i ++ bs) (spoilt dbl (i ++ bs) r) n table, x, repeat (OStatus LOADING_PACKET) (length bs)).
  Proof.
    induction bs as [|b bs IH]; intros i r n x f q k Ha Hq Hk0 Hr; cbn [map fd_run length repeat].
    - rewrite app_nil_r, Hr. reflexivity.
    - cbn [fd_step fd_in]. unfold fd_received. cbn [fd_table fd_resp fd_sent].
      assert (Hq' : q = (i ++ [b]) ++ (bs ++ k)) by (rewrite Hq, <- !app_assoc; reflexivity).
      assert (Hne : bs ++ k <> []) by (destruct bs; [auto|discriminate]).
      rewrite (asks_prefix f q (i ++ [b]) (bs ++ k) Ha Hq' Hne).
      cbn [bind]. rewrite (IH (i ++ [b]) _ n x f q k Ha); auto.
      + cbn [bind]. rewrite <- !app_assoc. cbn [app]. do 4 f_equal.
        change (b :: bs) with ([b] ++ bs). rewrite app_assoc. apply spoilt_app.
      + rewrite Hq, <- !app_assoc. reflexivity.
      + pose proof (spoilt_app dbl (i ++ [b]) [] r) as H. rewrite app_nil_r in H. exact H.
  Qed.

  (** The end of a request. *)
  Lemma fd_end : forall bs i r n x f q, asks kr f q -> q = i ++ bs -> bs <> [] -> spoilt dbl i r = r ->
    fd_run fm dbl (map Put bs) (mk_duplex i r n table) x
    = let (x', out) := serve fm f (skipn w q) x in
      Ok (mk_duplex [] out 0 table, x', repeat (OStatus LOADING_PACKET) (length bs - 1) ++ [OStatus RESOLVED_PACKET]).
  Proof.
    intros bs i r n x f q Ha Hq Hn Hr. destruct (exists_last Hn) as (l & b & ->). rewrite map_app.
    rewrite (fd_run_app _ _ _ _ _ _ _ (fd_part l i r n x f q [b] Ha ltac:(rewrite Hq, <- app_assoc; reflexivity) ltac:(discriminate) Hr)).
    cbn [map fd_run fd_step fd_in]. unfold fd_received. cbn [fd_table]. rewrite <- app_assoc, <- Hq, (asks_whole f q Ha).
    destruct (serve fm f (skipn w q) x) as [x' out]. cbn [bind]. rewrite app_length. cbn [length].
    replace (length l + 1 - 1) with (length l) by lia. reflexivity.
  Qed.

  Lemma fd_drain : forall out i r n x, skipn n r = out ->
    fd_run fm dbl (repeat Get (length out)) (mk_duplex i r n table) x
    = Ok (mk_duplex i r (n + length out) table, x, map OByte out).
  Proof.
    induction out as [|z out IH]; intros i r n x H; cbn [length repeat fd_run map].
    - rewrite Nat.add_0_r. reflexivity.
    - cbn [fd_step]. unfold fd_get. cbn [fd_sent fd_resp fd_in fd_table]. rewrite H. cbn [bind].
      rewrite (IH i r (S n) x).
      + cbn [bind]. do 4 f_equal. lia.
      + assert (T : forall m (k : list Z), skipn (S m) k = tl (skipn m k)).
        { clear. induction m as [|m IHm]; intros [|y k]; try reflexivity. cbn [skipn] in *. rewrite <- IHm. reflexivity. }
        rewrite T, H. reflexivity.
  Qed.

  (** Every step is legitimate. *)
  Lemma fd_along_app : forall P ops ops' (a a1 : duplex X) x x1 vs, fd_run fm dbl ops a x = Ok (a1, x1, vs) ->
    fd_along fm dbl P ops a x -> fd_along fm dbl P ops' a1 x1 -> fd_along fm dbl P (ops ++ ops') a x.
  Proof.
    intros P. induction ops as [|o ops IH]; intros ops' a a1 x x1 vs H H1 H2; cbn [fd_run fd_along app] in *.
    - injection H as <- <- <-. auto.
    - destruct H1 as [H1 H3]. split; auto. intros a2 x2 v E. rewrite E in H. cbn [bind] in H.
      ok_inv H r. destruct r as [[a4 x4] us]. injection H as <- <- <-. eapply IH; eauto.
  Qed.

  Lemma fd_along_puts : forall ft bs i r n x f q k, asks kr f q -> q = (i ++ bs) ++ k ->
    spoilt dbl i r = r -> (k = [] -> servable fm p table q x) ->
    fd_along fm dbl (fd_ok p kr ft) (map Put bs) (mk_duplex i r n table) x.
  Proof.
    intros ft. induction bs as [|b bs IH]; intros i r n x f q k Ha Hq Hr Hsv; cbn [map fd_along]; auto.
    assert (Hq' : q = (i ++ [b]) ++ (bs ++ k)) by (rewrite Hq, <- !app_assoc; reflexivity).
    assert (Hb : is_byte b).
    { destruct Ha as (H & _). rewrite Hq' in H. apply Forall_app in H. destruct H as [H _].
      apply Forall_app in H. destruct H as [_ H]. inversion H. auto. }
    assert (Hdec : (bs = [] /\ k = []) \/ bs ++ k <> []).
    { destruct bs as [|c bs]; [|right; discriminate]. destruct k as [|c k]; [left; auto|right; discriminate]. }
    split.
    - split; auto. cbn [inner mc_table mc_in fd_table fd_in]. destruct Hdec as [[-> ->]|Hne].
      + cbn [app] in Hq'. rewrite app_nil_r in Hq'. rewrite <- Hq'. apply Hsv. auto.
      + unfold servable. fold fm. rewrite (asks_prefix f q (i ++ [b]) (bs ++ k) Ha Hq' Hne). exact I.
    - intros a1 x1 v E. cbn [fd_step fd_in] in E. unfold fd_received in E. cbn [fd_table fd_resp fd_sent] in E.
      destruct Hdec as [[-> ->]|Hne]; [exact I|].
      rewrite (asks_prefix f q (i ++ [b]) (bs ++ k) Ha Hq' Hne) in E. injection E as <- <- _.
      apply IH with (f := f) (q := q) (k := k); auto.
      + rewrite Hq', <- !app_assoc. reflexivity.
      + pose proof (spoilt_app dbl (i ++ [b]) [] r) as H. rewrite app_nil_r in H. exact H.
  Qed.

  Lemma fd_along_gets : forall ft n (a : duplex X) x, fd_along fm dbl (fd_ok p kr ft) (repeat Get n) a x.
  Proof. intros ft. induction n as [|n IH]; intros a x; cbn [repeat fd_along]; auto. split; [exact I|auto]. Qed.
End Pipelined.

(** A host which sends the first [n] bytes of the next request, [q2], before it
    reads the response to [q1] reads these bytes instead of the first [n] of the
    response; the calls are not affected. *)
Theorem C91_pipelined : forall (X : Type) p (kr : keyring X) ft g b (f1 f2 : func X) q2 q1 n x x1 r1 x2 r2,
  wf_platform p -> keyring_ok p kr -> well_sized false kr ft -> make_single kr ft g = Some b ->
  asks kr f1 q1 -> asks kr f2 q2 -> n < length q2 ->
  let w := kr_index_size kr in
  let fm := format_of kr in
  servable fm p (map snd (kr_funcs kr)) q1 x -> servable fm p (map snd (kr_funcs kr)) q2 x1 ->
  serve fm f1 (skipn w q1) x = (x1, r1) -> serve fm f2 (skipn w q2) x1 = (x2, r2) ->
  observe (run_ops p (map Put q1 ++ map Put (firstn n q2) ++ repeat Get (length r1) ++ map Put (skipn n q2)
                      ++ repeat Get (length r2)) b x)
  = Ok (x2, (repeat (OStatus LOADING_PACKET) (length q1 - 1) ++ [OStatus RESOLVED_PACKET])
            ++ repeat (OStatus LOADING_PACKET) n
            ++ map OByte (firstn (length r1) (firstn n q2) ++ skipn n r1)
            ++ (repeat (OStatus LOADING_PACKET) (length q2 - n - 1) ++ [OStatus RESOLVED_PACKET])
            ++ map OByte r2).
Proof.
  intros X p kr ft g b f1 f2 q2 q1 n x x1 r1 x2 r2 Hp Hk Hs Hb Ha1 Ha2 Hn w fm Hs1 Hs2 E1 E2.
  set (table := map snd (kr_funcs kr)) in *.
  pose proof (index_size X kr) as Hw.
  assert (Hw1 : 1 <= w) by apply (w_bounds p kr Hk).
  assert (N1 : q1 <> []) by (intros ->; destruct Ha1 as (_ & H & _); cbn in H; fold w in H; lia).
  pose proof (fd_end false kr q1 [] [] 0 x f1 q1 Ha1 eq_refl N1 eq_refl) as R1. fold fm w table in R1. rewrite E1 in R1.
  pose proof (fd_part false kr (firstn n q2) [] r1 0 x1 f2 q2 (skipn n q2) Ha2) as R2.
  specialize (R2 ltac:(cbn [app]; symmetry; apply firstn_skipn)).
  specialize (R2 ltac:(intros H; apply (f_equal (@length Z)) in H; rewrite skipn_length in H; cbn [length] in H; lia)).
  specialize (R2 ltac:(cbn [spoilt]; apply overlay_nil)). cbn [app] in R2. fold fm table in R2.
  assert (Lf : length (firstn n q2) = n) by (rewrite firstn_length; lia). rewrite Lf in R2.
  set (r1' := spoilt false (firstn n q2) r1) in *.
  assert (L1 : length r1' = length r1) by apply spoilt_length.
  pose proof (fd_drain false kr r1' (firstn n q2) r1' 0 x1 eq_refl) as R3. fold fm table in R3. rewrite L1 in R3. cbn [Nat.add] in R3.
  assert (N2 : skipn n q2 <> []).
  { intros H; apply (f_equal (@length Z)) in H; rewrite skipn_length in H; cbn [length] in H; lia. }
  pose proof (fd_end false kr (skipn n q2) (firstn n q2) r1' (length r1) x1 f2 q2 Ha2) as R4.
  specialize (R4 ltac:(symmetry; apply firstn_skipn) N2).
  assert (Hidem : spoilt false (firstn n q2) r1' = r1').
  { unfold r1'. pose proof (spoilt_app false (firstn n q2) [] r1) as H. rewrite app_nil_r in H. exact H. }
  specialize (R4 Hidem). fold fm w table in R4. rewrite E2 in R4. rewrite skipn_length in R4.
  pose proof (fd_drain false kr r2 [] r2 0 x2 eq_refl) as R5. fold fm table in R5.
  assert (Hrun : exists a, fd_run fm false (map Put q1 ++ map Put (firstn n q2) ++ repeat Get (length r1) ++ map Put (skipn n q2)
                      ++ repeat Get (length r2)) (fd_fresh kr) x
     = Ok (a, x2, (repeat (OStatus LOADING_PACKET) (length q1 - 1) ++ [OStatus RESOLVED_PACKET])
            ++ repeat (OStatus LOADING_PACKET) n ++ map OByte r1'
            ++ (repeat (OStatus LOADING_PACKET) (length q2 - n - 1) ++ [OStatus RESOLVED_PACKET])
            ++ map OByte r2)).
  { eexists. unfold fd_fresh. fold table.
    rewrite (fd_run_app false kr _ _ _ _ _ _ _ R1). rewrite (fd_run_app false kr _ _ _ _ _ _ _ R2).
    rewrite (fd_run_app false kr _ _ _ _ _ _ _ R3). rewrite (fd_run_app false kr _ _ _ _ _ _ _ R4).
    fold fm. rewrite R5. cbn [bind]. reflexivity. }
  assert (Hal : fd_along fm false (fd_ok p kr ft) (map Put q1 ++ map Put (firstn n q2) ++ repeat Get (length r1)
                  ++ map Put (skipn n q2) ++ repeat Get (length r2)) (fd_fresh kr) x).
  { unfold fd_fresh. fold table.
    apply (fd_along_app false kr _ _ _ _ _ _ _ _ R1).
    { apply (fd_along_puts p false kr ft q1 [] [] 0 x f1 q1 [] Ha1); auto. rewrite app_nil_r. reflexivity. }
    apply (fd_along_app false kr _ _ _ _ _ _ _ _ R2).
    { apply (fd_along_puts p false kr ft (firstn n q2) [] r1 0 x1 f2 q2 (skipn n q2) Ha2).
      - symmetry. apply firstn_skipn.
      - cbn [spoilt]. apply overlay_nil.
      - intros H. contradiction. }
    apply (fd_along_app false kr _ _ _ _ _ _ _ _ R3); [apply fd_along_gets|].
    apply (fd_along_app false kr _ _ _ _ _ _ _ _ R4); [|apply fd_along_gets].
    apply (fd_along_puts p false kr ft (skipn n q2) (firstn n q2) r1' (length r1) x1 f2 q2 [] Ha2); auto.
    rewrite app_nil_r. symmetry. apply firstn_skipn. }
  rewrite (C91_full_duplex X p false kr ft g [] b _ x Hp Hk Hs Hb Hal).
  destruct Hrun as [a Hrun]. fold fm. rewrite Hrun. cbn [observe bind]. unfold r1', spoilt, overlay. rewrite Lf. reflexivity.
Qed.

(** ** Examples *)

Ltac fd_next :=
  match goal with
  | |- forall a1 x1 b, fd_step ?fm ?d ?o (mk_duplex ?i ?r ?n ?t) ?x = Ok (a1, x1, b) -> _ =>
      let s := constr:(fd_step fm d o (mk_duplex i r n t) x) in
      let i' := eval vm_compute in (match s with Ok (a, _, _) => fd_in a | Fault _ => [] end) in
      let r' := eval vm_compute in (match s with Ok (a, _, _) => fd_resp a | Fault _ => [] end) in
      let n' := eval vm_compute in (match s with Ok (a, _, _) => fd_sent a | Fault _ => 0 end) in
      let x' := eval vm_compute in (match s with Ok (_, y, _) => y | Fault _ => x end) in
      let v := eval vm_compute in (match s with Ok (_, _, b) => b | Fault _ => ONone end) in
      let E := fresh in
      let E' := fresh in
      assert (E : s = Ok (mk_duplex i' r' n' t, x', v)) by (vm_compute; reflexivity);
      intros ? ? ? E'; rewrite E in E'; clear E; injection E' as <- <- <-
  end.

Ltac fd_legit :=
  unfold fd_fresh;
  repeat match goal with
    | |- fd_along _ _ _ [] _ _ => exact I
    | |- fd_along _ _ _ (_ :: _) _ _ => cbn [fd_along]; split
    | |- forall a1 x1 b, fd_step _ _ _ _ _ = _ -> _ => fd_next
    | |- True => exact I
    | |- untouched _ _ _ => cbn [untouched fd_in fd_sent fd_resp length]; try exact I; lia
    | |- fd_ok _ _ _ _ _ _ => unfold fd_ok; cbn [step_ok inner mc_in mc_table fd_in fd_table]; try exact I
    | |- is_byte _ => split; [discriminate|reflexivity]
    | |- servable _ _ _ _ _ => vm_compute; try exact I
    | |- _ /\ _ => split
    end; try (solve [range | repeat constructor; range]).

(** A request, then one byte received after each byte sent; the last request
    starts with an index which designates nothing. *)
Definition ex_lagging : list (op log) :=
  [Put 0; Put 255; Put 254; Put 5; Get; Put 0; Get; Put 1; Get; Put 2; Get; IsLoaded; Put 3; Get; Put 77; Get; Get; Get]%Z.

Example C91_lagging_example : exists b,
  make_single ex_keyring ANY [9; 9; 9]%Z = Some b
  /\ fd_along (format_of ex_keyring) true
       (fun o c x => fd_ok pc_native ex_keyring ANY o c x /\ untouched (format_of ex_keyring) o c)
       ex_lagging (fd_fresh ex_keyring) []
  /\ observe (run_ops pc_native ex_lagging b []) =
     Ok ([(0, [VInt 258; VInt 3]); (0, [VInt (-2); VInt 5])],
         [OStatus LOADING_PACKET; OStatus LOADING_PACKET; OStatus LOADING_PACKET; OStatus RESOLVED_PACKET;
          OByte 0; OStatus LOADING_PACKET; OByte 0; OStatus LOADING_PACKET; OByte 0; OStatus LOADING_PACKET; OByte 3;
          OBool false; OStatus RESOLVED_PACKET; OByte 0; OStatus DROPPED_PACKET; OByte 0; OByte 1; OByte 5]%Z).
Proof.
  eexists. split; [reflexivity|]. split; [|vm_compute; reflexivity]. unfold ex_lagging. fd_legit.
Qed.

(** The same bytes, all of them before the first is read. *)
Example C91_pipelined_example : exists b x1 r1 x2 r2,
  make_single ex_keyring ANY [] = Some b
  /\ asks ex_keyring ex_add [0; 255; 254; 5]%Z /\ asks ex_keyring ex_add [0; 1; 2; 3]%Z
  /\ serve (format_of ex_keyring) ex_add [255; 254; 5]%Z [] = (x1, r1)
  /\ serve (format_of ex_keyring) ex_add [1; 2; 3]%Z x1 = (x2, r2)
  /\ r1 = [0; 0; 0; 3]%Z
  /\ observe (run_ops pc_native (map Put [0; 255; 254; 5; 0; 1]%Z ++ repeat Get 4 ++ map Put [2; 3]%Z ++ repeat Get 4) b [])
     = Ok (x2, [OStatus LOADING_PACKET; OStatus LOADING_PACKET; OStatus LOADING_PACKET; OStatus RESOLVED_PACKET;
                OStatus LOADING_PACKET; OStatus LOADING_PACKET; OByte 0; OByte 1; OByte 0; OByte 3;
                OStatus LOADING_PACKET; OStatus RESOLVED_PACKET; OByte 0; OByte 0; OByte 1; OByte 5]%Z).
Proof.
  do 5 eexists. split; [reflexivity|].
  split; [split; [repeat constructor; discriminate|split; reflexivity]|].
  split; [split; [repeat constructor; discriminate|split; reflexivity]|].
  split; [reflexivity|]. split; [reflexivity|]. split; [vm_compute; reflexivity|]. vm_compute. reflexivity.
Qed.

(** A request is received while the response of the previous one is pending. *)
Example C91_full_duplex_example : exists b,
  make_single ex_keyring ANY [] = Some b
  /\ fd_along (format_of ex_keyring) false (fd_ok pc_native ex_keyring ANY) ex_history (fd_fresh ex_keyring) []
  /\ observe (run_ops pc_native ex_history b []) <> observe (mc_run (format_of ex_keyring) ex_history (fresh ex_keyring) []).
Proof.
  eexists. split; [reflexivity|]. split; [unfold ex_history; fd_legit|]. vm_compute. discriminate.
Qed.

(** The condition of [C91_lagging] cannot be weakened by one byte. *)
Theorem C91_early_refuted : exists b,
  let ops := [Put 0; Put 255; Put 254; Put 5; Get; Put 0; Put 1; Get]%Z in
  make_single ex_keyring ANY [] = Some b
  /\ fd_along (format_of ex_keyring) true
       (fun o c x => fd_ok pc_native ex_keyring ANY o c x
          /\ match o with Put _ => length (fd_in c) <= fd_sent c \/ length (fd_resp c) <= fd_sent c | _ => True end)
       ops (fd_fresh ex_keyring) []
  /\ observe (run_ops pc_native ops b []) <> observe (mc_run (format_of ex_keyring) ops (fresh ex_keyring) []).
Proof.
  eexists. cbv zeta. split; [reflexivity|]. split; [|vm_compute; discriminate]. fd_legit; cbn [fd_in fd_sent fd_resp length]; lia.
Qed.

Print Assumptions C91_full_duplex.
Print Assumptions C91_lagging.
Print Assumptions C91_calls.
Print Assumptions C91_pipelined.
Print Assumptions C91_early_refuted.
