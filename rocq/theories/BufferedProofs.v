(** Proofs about the buffered dispatchers: refinement of the abstract machine. *)

From Coq Require Import List ZArith Lia Bool Arith.
From Verif Require Import Base CInt Spec IntModel Conditions MemFacts TypeLevel Serial TupleModel
  TypeLevelProofs IntProofs SignedProofs SerialProofs CodecFacts Bounds TupleProofs SpecRpc Rpc RpcProofs
  Buffered SpecBuffered.
Import ListNotations.
Open Scope nat_scope.

(** A client program. *)
Section Client.
  Variable p : platform.
  Context {X : Type}.

  Definition step (o : op X) (b : buffered X) (x : X) : res (buffered X * X * obs) :=
    match o with
    | Put byte => '(b', x', s) <- put p byte b x;; Ok (b', x', OStatus s)
    | Get => '(b', byte) <- get_byte b;; Ok (b', x, OByte byte)
    | IsLoaded => Ok (b, x, OBool (is_loaded b))
    | ReadFrom src => '(b', x', s) <- read_from p src b x;; Ok (b', x', OStatus s)
    | WriteTo dest => '(b', x') <- write_to dest b x;; Ok (b', x', ONone)
    | Process src dest => '(b', x', s) <- process p src dest b x;; Ok (b', x', OStatus s)
    | Replace i r =>
        match replace_buffered b i r with
        | Some o => b' <- o;; Ok (b', x, ONone)
        | None => Fault TypeMismatch
        end
    | Outside g => Ok (b, g x, ONone)
    | Move => Ok (fst (move_buffered b), x, ONone)
    end.

  Fixpoint run_ops (ops : list (op X)) (b : buffered X) (x : X) : res (buffered X * X * list obs) :=
    match ops with
    | [] => Ok (b, x, [])
    | o :: ops' =>
        '(b1, x1, v) <- step o b x;;
        '(b2, x2, vs) <- run_ops ops' b1 x1;;
        Ok (b2, x2, v :: vs)
    end.
End Client.

(** ** Buffers *)

Lemma ibuf_set_ibuf : forall m b, ibuf (set_ibuf m b) = m.
Proof. intros m []; reflexivity. Qed.
Lemma obuf_set_obuf : forall m b, obuf (set_obuf m b) = m.
Proof. intros m []; reflexivity. Qed.
Lemma set_obuf_set_obuf : forall m m' b, set_obuf m (set_obuf m' b) = set_obuf m b.
Proof. intros m m' []; reflexivity. Qed.
Lemma set_obuf_id : forall b, set_obuf (obuf b) b = b.
Proof. intros []; reflexivity. Qed.

Definition is_double (b : buffers) : bool := match b with Single _ => false | Double _ _ => true end.

Lemma is_double_set_ibuf : forall m b, is_double (set_ibuf m b) = is_double b.
Proof. intros m []; reflexivity. Qed.
Lemma is_double_set_obuf : forall m b, is_double (set_obuf m b) = is_double b.
Proof. intros m []; reflexivity. Qed.

Lemma obuf_set_ibuf : forall m b, length m = length (ibuf b) ->
  length (obuf (set_ibuf m b)) = length (obuf b).
Proof. intros m []; cbn; auto. Qed.
Lemma ibuf_set_obuf : forall m b, length m = length (obuf b) ->
  length (ibuf (set_obuf m b)) = length (ibuf b).
Proof. intros m []; cbn; auto. Qed.

Lemma skipn_nth_cons : forall (A : Type) (l : list A) i a, nth_error l i = Some a ->
  skipn i l = a :: skipn (S i) l.
Proof.
  induction l as [|b l IH]; intros [|i] a H; try discriminate; cbn [nth_error skipn] in *.
  - congruence.
  - rewrite (IH i a H). reflexivity.
Qed.

Lemma pull_frame : forall (X : Type) n bufs i bt (x : X), i + n <= length (ibuf bufs) ->
  pull ibuf_source n (mk_frame bufs i bt x) = Ok (mk_frame bufs (i + n) bt x, slice (ibuf bufs) i n).
Proof.
  intros X. induction n as [|n IH]; intros bufs i bt x H; cbn [pull].
  - rewrite Nat.add_0_r. reflexivity.
  - unfold ibuf_source at 1, iterator_source. cbn [fr_bufs fr_iptr fr_bottom fr_world].
    destruct (nth_error (ibuf bufs) i) as [b|] eqn:E.
    2:{ apply nth_error_None in E. lia. }
    unfold load. rewrite E. cbn [bind]. rewrite IH by lia. cbn [bind]. do 2 f_equal.
    + f_equal. lia.
    + unfold slice. rewrite (skipn_nth_cons _ _ i b E). reflexivity.
Qed.

Lemma push_frame : forall (X : Type) bs bufs i bt (x : X), bt + length bs <= length (obuf bufs) ->
  push obuf_destination bs (mk_frame bufs i bt x)
  = Ok (mk_frame (set_obuf (splice (obuf bufs) bt bs) bufs) i (bt + length bs) x).
Proof.
  intros X. induction bs as [|b bs IH]; intros bufs i bt x H; cbn [push length] in *.
  - rewrite splice_nil, Nat.add_0_r, set_obuf_id. reflexivity.
  - unfold obuf_destination at 1, iterator_destination. cbn [fr_bufs fr_iptr fr_bottom fr_world].
    rewrite store_ok by lia. cbn [bind fr_bufs fr_iptr fr_bottom fr_world].
    rewrite IH by (rewrite obuf_set_obuf, splice_length; cbn; lia).
    rewrite obuf_set_obuf, set_obuf_set_obuf. do 2 f_equal; [|lia]. f_equal. change (b :: bs) with ([b] ++ bs).
    rewrite <- (splice_splice_app (obuf bufs) bt [b] bs) by (cbn; lia). f_equal. cbn. lia.
Qed.

(** Too small a buffer. *)
Lemma push_frame_oob : forall (X : Type) bs bufs i bt (x : X), bt <= length (obuf bufs) ->
  length (obuf bufs) < bt + length bs ->
  push obuf_destination bs (mk_frame bufs i bt x) = Fault OutOfBounds.
Proof.
  intros X. induction bs as [|b bs IH]; intros bufs i bt x Hb H; cbn [push length] in *; [lia|].
  unfold obuf_destination at 1, iterator_destination. cbn [fr_bufs fr_iptr fr_bottom fr_world].
  destruct (Nat.eq_dec bt (length (obuf bufs))) as [E|E].
  - rewrite store_oob by lia. reflexivity.
  - rewrite store_ok by lia. cbn [bind fr_bufs fr_iptr fr_bottom fr_world].
    apply IH; rewrite obuf_set_obuf, splice_length; cbn; lia.
Qed.

Lemma firstn_bytes : forall n bs, Forall is_byte bs -> Forall is_byte (firstn n bs).
Proof. induction n; intros bs H; cbn; auto. inversion H; constructor; auto. Qed.
Lemma skipn_bytes : forall n bs, Forall is_byte bs -> Forall is_byte (skipn n bs).
Proof. induction n; intros bs H; cbn; auto. inversion H; auto. Qed.

(** ** Loops end *)

Ltac ok_inv H v :=
  match type of H with
  | bind ?e _ = Ok _ =>
      let E := fresh "E" in
      destruct e as [v|] eqn:E; [cbn [bind] in H | discriminate H]
  end.

Lemma put_progress : forall p (X : Type) byte (b : buffered X) x b' x' s,
  put p byte b x = Ok (b', x', s) ->
  (b_load_count b' < b_load_count b /\ b_is_index_loaded b' = b_is_index_loaded b /\ s = LOADING_PACKET)
  \/ (b_is_index_loaded b = false /\ b_is_index_loaded b' = true /\ s = LOADING_PACKET)
  \/ (b_is_index_loaded b' = false /\ s <> LOADING_PACKET).
Proof.
  intros p X byte b x b' x' s H. unfold put in H. ok_inv H m.
  destruct (b_load_count b) as [|count] eqn:Ec; [discriminate H|].
  assert (Hcall : forall b1 b2 y, call_loaded p b1 x = Ok (b2, y) -> b_is_index_loaded b2 = false).
  { intros b1 b2 y Hc. unfold call_loaded in Hc. ok_inv Hc w1. destruct w1 as [w1 i]. ok_inv Hc a. ok_inv Hc w2.
    assert (E' : b2 = mk_buffered (b_dispatcher b1) false (index_length (b_dispatcher b1)) 0 0 (fr_bottom w2)
                       (fr_bufs w2)) by congruence.
    rewrite E'. reflexivity. }
  destruct (0 <? count).
  - left. injection H as <- _ <-. cbn. auto.
  - destruct (b_is_index_loaded b) eqn:El.
    + ok_inv H r. destruct r as [b2 y]. apply Hcall in E0. right. right. injection H as <- _ <-. split; auto. discriminate.
    + ok_inv H r. destruct r as [w i].
      destruct (i <? d_size (b_dispatcher b)).
      * ok_inv H a. ok_inv H n. destruct (n =? 0).
        -- ok_inv H r. destruct r as [b2 y]. apply Hcall in E3.
           right. right. injection H as <- _ <-. split; auto. discriminate.
        -- right. left. injection H as <- _ <-. cbn. auto.
      * right. right. injection H as <- _ <-. cbn. split; auto. discriminate.
Qed.

Lemma read_index_fuel : forall p (X : Type) (src : source X) n fuel b x s,
  b_load_count b < n -> n <= fuel -> read_index p fuel src b x s = read_index p n src b x s.
Proof.
  intros p X src. induction n as [|n IH]; intros fuel b x s H1 H2; [lia|].
  destruct fuel as [|fuel]; [lia|]. cbn [read_index].
  destruct (negb (b_is_index_loaded b) && is_loading s) eqn:E; auto.
  destruct (src x) as [[x1 byte]|]; cbn [bind]; auto.
  destruct (put p byte b x1) as [[[b' x2] s']|] eqn:Ep; cbn [bind]; auto.
  destruct (put_progress p X byte b x1 b' x2 s' Ep) as [(Hlt & _)|[(_ & Hl & _)|(_ & Hs)]].
  - apply IH; lia.
  - destruct fuel, n; cbn [read_index]; rewrite Hl; cbn; auto; lia.
  - assert (Hn : is_loading s' = false) by (destruct s'; auto; congruence).
    destruct fuel, n; cbn [read_index]; rewrite Hn, andb_false_r; auto; lia.
Qed.

Lemma read_payload_fuel : forall p (X : Type) (src : source X) n fuel b x s,
  b_load_count b < n -> n <= fuel -> read_payload p fuel src b x s = read_payload p n src b x s.
Proof.
  intros p X src. induction n as [|n IH]; intros fuel b x s H1 H2; [lia|].
  destruct fuel as [|fuel]; [lia|]. cbn [read_payload].
  destruct (b_is_index_loaded b) eqn:E; auto.
  destruct (src x) as [[x1 byte]|]; cbn [bind]; auto.
  destruct (put p byte b x1) as [[[b' x2] s']|] eqn:Ep; cbn [bind]; auto.
  destruct (put_progress p X byte b x1 b' x2 s' Ep) as [(Hlt & _)|[(Hl & _)|(Hl & _)]].
  - apply IH; lia.
  - congruence.
  - destruct fuel, n; cbn [read_payload]; rewrite Hl; auto.
Qed.

Lemma write_loop_fuel : forall (X Y : Type) (dest : destination Y) n fuel (b : buffered X) y,
  length (obuf (b_bufs b)) - b_obuf_next b < n -> n <= fuel ->
  write_loop fuel dest b y = write_loop n dest b y.
Proof.
  intros X Y dest. induction n as [|n IH]; intros fuel b y H1 H2; [lia|].
  destruct fuel as [|fuel]; [lia|]. cbn [write_loop].
  destruct (is_loaded b) eqn:El; auto. unfold get_byte. rewrite El.
  destruct (load (obuf (b_bufs b)) (b_obuf_next b)) as [byte|] eqn:E; cbn [bind]; auto.
  destruct (dest byte y) as [y'|]; cbn [bind]; auto. apply IH; [|lia]. cbn [b_bufs b_obuf_next].
  assert (b_obuf_next b < length (obuf (b_bufs b))); [|lia].
  destruct (Nat.lt_ge_cases (b_obuf_next b) (length (obuf (b_bufs b)))); auto.
  rewrite load_oob in E by auto. discriminate.
Qed.

(** ** Refinement *)

Definition format_of {X : Type} (kr : keyring X) : format := mk_format (kr_e kr) (kr_m kr) (kr_index_size kr).

(** The sizes the buffered dispatcher uses are those of the packets. *)
Definition framing_ok (ft : action_features) (ni no : nat) (w : nat) (s : signature) : Prop :=
  (ft = WEAK_REFERENCE -> parameters_size s = wire_sizes (sig_params s))
  /\ w + wire_sizes (sig_params s) <= ni
  /\ wire_size_ret (sig_ret s) <= no.

Section Refinement.
  Variable p : platform.
  Context {X : Type}.
  Variable kr : keyring X.
  Variable ft : action_features.
  Variables ni no : nat.
  Variable dbl : bool.
  Hypothesis Hp : wf_platform p.
  Hypothesis Hkr : keyring_ok p kr.
  Hypothesis Hroom : kr_index_size kr <= ni.
  Hypothesis Hframing : Forall (framing_ok ft ni no (kr_index_size kr)) (kr_signatures kr).

  Let fm := format_of kr.
  Let w := kr_index_size kr.

  Definition table_ok (d : dispatcher X) (table : list (func X)) : Prop :=
    d_keyring d = kr /\ d_features d = ft
    /\ d_actions d = map (make_action ft (kr_e kr) (kr_m kr)) table
    /\ map f_sig table = kr_signatures kr.

  Definition progress (b : buffered X) (a : machine X) : Prop :=
    if b_is_index_loaded b then
      exists f, designated fm (mc_table a) (mc_in a) = Some f
        /\ w <= length (mc_in a) /\ length (mc_in a) < w + wire_sizes (params f)
        /\ b_load_count b = w + wire_sizes (params f) - length (mc_in a)
    else length (mc_in a) < w /\ b_load_count b = w - length (mc_in a).

  Definition represents (b : buffered X) (a : machine X) : Prop :=
    table_ok (b_dispatcher b) (mc_table a)
    /\ length (ibuf (b_bufs b)) = ni /\ length (obuf (b_bufs b)) = no
    /\ is_double (b_bufs b) = dbl
    /\ b_ibuf_next b = length (mc_in a) /\ slice (ibuf (b_bufs b)) 0 (length (mc_in a)) = mc_in a
    /\ b_obuf_next b + length (mc_out a) = b_obuf_bottom b /\ b_obuf_bottom b <= no
    /\ slice (obuf (b_bufs b)) (b_obuf_next b) (length (mc_out a)) = mc_out a
    /\ Forall is_byte (mc_in a)
    /\ progress b a.

  Definition calm (a : machine X) : Prop := dbl = true \/ mc_out a = [].

  Lemma w_bounds : 1 <= w <= 8 /\ (Z.of_nat (length (kr_funcs kr)) < space w)%Z
    /\ kr_size kr = length (kr_funcs kr).
  Proof. apply index_size. apply Hkr. Qed.

  Lemma table_length : forall d table, table_ok d table -> length table = length (kr_funcs kr).
  Proof.
    intros d table (_ & _ & _ & H). rewrite <- (map_length f_sig), H. apply map_length.
  Qed.

  Lemma table_sig : forall d table i f, table_ok d table -> nth_error table i = Some f ->
    sig_ok p (kr_e kr) (kr_m kr) (f_sig f) /\ framing_ok ft ni no w (f_sig f).
  Proof.
    intros d table i f (_ & _ & _ & H) Hi.
    assert (Hn : nth_error (kr_signatures kr) i = Some (f_sig f)).
    { rewrite <- H, nth_error_map, Hi. reflexivity. }
    apply nth_error_In in Hn. split.
    - destruct Hkr as [_ Hs]. unfold kr_signatures in Hn. apply in_map_iff in Hn.
      destruct Hn as (nf & E & Hin). rewrite Forall_forall in Hs. rewrite <- E. apply Hs. auto.
    - rewrite Forall_forall in Hframing. apply Hframing. auto.
  Qed.

  Lemma framed_index_size : forall d table, table_ok d table ->
    kr_index_size (d_keyring (framed_dispatcher d)) = w.
  Proof.
    intros d table (E & _). unfold framed_dispatcher, kr_index_size. cbn [d_keyring kr_funcs].
    rewrite map_length, E. reflexivity.
  Qed.

  Lemma framed_action_make : forall e m (f : func X),
    framed_action (make_action ft e m f) = make_action ft e m (framed f).
  Proof. intros. destruct ft; reflexivity. Qed.

  (** The index in the input buffer. *)
  Lemma get_index_frame : forall d table bufs bt x bs, table_ok d table ->
    w <= length bs -> slice (ibuf bufs) 0 (length bs) = bs -> length bs <= length (ibuf bufs) ->
    Forall is_byte bs ->
    get_index p (framed_dispatcher d) ibuf_source (mk_frame bufs 0 bt x)
    = Ok (mk_frame bufs w bt x, Z.to_nat (wire_value (kr_e kr) (firstn w bs))).
  Proof.
    intros d table bufs bt x bs Ht Hw Hs Hl Hb.
    pose proof (framed_index_size d table Ht) as Hi.
    assert (Es : slice (ibuf bufs) 0 w = firstn w bs).
    { transitivity (firstn w (slice (ibuf bufs) 0 (length bs))); [|rewrite Hs; reflexivity].
      unfold slice. cbn [skipn]. rewrite firstn_firstn. f_equal. lia. }
    rewrite get_index_ok; auto; rewrite ?Hi.
    - rewrite pull_frame by lia. cbn [bind Nat.add]. rewrite Es.
      destruct Ht as (E & _). unfold framed_dispatcher. cbn [d_keyring kr_e]. rewrite E. reflexivity.
    - unfold framed_dispatcher. cbn [d_keyring kr_funcs]. rewrite map_length. destruct Ht as (E & _).
      rewrite E. apply Hkr.
    - intros x1 l H. rewrite pull_frame in H by lia. injection H as _ <-. rewrite Es.
      apply firstn_bytes. auto.
  Qed.

  Lemma serve_length : forall (f : func X) payload x x' out,
    ret_encodable p (kr_m kr) (ret f) (snd (f_call f (dec_list (kr_e kr) (kr_m kr) (params f) payload) x)) ->
    serve fm f payload x = (x', out) -> length out = wire_size_ret (ret f).
  Proof.
    intros f payload x x' out He Hs. unfold serve in Hs. cbn [fm format_of fm_e fm_m] in Hs.
    destruct (f_call f _ x) as [y r]. injection Hs as _ <-. cbn [snd] in He.
    unfold response, wire_size_ret, ret_encodable in *. destruct (ret f); auto.
    apply enc_length. apply He.
  Qed.

  Lemma call_loaded_ok : forall b table bs (f : func X) payload x x' out,
    table_ok (b_dispatcher b) table ->
    length (ibuf (b_bufs b)) = ni -> length (obuf (b_bufs b)) = no ->
    examine fm table bs = Request f payload -> length bs = w + wire_sizes (params f) ->
    slice (ibuf (b_bufs b)) 0 (length bs) = bs -> Forall is_byte bs ->
    decodable_list p (kr_e kr) (kr_m kr) (params f) payload ->
    ret_encodable p (kr_m kr) (ret f) (snd (f_call f (dec_list (kr_e kr) (kr_m kr) (params f) payload) x)) ->
    serve fm f payload x = (x', out) ->
    call_loaded p b x
    = Ok (mk_buffered (b_dispatcher b) false w 0 0 (length out)
            (set_obuf (splice (obuf (b_bufs b)) 0 out) (b_bufs b)), x').
  Proof.
    intros b table bs f payload x x' out Ht Hni Hno Hex Hlen Hs Hb Hd He Hserve.
    unfold examine in Hex. cbn [fm format_of fm_w] in Hex. fold w in Hex.
    destruct (Nat.ltb_spec (length bs) w); [discriminate|].
    destruct (designated fm table bs) as [g|] eqn:Edes; [|discriminate].
    destruct (Nat.ltb_spec (length bs) (w + wire_sizes (params g))); [discriminate|].
    injection Hex as -> <-.
    unfold designated in Edes. cbn [fm format_of fm_w fm_e] in Edes. fold w in Edes.
    destruct (table_sig _ _ _ _ Ht Edes) as [Hsig (Hweak & Hfi & Hfo)].
    unfold call_loaded.
    rewrite (get_index_frame _ table _ _ _ bs); auto; [|unfold params in Hlen; lia]. cbn [bind].
    unfold action_at, framed_dispatcher. cbn [d_actions].
    destruct Ht as (Hk & Hf & Ha & Hsigs). rewrite Ha, map_map, nth_error_map, Edes. cbn [option_map bind].
    rewrite framed_action_make.
    assert (Ep : pull ibuf_source (wire_sizes (params f)) (mk_frame (b_bufs b) w 0 x)
                 = Ok (mk_frame (b_bufs b) (w + wire_sizes (params f)) 0 x, skipn w bs)).
    { rewrite pull_frame by (unfold params in *; lia). do 2 f_equal.
      transitivity (skipn w (slice (ibuf (b_bufs b)) 0 (length bs))); [|rewrite Hs; reflexivity].
      rewrite skipn_slice. cbn [Nat.add]. f_equal. lia. }
    rewrite (run_call p _ _ (mk_model (kr_e kr) (kr_m kr) (framed f))) by (destruct ft; reflexivity).
    cbn [m_e m_m m_func]. rewrite call_ok; auto.
    - unfold call_spec. change (f_sig (framed f)) with (f_sig f). fold (params f) (ret f).
      rewrite Ep. cbn [bind framed f_call fr_world fr_bufs fr_iptr fr_bottom].
      unfold serve in Hserve. cbn [fm format_of fm_e fm_m] in Hserve.
      pose proof (serve_length f (skipn w bs) x x' out He) as Hlo. unfold serve in Hlo.
      cbn [fm format_of fm_e fm_m] in Hlo.
      destruct (f_call f _ x) as [y r] eqn:Ef.
      assert (Ey : y = x') by congruence. assert (Eo : response (kr_e kr) (kr_m kr) (ret f) r = out) by congruence.
      subst y. rewrite Eo. rewrite push_frame. 2:{ unfold ret in *. rewrite (Hlo Hserve). cbn. lia. }
      cbn [bind fr_world fr_bufs fr_iptr fr_bottom Nat.add]. unfold index_length. rewrite Hk. reflexivity.
    - change (f_sig (framed f)) with (f_sig f). fold (params f) (ret f). rewrite Ep. intros x1 l H1.
      injection H1 as <- <-. split; [|split; auto].
      + apply skipn_bytes. auto.
      + cbn [framed f_call fr_world fr_bufs fr_iptr fr_bottom].
        destruct (f_call f _ x) as [y r]. exact He.
  Qed.

  Lemma designated_app : forall (table : list (func X)) bs l, w <= length bs ->
    designated fm table (bs ++ l) = designated fm table bs.
  Proof.
    intros table bs l H. unfold designated. cbn [fm format_of fm_w]. fold w.
    rewrite firstn_app. replace (w - length bs) with 0 by lia. cbn [firstn]. rewrite app_nil_r. reflexivity.
  Qed.

  Lemma input_size_ok : forall d table i f, table_ok d table -> nth_error table i = Some f ->
    action_at d i = Ok (make_action ft (kr_e kr) (kr_m kr) f)
    /\ input_size (make_action ft (kr_e kr) (kr_m kr) f) = Ok (wire_sizes (params f)).
  Proof.
    intros d table i f Ht Hi. destruct (table_sig _ _ _ _ Ht Hi) as [[Hs _] (Hweak & _)].
    destruct Ht as (_ & _ & Ha & _). split.
    - unfold action_at. rewrite Ha, nth_error_map, Hi. reflexivity.
    - unfold params. destruct ft; cbn [make_action input_size m_func].
      + rewrite tuple_size_wire; auto. eapply tys_layout; eauto.
      + rewrite Hweak; auto.
  Qed.

  Lemma d_size_ok : forall d table, table_ok d table -> d_size d = length table.
  Proof.
    intros d table Ht. rewrite (table_length d table Ht). destruct Ht as (Hk & _).
    unfold d_size. rewrite Hk. apply w_bounds.
  Qed.

  Lemma put_ok : forall b a x byte, represents b a -> is_byte byte -> calm a ->
    servable fm p (mc_table a) (mc_in a ++ [byte]) x ->
    let '(a', x', s) := mc_put fm byte a x in
    exists b', put p byte b x = Ok (b', x', s) /\ represents b' a'.
  Proof.
    intros b a x byte (Ht & Hni & Hno & Hdbl & Hnext & Hin & Hout & Hbot & Hso & Hbytes & Hprog) Hbyte Hcalm Hserv.
    destruct w_bounds as (Hw & _ & Hsize).
    set (bs := mc_in a ++ [byte]) in *.
    assert (Hlbs : length bs = S (length (mc_in a))).
    { unfold bs. rewrite app_length. cbn. lia. }
    assert (Hbs : Forall is_byte bs) by (apply Forall_app; auto).
    (* room in the input buffer *)
    assert (Hfree : length bs <= ni /\ 1 <= b_load_count b).
    { unfold progress in Hprog. fold w in Hroom. destruct (b_is_index_loaded b).
      - destruct Hprog as (f & Hd & H1 & H2 & H3). unfold designated in Hd.
        destruct (table_sig _ _ _ _ Ht Hd) as [_ (_ & Hf & _)]. unfold params in *. lia.
      - destruct Hprog as [H1 H2]. lia. }
    destruct Hfree as [Hfree Hcount].
    set (m1 := splice (ibuf (b_bufs b)) (length (mc_in a)) [byte]).
    assert (Hst : store (ibuf (b_bufs b)) (b_ibuf_next b) byte = Ok m1).
    { rewrite Hnext. apply store_ok. lia. }
    set (bufs1 := set_ibuf m1 (b_bufs b)).
    assert (Hm1 : ibuf bufs1 = m1) by apply ibuf_set_ibuf.
    assert (Hl1 : length m1 = ni) by (unfold m1; rewrite splice_length; cbn; lia).
    assert (Hni1 : length (ibuf bufs1) = ni) by congruence.
    assert (Hno1 : length (obuf bufs1) = no).
    { unfold bufs1. rewrite obuf_set_ibuf; congruence. }
    assert (Hin1 : slice (ibuf bufs1) 0 (length bs) = bs).
    { rewrite Hm1, Hlbs. replace (S (length (mc_in a))) with (length (mc_in a) + 1) by lia.
      rewrite slice_app by lia. unfold bs. cbn [Nat.add]. f_equal.
      - transitivity (slice (ibuf (b_bufs b)) 0 (length (mc_in a))); auto.
        unfold m1. apply slice_splice_disjoint; cbn; lia.
      - unfold m1. apply (slice_splice_same _ _ [byte]). cbn. lia. }
    assert (Hso1 : slice (obuf bufs1) (b_obuf_next b) (length (mc_out a)) = mc_out a).
    { unfold bufs1. destruct Hcalm as [E|E].
      - rewrite E in Hdbl. destruct (b_bufs b); [discriminate|]. exact Hso.
      - rewrite E. unfold slice. reflexivity. }
    assert (Hdbl1 : is_double bufs1 = dbl) by (unfold bufs1; rewrite is_double_set_ibuf; auto).
    assert (Hkr_d : d_keyring (b_dispatcher b) = kr) by apply Ht.
    (* the states the dispatcher may be left in *)
    assert (Hkeep : forall l n t, progress (mk_buffered (b_dispatcher b) l n (length bs) (b_obuf_next b) (b_obuf_bottom b) bufs1)
                                   (mk_machine bs (mc_out a) (mc_table a)) ->
              t = length bs ->
              represents (mk_buffered (b_dispatcher b) l n t (b_obuf_next b) (b_obuf_bottom b) bufs1)
                (mk_machine bs (mc_out a) (mc_table a))).
    { intros l n t Hpr ->. unfold represents.
      cbn [b_dispatcher b_bufs b_ibuf_next b_obuf_next b_obuf_bottom mc_in mc_out mc_table].
      repeat (split; [solve [auto]|]). exact Hpr. }
    assert (Hcall : forall b1 f payload, b_dispatcher b1 = b_dispatcher b -> b_bufs b1 = bufs1 ->
              examine fm (mc_table a) bs = Request f payload -> length bs = w + wire_sizes (params f) ->
              let '(a', x', s) := mc_put fm byte a x in
              exists b', ('(b2, y) <- call_loaded p b1 x;; Ok (b2, y, RESOLVED_PACKET)) = Ok (b', x', s)
                /\ represents b' a').
    { intros b1 f payload Hb1 Hb1' Hex Hlen. unfold mc_put, received. fold bs. rewrite Hex.
      unfold servable in Hserv. rewrite Hex in Hserv. destruct Hserv as [Hd He].
      cbn [fm format_of fm_e fm_m] in Hd, He.
      destruct (serve fm f payload x) as [x' out] eqn:Es.
      pose proof (serve_length f payload x x' out He Es) as Hlo.
      assert (Hfo : length out <= no).
      { assert (Hdes : designated fm (mc_table a) bs = Some f).
        { unfold examine in Hex. destruct (length bs <? fm_w fm); [discriminate|].
          destruct (designated fm (mc_table a) bs) as [g|]; [|discriminate].
          destruct (length bs <? fm_w fm + wire_sizes (params g)); [discriminate|]. congruence. }
        unfold designated in Hdes. destruct (table_sig _ _ _ _ Ht Hdes) as [_ (_ & _ & Hfo)].
        unfold ret in Hlo. lia. }
      rewrite (call_loaded_ok b1 (mc_table a) bs f payload x x' out);
        rewrite ?Hb1, ?Hb1'; auto.
      cbn [bind]. eexists. split; [reflexivity|]. unfold represents, progress.
      cbn [b_dispatcher b_bufs b_ibuf_next b_obuf_next b_obuf_bottom b_is_index_loaded b_load_count mc_in mc_out mc_table].
      split; [auto|]. split.
      { rewrite ibuf_set_obuf; auto. rewrite splice_length; auto. lia. }
      split; [rewrite obuf_set_obuf, splice_length; auto; lia|].
      split; [rewrite is_double_set_obuf; auto|]. split; [reflexivity|]. split; [reflexivity|].
      split; [reflexivity|]. split; [auto|]. split.
      { rewrite obuf_set_obuf. apply slice_splice_same. lia. }
      split; [constructor|]. cbn [length]. lia. }
    assert (Hgi : w <= length bs ->
              get_index p (framed_dispatcher (b_dispatcher b)) ibuf_source (mk_frame bufs1 0 0 x)
              = Ok (mk_frame bufs1 w 0 x, Z.to_nat (wire_value (kr_e kr) (firstn w bs)))).
    { intros Hwl. apply (get_index_frame _ (mc_table a)); auto. lia. }
    unfold put. rewrite Hst. cbn [bind]. fold bufs1.
    destruct (b_load_count b) as [|count] eqn:Ecount; [lia|].
    unfold progress in Hprog. rewrite Ecount in Hprog. destruct (b_is_index_loaded b) eqn:Eloaded.
    - (* arguments *)
      destruct Hprog as (f & Hd & H1 & H2 & H3).
      assert (Hd' : designated fm (mc_table a) bs = Some f) by (unfold bs; rewrite designated_app; auto).
      destruct (Nat.ltb_spec 0 count) as [Hc|Hc].
      + assert (Ex : examine fm (mc_table a) bs = Incomplete).
        { unfold examine. cbn [fm format_of fm_w]. fold w.
          destruct (Nat.ltb_spec (length bs) w); auto. fold fm. rewrite Hd'.
          destruct (Nat.ltb_spec (length bs) (w + wire_sizes (params f))); auto. lia. }
        unfold mc_put, received. fold bs. rewrite Ex. eexists. split; [reflexivity|].
        apply Hkeep; [|lia]. unfold progress. cbn [b_is_index_loaded b_load_count mc_in mc_table].
        exists f. repeat (split; [solve [auto | lia]|]). lia.
      + assert (Hlen : length bs = w + wire_sizes (params f)) by lia.
        apply (Hcall _ f (skipn w bs)); auto.
        unfold examine. cbn [fm format_of fm_w]. fold w. destruct (Nat.ltb_spec (length bs) w); [lia|].
        fold fm. rewrite Hd'. destruct (Nat.ltb_spec (length bs) (w + wire_sizes (params f))); [lia|]. auto.
    - (* index *)
      destruct Hprog as [H1 H2]. destruct (Nat.ltb_spec 0 count) as [Hc|Hc].
      + assert (Ex : examine fm (mc_table a) bs = Incomplete).
        { unfold examine. cbn [fm format_of fm_w]. fold w. destruct (Nat.ltb_spec (length bs) w); auto. lia. }
        unfold mc_put, received. fold bs. rewrite Ex. eexists. split; [reflexivity|].
        apply Hkeep; [|lia]. unfold progress. cbn [b_is_index_loaded b_load_count mc_in mc_table]. lia.
      + assert (Hlen : length bs = w) by lia. rewrite Hgi by lia. cbn [bind].
        rewrite (d_size_ok _ _ Ht).
        assert (Edes : designated fm (mc_table a) bs
                       = nth_error (mc_table a) (Z.to_nat (wire_value (kr_e kr) (firstn w bs)))) by reflexivity.
        set (i := Z.to_nat (wire_value (kr_e kr) (firstn w bs))) in *.
        destruct (Nat.ltb_spec i (length (mc_table a))) as [Hi|Hi].
        * destruct (nth_error (mc_table a) i) as [f|] eqn:Ef.
          2:{ apply nth_error_None in Ef. lia. }
          destruct (input_size_ok _ _ _ _ Ht Ef) as [Ea Es]. rewrite Ea. cbn [bind]. rewrite Es. cbn [bind].
          destruct (Nat.eqb_spec (wire_sizes (params f)) 0) as [Hz|Hz].
          -- apply (Hcall _ f (skipn w bs)); auto; [|lia].
             unfold examine. cbn [fm format_of fm_w]. fold w. destruct (Nat.ltb_spec (length bs) w); [lia|].
             fold fm. rewrite Edes. destruct (Nat.ltb_spec (length bs) (w + wire_sizes (params f))); [lia|]. auto.
          -- assert (Ex : examine fm (mc_table a) bs = Incomplete).
             { unfold examine. cbn [fm format_of fm_w]. fold w. destruct (Nat.ltb_spec (length bs) w); auto.
               fold fm. rewrite Edes. destruct (Nat.ltb_spec (length bs) (w + wire_sizes (params f))); auto. lia. }
             unfold mc_put, received. fold bs. rewrite Ex. eexists. split; [reflexivity|].
             apply Hkeep; [|lia]. unfold progress. cbn [b_is_index_loaded b_load_count mc_in mc_table].
             exists f. repeat (split; [solve [auto | lia]|]). lia.
        * assert (Ex : examine fm (mc_table a) bs = Invalid).
          { unfold examine. cbn [fm format_of fm_w]. fold w. destruct (Nat.ltb_spec (length bs) w); [lia|].
            fold fm. rewrite Edes. apply nth_error_None in Hi. rewrite Hi. reflexivity. }
          unfold mc_put, received. fold bs. rewrite Ex. eexists. split; [reflexivity|].
          unfold represents, progress, index_length. rewrite Hkr_d.
          cbn [b_dispatcher b_bufs b_ibuf_next b_obuf_next b_obuf_bottom b_is_index_loaded b_load_count mc_in mc_out mc_table].
          repeat (split; [solve [auto]|]). cbn [length]. fold w. lia.
  Qed.

  Lemma represents_progress : forall b a, represents b a ->
    b_is_index_loaded b = negb (length (mc_in a) <? w)
    /\ b_load_count b = missing fm (mc_table a) (mc_in a)
    /\ 1 <= b_load_count b.
  Proof.
    intros b a (_ & _ & _ & _ & _ & _ & _ & _ & _ & _ & H). unfold progress in H.
    unfold missing. cbn [fm format_of fm_w]. fold w. fold fm. destruct (b_is_index_loaded b).
    - destruct H as (f & Hd & H1 & H2 & H3). destruct (Nat.ltb_spec (length (mc_in a)) w); [lia|].
      rewrite Hd. cbn. lia.
    - destruct H as [H1 H2]. destruct (Nat.ltb_spec (length (mc_in a)) w); [|lia]. cbn. lia.
  Qed.

  Lemma examine_missing : forall (table : list (func X)) bs,
    (missing fm table bs = 0 <-> examine fm table bs <> Incomplete).
  Proof.
    intros table bs. unfold missing, examine. destruct (Nat.ltb_spec (length bs) (fm_w fm)).
    - split; [lia|congruence].
    - destruct (designated fm table bs) as [f|].
      + destruct (Nat.ltb_spec (length bs) (fm_w fm + wire_sizes (params f))); split; try lia; congruence.
      + split; auto. congruence.
  Qed.

  Lemma missing_cons : forall (table : list (func X)) bs b, 2 <= missing fm table bs ->
    missing fm table (bs ++ [b]) = missing fm table bs - 1.
  Proof.
    intros table bs b H. unfold missing in H |- *. rewrite app_length. cbn [length].
    cbn [fm format_of fm_w] in H |- *. fold w in H |- *. fold fm in H |- *.
    destruct (Nat.ltb_spec (length bs) w).
    - destruct (Nat.ltb_spec (length bs + 1) w); lia.
    - rewrite designated_app by auto. destruct (Nat.ltb_spec (length bs + 1) w); [lia|].
      destruct (designated fm table bs); lia.
  Qed.

  Lemma missing_last : forall (table : list (func X)) bs b, w <= length bs -> missing fm table bs = 1 ->
    missing fm table (bs ++ [b]) = 0.
  Proof.
    intros table bs b Hw H. unfold missing in H |- *. rewrite app_length. cbn [length].
    cbn [fm format_of fm_w] in H |- *. fold w in H |- *. fold fm in H |- *.
    rewrite designated_app by auto. destruct (Nat.ltb_spec (length bs) w); [lia|].
    destruct (Nat.ltb_spec (length bs + 1) w); [lia|]. destruct (designated fm table bs); lia.
  Qed.

  Lemma received_same : forall bs a a' (x : X), mc_out a = mc_out a' -> mc_table a = mc_table a' ->
    received fm bs a x = received fm bs a' x.
  Proof. intros bs a a' x H1 H2. unfold received. rewrite H1, H2. reflexivity. Qed.

  (** A state in which a packet has just ended. *)
  Lemma received_end : forall bs a (x x' : X) a' s, examine fm (mc_table a) bs <> Incomplete ->
    received fm bs a x = (a', x', s) -> mc_in a' = [] /\ s <> LOADING_PACKET.
  Proof.
    intros bs a x x' a' s H E. unfold received in E. destruct (examine fm (mc_table a) bs) as [| |f pl]; [congruence| |].
    - injection E as <- _ <-. split; [reflexivity|discriminate].
    - destruct (serve fm f pl x) as [y out]. injection E as <- _ <-. split; [reflexivity|discriminate].
  Qed.

  Lemma put_incomplete : forall b a x byte, represents b a -> is_byte byte -> calm a ->
    2 <= b_load_count b ->
    exists b', put p byte b x = Ok (b', x, LOADING_PACKET)
      /\ represents b' (mk_machine (mc_in a ++ [byte]) (mc_out a) (mc_table a))
      /\ b_load_count b' = b_load_count b - 1 /\ b_is_index_loaded b' = b_is_index_loaded b.
  Proof.
    intros b a x byte Hr Hb Hc Hn. destruct (represents_progress b a Hr) as (H1 & H2 & _).
    assert (Hm : missing fm (mc_table a) (mc_in a ++ [byte]) = b_load_count b - 1) by (rewrite missing_cons; lia).
    assert (Ex : examine fm (mc_table a) (mc_in a ++ [byte]) = Incomplete).
    { destruct (examine fm (mc_table a) (mc_in a ++ [byte])) eqn:E; auto; exfalso;
        assert (H0 : missing fm (mc_table a) (mc_in a ++ [byte]) = 0) by (apply examine_missing; congruence); lia. }
    pose proof (put_ok b a x byte Hr Hb Hc) as Hput. unfold mc_put, received, servable in Hput.
    rewrite Ex in Hput. destruct (Hput I) as (b' & Ep & Hr'). exists b'. split; auto. split; auto.
    destruct (represents_progress b' _ Hr') as (H1' & H2' & _). cbn [mc_in mc_table] in *. split; [lia|].
    rewrite H1, H1'. f_equal. rewrite app_length. cbn [length].
    destruct (Nat.ltb_spec (length (mc_in a)) w), (Nat.ltb_spec (length (mc_in a) + 1) w); auto; try lia.
    exfalso. unfold missing in H2. cbn [fm format_of fm_w] in H2. fold w in H2.
    destruct (Nat.ltb_spec (length (mc_in a)) w); lia.
  Qed.

  Lemma gives_bytes_next : forall (src : source X) n x x' b, gives_bytes src (S n) x -> src x = Ok (x', b) ->
    is_byte b /\ gives_bytes src n x'.
  Proof.
    intros src n x x' b Hg H. split.
    - specialize (Hg 1 x' [b] ltac:(lia)). cbn [pull] in Hg. rewrite H in Hg. cbn [bind] in Hg.
      specialize (Hg eq_refl). inversion Hg. auto.
    - intros k y bs Hk E. specialize (Hg (S k) y (b :: bs) ltac:(lia)). cbn [pull] in Hg. rewrite H in Hg.
      cbn [bind] in Hg. rewrite E in Hg. specialize (Hg eq_refl). inversion Hg. auto.
  Qed.

  Lemma app_cons : forall (l : list Z) b bs, l ++ b :: bs = (l ++ [b]) ++ bs.
  Proof. intros. rewrite <- app_assoc. reflexivity. Qed.

  Lemma read_index_ok : forall src n fuel b a x, gives_bytes src n x -> represents b a -> calm a ->
    b_is_index_loaded b = false -> b_load_count b = n -> n < fuel ->
    (forall x1 bs, pull src n x = Ok (x1, bs) -> servable fm p (mc_table a) (mc_in a ++ bs) x1) ->
    match pull src n x with
    | Ok (x1, bs) =>
        let '(a', x', s) := received fm (mc_in a ++ bs) a x1 in
        exists b', read_index p fuel src b x LOADING_PACKET = Ok (b', x', s) /\ represents b' a'
    | Fault f => read_index p fuel src b x LOADING_PACKET = Fault f
    end.
  Proof.
    intros src. induction n as [|n IH]; intros fuel b a x Hg Hr Hc Hl Hn Hf Hs.
    { destruct (represents_progress b a Hr) as (_ & _ & H). lia. }
    destruct fuel as [|fuel]; [lia|]. cbn [pull read_index] in *. rewrite Hl. cbn [negb andb is_loading].
    destruct (src x) as [[x1 byte]|flt] eqn:Esrc; cbn [bind] in *; [|reflexivity].
    destruct (gives_bytes_next src n x x1 byte Hg Esrc) as [Hb Hg'].
    destruct (Nat.eq_dec n 0) as [->|Hn0].
    - cbn [pull bind] in *.
      pose proof (put_ok b a x1 byte Hr Hb Hc (Hs x1 [byte] eq_refl)) as Hput. unfold mc_put in Hput.
      destruct (received fm (mc_in a ++ [byte]) a x1) as [[a' x'] s] eqn:Erec.
      destruct Hput as (b' & Ep & Hr'). exists b'. split; auto. rewrite Ep. cbn [bind].
      destruct (represents_progress b' a' Hr') as (H1' & _).
      assert (Hstop : negb (b_is_index_loaded b') && is_loading s = false).
      { unfold received in Erec. destruct (examine fm (mc_table a) (mc_in a ++ [byte])) as [| |f pl].
        - injection Erec as <- _ <-. cbn [mc_in] in H1'. rewrite H1', app_length. cbn [length].
          destruct (represents_progress b a Hr) as (H1 & H2 & _).
          rewrite Hl in H1. destruct (Nat.ltb_spec (length (mc_in a)) w); [|discriminate].
          unfold missing in H2. cbn [fm format_of fm_w] in H2. fold w in H2.
          destruct (Nat.ltb_spec (length (mc_in a)) w); [|lia].
          destruct (Nat.ltb_spec (length (mc_in a) + 1) w); [lia|]. reflexivity.
        - injection Erec as _ _ <-. apply andb_false_r.
        - destruct (serve fm f pl x1). injection Erec as _ _ <-. apply andb_false_r. }
      destruct fuel; cbn [read_index]; rewrite Hstop; reflexivity.
    - destruct (put_incomplete b a x1 byte Hr Hb Hc ltac:(lia)) as (b' & Ep & Hr' & Hn' & Hl').
      rewrite Ep. cbn [bind].
      set (a1 := mk_machine (mc_in a ++ [byte]) (mc_out a) (mc_table a)) in *.
      assert (Hs' : forall x2 bs, pull src n x1 = Ok (x2, bs) ->
                servable fm p (mc_table a1) (mc_in a1 ++ bs) x2).
      { intros x2 bs Hpull. rewrite Hpull in Hs. cbn [bind] in Hs.
        specialize (Hs x2 (byte :: bs) eq_refl). rewrite app_cons in Hs. exact Hs. }
      specialize (IH fuel b' a1 x1 Hg' Hr' Hc ltac:(congruence) ltac:(lia) ltac:(lia) Hs').
      destruct (pull src n x1) as [[x2 bs]|flt]; cbn [bind]; auto.
      rewrite app_cons. rewrite (received_same _ a a1) by reflexivity. exact IH.
  Qed.

  Lemma read_payload_ok : forall src n fuel b a x s0, gives_bytes src n x -> represents b a -> calm a ->
    b_is_index_loaded b = true -> b_load_count b = n -> n < fuel ->
    (forall x1 bs, pull src n x = Ok (x1, bs) -> servable fm p (mc_table a) (mc_in a ++ bs) x1) ->
    match pull src n x with
    | Ok (x1, bs) =>
        let '(a', x', s) := received fm (mc_in a ++ bs) a x1 in
        exists b', read_payload p fuel src b x s0 = Ok (b', x', s) /\ represents b' a'
    | Fault f => read_payload p fuel src b x s0 = Fault f
    end.
  Proof.
    intros src. induction n as [|n IH]; intros fuel b a x s0 Hg Hr Hc Hl Hn Hf Hs.
    { destruct (represents_progress b a Hr) as (_ & _ & H). lia. }
    destruct fuel as [|fuel]; [lia|]. cbn [pull read_payload] in *. rewrite Hl.
    destruct (src x) as [[x1 byte]|flt] eqn:Esrc; cbn [bind] in *; [|reflexivity].
    destruct (gives_bytes_next src n x x1 byte Hg Esrc) as [Hb Hg'].
    destruct (represents_progress b a Hr) as (H1 & H2 & _).
    destruct (Nat.eq_dec n 0) as [->|Hn0].
    - cbn [pull bind] in *.
      pose proof (put_ok b a x1 byte Hr Hb Hc (Hs x1 [byte] eq_refl)) as Hput. unfold mc_put in Hput.
      destruct (received fm (mc_in a ++ [byte]) a x1) as [[a' x'] s] eqn:Erec.
      destruct Hput as (b' & Ep & Hr'). exists b'. split; auto. rewrite Ep. cbn [bind].
      destruct (represents_progress b' a' Hr') as (H1' & _).
      assert (Hw : w <= length (mc_in a)).
      { rewrite Hl in H1. destruct (Nat.ltb_spec (length (mc_in a)) w); [discriminate|auto]. }
      assert (Hend : examine fm (mc_table a) (mc_in a ++ [byte]) <> Incomplete).
      { apply examine_missing. apply missing_last; auto. lia. }
      destruct (received_end _ _ _ _ _ _ Hend Erec) as [Hin _].
      assert (Hstop : b_is_index_loaded b' = false).
      { rewrite H1', Hin. cbn [length]. destruct w_bounds as (Hw1 & _).
        destruct (Nat.ltb_spec 0 w); auto. lia. }
      destruct fuel; cbn [read_payload]; rewrite Hstop; reflexivity.
    - destruct (put_incomplete b a x1 byte Hr Hb Hc ltac:(lia)) as (b' & Ep & Hr' & Hn' & Hl').
      rewrite Ep. cbn [bind].
      set (a1 := mk_machine (mc_in a ++ [byte]) (mc_out a) (mc_table a)) in *.
      assert (Hs' : forall x2 bs, pull src n x1 = Ok (x2, bs) ->
                servable fm p (mc_table a1) (mc_in a1 ++ bs) x2).
      { intros x2 bs Hpull. rewrite Hpull in Hs. cbn [bind] in Hs.
        specialize (Hs x2 (byte :: bs) eq_refl). rewrite app_cons in Hs. exact Hs. }
      specialize (IH fuel b' a1 x1 LOADING_PACKET Hg' Hr' Hc ltac:(congruence) ltac:(lia) ltac:(lia) Hs').
      destruct (pull src n x1) as [[x2 bs]|flt]; cbn [bind]; auto.
      rewrite app_cons. rewrite (received_same _ a a1) by reflexivity. exact IH.
  Qed.

  (** Same result, or same fault. *)
  Definition agrees {V : Type} (c : res (buffered X * X * V)) (s : res (machine X * X * V)) : Prop :=
    match s with
    | Ok (a', x', v) => exists b', c = Ok (b', x', v) /\ represents b' a'
    | Fault f => c = Fault f
    end.

  Lemma pull_0 : forall (src : source X) x, pull src 0 x = Ok (x, []).
  Proof. reflexivity. Qed.

  Lemma read_from_ok : forall src b a x, represents b a -> calm a -> readable fm p src a x ->
    agrees (read_from p src b x) (mc_read fm src a x).
  Proof.
    intros src b a x Hr Hc (Hg & Hg2 & Hs). unfold agrees, read_from, mc_read. unfold mc_fetch in *.
    destruct (represents_progress b a Hr) as (H1 & H2 & H3).
    destruct (b_is_index_loaded b) eqn:Hl.
    - (* the index is known *)
      assert (E1 : read_index p (S (b_load_count b)) src b x LOADING_PACKET = Ok (b, x, LOADING_PACKET)).
      { cbn [read_index]. rewrite Hl. reflexivity. }
      rewrite E1. cbn [bind].
      assert (Hw : w <= length (mc_in a)).
      { destruct (Nat.ltb_spec (length (mc_in a)) w); [discriminate|auto]. }
      assert (Hz : forall bs, length bs = missing fm (mc_table a) (mc_in a) ->
                missing fm (mc_table a) (mc_in a ++ bs) = 0).
      { intros bs Hlen. unfold missing in Hlen |- *. rewrite app_length. cbn [fm format_of fm_w] in Hlen |- *.
        fold w in Hlen |- *. fold fm in Hlen |- *. rewrite designated_app by auto.
        destruct (Nat.ltb_spec (length (mc_in a)) w); [lia|].
        destruct (Nat.ltb_spec (length (mc_in a) + length bs) w); [lia|].
        destruct (designated fm (mc_table a) (mc_in a)); lia. }
      pose proof (read_payload_ok src _ (S (b_load_count b)) b a x LOADING_PACKET Hg Hr Hc Hl
                    H2 ltac:(lia)) as Hrp.
      destruct (pull src (missing fm (mc_table a) (mc_in a)) x) as [[x1 bs]|flt] eqn:Epull; cbn [bind] in *.
      + rewrite Hz in * by (apply (pull_length _ _ _ _ _ _ Epull)). cbn [pull bind] in *. rewrite app_nil_r in *.
        assert (Hsv : forall y l, Ok (x1, bs) = Ok (y, l) -> servable fm p (mc_table a) (mc_in a ++ l) y).
        { intros y l E. injection E as <- <-. apply Hs. reflexivity. }
        specialize (Hrp Hsv). destruct (received fm (mc_in a ++ bs) a x1) as [[a' x'] s]. exact Hrp.
      + apply Hrp. intros. discriminate.
    - (* first the index *)
      assert (Hw : length (mc_in a) < w).
      { destruct (Nat.ltb_spec (length (mc_in a)) w); [auto|discriminate]. }
      pose proof (read_index_ok src _ (S (b_load_count b)) b a x Hg Hr Hc Hl
                    H2 ltac:(lia)) as Hri.
      destruct (pull src (missing fm (mc_table a) (mc_in a)) x) as [[x1 bs]|flt] eqn:Epull; cbn [bind] in *.
      2:{ rewrite (Hri ltac:(intros; discriminate)). reflexivity. }
      pose proof (pull_length _ _ _ _ _ _ Epull) as Hlen.
      assert (Hlw : length (mc_in a ++ bs) = w).
      { rewrite app_length, Hlen. unfold missing. cbn [fm format_of fm_w]. fold w.
        destruct (Nat.ltb_spec (length (mc_in a)) w); lia. }
      destruct (Nat.eq_dec (missing fm (mc_table a) (mc_in a ++ bs)) 0) as [Hz|Hz].
      + rewrite Hz in *. cbn [pull bind] in *. rewrite app_nil_r in *.
        assert (Hsv : forall y l, Ok (x1, bs) = Ok (y, l) -> servable fm p (mc_table a) (mc_in a ++ l) y).
        { intros y l E. injection E as <- <-. apply Hs. reflexivity. }
        specialize (Hri Hsv). apply examine_missing in Hz.
        destruct (received fm (mc_in a ++ bs) a x1) as [[a' x'] s] eqn:Erec.
        destruct Hri as (b' & E & Hr'). rewrite E. cbn [bind]. exists b'. split; auto.
        destruct (received_end _ _ _ _ _ _ Hz Erec) as [Hin _].
        destruct (represents_progress b' a' Hr') as (H1' & _).
        cbn [read_payload]. rewrite H1', Hin. cbn [length]. destruct w_bounds as (Hw1 & _).
        destruct (Nat.ltb_spec 0 w); [reflexivity|lia].
      + assert (Ex : examine fm (mc_table a) (mc_in a ++ bs) = Incomplete).
        { destruct (examine fm (mc_table a) (mc_in a ++ bs)) eqn:E; auto; exfalso; apply Hz;
            apply examine_missing; congruence. }
        assert (Hsv : forall y l, Ok (x1, bs) = Ok (y, l) -> servable fm p (mc_table a) (mc_in a ++ l) y).
        { intros y l E. injection E as <- <-. unfold servable. rewrite Ex. exact I. }
        specialize (Hri Hsv). unfold received in Hri at 1. rewrite Ex in Hri.
        destruct Hri as (b' & E & Hr'). rewrite E. cbn [bind].
        set (a1 := mk_machine (mc_in a ++ bs) (mc_out a) (mc_table a)) in *.
        destruct (represents_progress b' a1 Hr') as (H1' & H2' & H3').
        assert (Hl' : b_is_index_loaded b' = true).
        { rewrite H1'. cbn [a1 mc_in]. rewrite Hlw, Nat.ltb_irrefl. reflexivity. }
        pose proof (read_payload_ok src (missing fm (mc_table a1) (mc_in a1)) (S (b_load_count b')) b' a1 x1 LOADING_PACKET (Hg2 x1 bs eq_refl) Hr' Hc Hl'
                      H2' ltac:(lia)) as Hrp. cbn [a1 mc_in mc_table mc_out] in Hrp.
        destruct (pull src (missing fm (mc_table a) (mc_in a ++ bs)) x1) as [[x2 bs2]|flt] eqn:Epull2; cbn [bind] in *.
        2:{ apply Hrp. intros. discriminate. }
        rewrite app_assoc in *. rewrite (received_same _ a a1) by reflexivity.
        assert (Hsv2 : forall y l, Ok (x2, bs2) = Ok (y, l) -> servable fm p (mc_table a) ((mc_in a ++ bs) ++ l) y).
        { intros y l E'. injection E' as <- <-. apply Hs. reflexivity. }
        specialize (Hrp Hsv2). unfold a1. unfold a1 in Hrp.
        destruct (received fm ((mc_in a ++ bs) ++ bs2) _ x2) as [[a' x'] s]. exact Hrp.
  Qed.

  Lemma is_loaded_ok : forall b a, represents b a -> is_loaded b = mc_loaded a.
  Proof.
    intros b a (_ & _ & _ & _ & _ & _ & H & _). unfold is_loaded, mc_loaded.
    destruct (mc_out a); cbn [length] in H; destruct (Nat.eqb_spec (b_obuf_next b) (b_obuf_bottom b)); auto; lia.
  Qed.

  Definition advance (b : buffered X) (n : nat) : buffered X :=
    mk_buffered (b_dispatcher b) (b_is_index_loaded b) (b_load_count b) (b_ibuf_next b)
      (b_obuf_next b + n) (b_obuf_bottom b) (b_bufs b).

  Lemma advance_represents : forall b a n, represents b a -> n <= length (mc_out a) ->
    represents (advance b n) (mk_machine (mc_in a) (skipn n (mc_out a)) (mc_table a)).
  Proof.
    intros b a n (Ht & Hni & Hno & Hdbl & Hnext & Hin & Hout & Hbot & Hso & Hbytes & Hprog) Hn.
    unfold represents, advance, progress in *.
    cbn [b_dispatcher b_bufs b_ibuf_next b_obuf_next b_obuf_bottom b_is_index_loaded b_load_count mc_in mc_out mc_table].
    rewrite skipn_length. do 6 (split; [solve [auto]|]). split; [lia|]. split; [auto|]. split; [|auto].
    transitivity (skipn n (slice (obuf (b_bufs b)) (b_obuf_next b) (length (mc_out a)))).
    - rewrite skipn_slice. reflexivity.
    - rewrite Hso. reflexivity.
  Qed.

  Lemma get_byte_cons : forall b a byte out, represents b a -> mc_out a = byte :: out ->
    get_byte b = Ok (advance b 1, byte).
  Proof.
    intros b a byte out Hr Eo. unfold get_byte. rewrite (is_loaded_ok b a Hr). unfold mc_loaded. rewrite Eo.
    destruct Hr as (_ & _ & Hno & _ & _ & _ & Hout & Hbot & Hso & _). rewrite Eo in *. cbn [length] in *.
    assert (Hn : nth_error (obuf (b_bufs b)) (b_obuf_next b) = Some byte).
    { assert (E : nth_error (slice (obuf (b_bufs b)) (b_obuf_next b) (S (length out))) 0 = Some byte)
        by (rewrite Hso; reflexivity).
      rewrite nth_error_slice in E. rewrite Nat.add_0_r in E. exact E. }
    rewrite (load_nth _ _ _ Hn). cbn [bind]. unfold advance. rewrite Nat.add_1_r. reflexivity.
  Qed.

  Lemma get_byte_ok : forall b a, represents b a ->
    exists b', get_byte b = Ok (b', snd (mc_get a)) /\ represents b' (fst (mc_get a)).
  Proof.
    intros b a Hr. unfold mc_get. destruct (mc_out a) as [|byte out] eqn:Eo; cbn [fst snd].
    - exists b. unfold get_byte. rewrite (is_loaded_ok b a Hr). unfold mc_loaded. rewrite Eo. auto.
    - exists (advance b 1). rewrite (get_byte_cons b a byte out Hr Eo). split; auto.
      pose proof (advance_represents b a 1 Hr) as Ha. rewrite Eo in Ha. cbn [length skipn] in Ha. apply Ha. lia.
  Qed.

  Lemma write_loop_ok : forall (Y : Type) (dest : destination Y) fuel b a y, represents b a ->
    length (mc_out a) < fuel ->
    write_loop fuel dest b y = (y' <- push dest (mc_out a) y;; Ok (advance b (length (mc_out a)), y')).
  Proof.
    intros Y dest. induction fuel as [|fuel IH]; intros b a y Hr Hf; [lia|]. cbn [write_loop].
    rewrite (is_loaded_ok b a Hr). unfold mc_loaded. destruct (mc_out a) as [|byte out] eqn:Eo.
    - cbn [push bind length]. unfold advance. rewrite Nat.add_0_r. destruct b. reflexivity.
    - rewrite (get_byte_cons b a byte out Hr Eo). cbn [bind push].
      destruct (dest byte y) as [y1|]; cbn [bind]; auto.
      assert (Hr' := advance_represents b a 1 Hr). rewrite Eo in Hr'. cbn [length skipn] in Hr'.
      rewrite (IH _ _ y1 (Hr' ltac:(lia))) by (cbn [mc_out length] in *; lia). cbn [mc_out length].
      destruct (push dest out y1); cbn [bind]; auto. unfold advance.
      cbn [b_dispatcher b_bufs b_ibuf_next b_obuf_next b_obuf_bottom b_is_index_loaded b_load_count].
      do 3 f_equal. lia.
  Qed.

  Lemma write_to_ok : forall (Y : Type) (dest : destination Y) b a y, represents b a ->
    write_to dest b y = (y' <- push dest (mc_out a) y;; Ok (advance b (length (mc_out a)), y')).
  Proof.
    intros Y dest b a y Hr. unfold write_to. apply write_loop_ok; auto.
    destruct Hr as (_ & _ & Hno & _ & _ & _ & Hout & Hbot & _). lia.
  Qed.

  Lemma advance_all : forall b a, represents b a ->
    represents (advance b (length (mc_out a))) (mk_machine (mc_in a) [] (mc_table a)).
  Proof.
    intros b a Hr. pose proof (advance_represents b a _ Hr (le_n _)) as H. rewrite skipn_all in H. exact H.
  Qed.

  Lemma process_ok : forall src dest b a x, represents b a -> calm a -> readable fm p src a x ->
    agrees (process p src dest b x) (mc_process fm src dest a x).
  Proof.
    intros src dest b a x Hr Hc Hrd. pose proof (read_from_ok src b a x Hr Hc Hrd) as H.
    unfold agrees, process, mc_process in *. destruct (mc_read fm src a x) as [[[a1 x1] s]|f]; cbn [bind].
    - destruct H as (b1 & E & Hr1). rewrite E. cbn [bind]. destruct s; try (exists b1; auto; fail).
      unfold mc_write. rewrite (write_to_ok _ dest b1 a1 x1 Hr1).
      destruct (push dest (mc_out a1) x1) as [x2|f]; cbn [bind]; auto.
      eexists. split; [reflexivity|]. apply advance_all. auto.
    - rewrite H. reflexivity.
  Qed.

  Lemma update_set_nth : forall (l : list (func X)) i f, update l i f = set_nth l i f.
  Proof. induction l; intros [|i] f; cbn; auto. f_equal. auto. Qed.

  Lemma map_set_nth : forall (A B : Type) (g : A -> B) l i a, map g (set_nth l i a) = set_nth (map g l) i (g a).
  Proof. induction l; intros [|i] b; cbn; auto. f_equal. auto. Qed.

  Lemma set_nth_id : forall (A : Type) (l : list A) i a, nth_error l i = Some a -> set_nth l i a = l.
  Proof. induction l; intros [|i] b H; cbn in *; try discriminate; auto; [congruence|]. f_equal. auto. Qed.

  Lemma table_conform : forall d table, table_ok d table -> conform d.
  Proof.
    intros d table (Hk & Hf & Ha & Hs). unfold conform. rewrite Hk, Hf, Ha, <- Hs. clear.
    induction table as [|f t IH]; cbn [map]; constructor; auto. exists f. auto.
  Qed.

  Lemma replace_ok : forall b a i r, represents b a -> replaceable ft (kr_signatures kr) i r ->
    exists b', replace_buffered b i r = Some (Ok b') /\ represents b' (mc_replace i (replacing r) a).
  Proof.
    intros b a i r (Ht & Hni & Hno & Hdbl & Hnext & Hin & Hout & Hbot & Hso & Hbytes & Hprog) [Hsig Hft].
    assert (Hi : i < length (kr_funcs kr)).
    { assert (i < length (kr_signatures kr)) by (apply nth_error_Some; congruence).
      unfold kr_signatures in H. rewrite map_length in H. auto. }
    set (table' := update (mc_table a) i (replacing r)).
    assert (Hr : exists d', replace (b_dispatcher b) i r = Some (Ok d') /\ table_ok d' table').
    { pose proof Ht as (Hk & Hf & Ha & Hs). destruct w_bounds as (_ & _ & Hsize).
      eexists. split.
      - unfold replace. rewrite at17_nth_error, Hk, Hsig. unfold d_size. rewrite Hk, Hsize.
        fold (replacing r). rewrite sig_eqb_refl.
        destruct (Nat.ltb_spec i (length (kr_funcs kr))); [|lia]. cbn [andb].
        unfold assign_action. rewrite Ha, map_length, (table_length _ _ Ht).
        destruct (Nat.ltb_spec i (length (kr_funcs kr))); [|lia]. rewrite Hf, Hk.
        instantiate (1 := mk_dispatcher kr ft (set_nth (map (make_action ft (kr_e kr) (kr_m kr)) (mc_table a)) i
                            (make_action ft (kr_e kr) (kr_m kr) (replacing r)))).
        destruct r; [reflexivity|]. cbn [replacing] in *. rewrite Hft. reflexivity.
      - unfold table_ok. cbn [d_keyring d_features d_actions]. split; auto. split; auto.
        unfold table'. rewrite update_set_nth. split; [rewrite map_set_nth; reflexivity|].
        rewrite map_set_nth, Hs. apply set_nth_id. auto. }
    destruct Hr as (d' & E & Ht'). unfold replace_buffered. rewrite E. eexists. split; [reflexivity|].
    unfold represents, mc_replace, progress in *.
    cbn [b_dispatcher b_bufs b_ibuf_next b_obuf_next b_obuf_bottom b_is_index_loaded b_load_count mc_in mc_out mc_table].
    fold table'. do 10 (split; [solve [auto]|]).
    destruct (b_is_index_loaded b); auto. destruct Hprog as (f & Hd & H1 & H2 & H3).
    (* the designated callback may be the replaced one: same signature *)
    set (j := Z.to_nat (wire_value (fm_e fm) (firstn (fm_w fm) (mc_in a)))) in *.
    assert (Hd' : nth_error (mc_table a) j = Some f) by exact Hd.
    exists (if i =? j then replacing r else f). unfold designated. fold j.
    unfold table'. rewrite update_set_nth. destruct (Nat.eqb_spec i j) as [->|Hne].
    - rewrite set_nth_same by (rewrite (table_length _ _ Ht); auto).
      assert (Es : f_sig (replacing r) = f_sig f).
      { destruct Ht as (_ & _ & _ & Hs). rewrite <- Hs, nth_error_map, Hd' in Hsig. cbn [option_map] in Hsig.
        congruence. }
      unfold params in *. rewrite Es. auto.
    - rewrite set_nth_other by auto. auto.
  Qed.

  (** Operations which receive bytes need a calm dispatcher. *)
  Definition allowed (o : op X) (a : machine X) : Prop := dbl = true \/ half_duplex o a.

  Lemma step_refines : forall o b a x, represents b a ->
    step_ok fm p ft (kr_signatures kr) o a x -> allowed o a ->
    agrees (step p o b x) (mc_step fm o a x).
  Proof.
    intros o b a x Hr Hok Hal. destruct o as [byte| | |src|dest|src dest|i r|g|]; cbn [step mc_step step_ok half_duplex] in *.
    - destruct Hok as [Hb Hs]. pose proof (put_ok b a x byte Hr Hb Hal Hs) as H.
      destruct (mc_put fm byte a x) as [[a' x'] s]. destruct H as (b' & E & Hr'). rewrite E. exists b'. auto.
    - destruct (get_byte_ok b a Hr) as (b' & E & Hr'). rewrite E.
      destruct (mc_get a) as [a' v]. exists b'. auto.
    - exists b. rewrite (is_loaded_ok b a Hr). auto.
    - pose proof (read_from_ok src b a x Hr Hal Hok) as H. unfold agrees in *.
      destruct (mc_read fm src a x) as [[[a' x'] s]|f]; cbn [bind].
      + destruct H as (b' & E & Hr'). rewrite E. exists b'. auto.
      + rewrite H. reflexivity.
    - unfold agrees, mc_write. rewrite (write_to_ok _ dest b a x Hr).
      destruct (push dest (mc_out a) x) as [x'|f]; cbn [bind]; auto.
      eexists. split; [reflexivity|]. apply advance_all. auto.
    - pose proof (process_ok src dest b a x Hr Hal Hok) as H. unfold agrees in *.
      destruct (mc_process fm src dest a x) as [[[a' x'] s]|f]; cbn [bind].
      + destruct H as (b' & E & Hr'). rewrite E. exists b'. auto.
      + rewrite H. reflexivity.
    - destruct (replace_ok b a i r Hr Hok) as (b' & E & Hr'). rewrite E. exists b'. auto.
    - exists b. auto.
    - exists b. split; auto. destruct b as [[? ? ?] ? ? ? ? ? ?]. reflexivity.
  Qed.

  Lemma run_refines : forall ops b a x, represents b a ->
    along fm (fun o a x => step_ok fm p ft (kr_signatures kr) o a x /\ allowed o a) ops a x ->
    agrees (run_ops p ops b x) (mc_run fm ops a x).
  Proof.
    induction ops as [|o ops IH]; intros b a x Hr Hal; cbn [run_ops mc_run along] in *.
    - exists b. auto.
    - destruct Hal as [[Hok Hallow] Hrest]. pose proof (step_refines o b a x Hr Hok Hallow) as H.
      unfold agrees in H |- *. destruct (mc_step fm o a x) as [[[a1 x1] v]|f]; cbn [bind].
      + destruct H as (b1 & E & Hr1). rewrite E. cbn [bind].
        specialize (IH b1 a1 x1 Hr1 (Hrest a1 x1 v eq_refl)). unfold agrees in IH.
        destruct (mc_run fm ops a1 x1) as [[[a2 x2] vs]|f]; cbn [bind].
        * destruct IH as (b2 & E2 & Hr2). rewrite E2. exists b2. auto.
        * rewrite IH. reflexivity.
      + rewrite H. reflexivity.
  Qed.

  (** A dispatcher which was just constructed. *)
  Lemma init_represents : forall bufs, length (ibuf bufs) = ni -> length (obuf bufs) = no ->
    is_double bufs = dbl ->
    represents (init_buffered (make_dispatcher kr ft) bufs) (mk_machine [] [] (map snd (kr_funcs kr))).
  Proof.
    intros bufs H1 H2 H3. unfold represents, init_buffered, progress, index_length.
    cbn [b_dispatcher b_bufs b_ibuf_next b_obuf_next b_obuf_bottom b_is_index_loaded b_load_count mc_in mc_out mc_table
         make_dispatcher d_keyring].
    split.
    { unfold table_ok, make_dispatcher. cbn [d_keyring d_features d_actions]. rewrite !map_map.
      repeat (split; auto). }
    do 4 (split; [solve [auto]|]). cbn [length]. split; [unfold slice; reflexivity|]. split; [reflexivity|].
    split; [lia|]. split; [unfold slice; reflexivity|]. split; [constructor|].
    destruct w_bounds as (Hw & _). fold w. lia.
  Qed.
End Refinement.
