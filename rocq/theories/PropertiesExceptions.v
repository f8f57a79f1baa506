(** Properties C54 to C56: byte getters, byte putters and callbacks which throw. *)

From Coq Require Import List ZArith Lia Bool Arith.
From Verif Require Import Base CInt Spec IntModel Conditions MemFacts TypeLevel Serial TupleModel
  TypeLevelProofs IntProofs SignedProofs SerialProofs CodecFacts Bounds TupleProofs SpecRpc Rpc RpcProofs
  Hosts Closed PropertiesTypes PropertiesRpc Buffered SpecBuffered BufferedProofs PropertiesBuffered Exceptions.
Import ListNotations.
Open Scope nat_scope.

(** ** Loops *)

Lemma store_room : forall mem i b m, store mem i b = Ok m -> i < length mem /\ length m = length mem.
Proof.
  intros mem i b m H. destruct (Nat.lt_ge_cases i (length mem)) as [Hi|Hi].
  - split; auto. rewrite store_ok in H by auto. injection H as <-. apply splice_length. cbn. lia.
  - rewrite store_oob in H by auto. discriminate.
Qed.

Section Loops.
  Context {X : Type}.
  Variables (p : platform) (size_max : nat) (throws : throwing X).
  Notation put_e := (put_e p size_max throws).
  Notation read_index_e := (read_index_e p size_max throws).
  Notation read_payload_e := (read_payload_e p size_max throws).
  Notation read_from_e := (read_from_e p size_max throws).

  Lemma resolve_inv : forall b x b' x' o, resolve p throws b x = Ok (b', x', o) ->
    o = Thrown \/ (o = Returned RESOLVED_PACKET /\ b_is_index_loaded b' = false).
  Proof.
    intros b x b' x' o H. unfold resolve in H. ok_inv H r. destruct r as [[b1 x1] o1]. injection H as -> -> <-.
    unfold call_e in E. ok_inv E r. destruct r as [w1 i]. ok_inv E a. ok_inv E t. destruct t as [y|].
    - injection E as <- _ <-. auto.
    - ok_inv E w2. injection E as <- _ <-. right. auto.
  Qed.

  Lemma put_e_inv : forall byte b x b' x' o, put_e byte b x = Ok (b', x', o) ->
    match o with
    | Thrown => True
    | Returned LOADING_PACKET =>
        b_ibuf_next b < length (ibuf (b_bufs b)) /\ b_ibuf_next b' = S (b_ibuf_next b)
        /\ length (ibuf (b_bufs b')) = length (ibuf (b_bufs b))
        /\ (b_is_index_loaded b = true -> b_is_index_loaded b' = true)
    | Returned _ => b_is_index_loaded b' = false
    end.
  Proof.
    intros byte b x b' x' o H. unfold Exceptions.put_e in H. ok_inv H m.
    destruct (store_room _ _ _ _ E) as [H1 H2].
    assert (R : forall b1, resolve p throws b1 x = Ok (b', x', o) ->
      match o with Thrown => True | Returned LOADING_PACKET => False | Returned _ => b_is_index_loaded b' = false end).
    { intros b1 Hr. destruct (resolve_inv _ _ _ _ _ Hr) as [-> | [-> Hl]]; auto. }
    assert (R' : forall b1, resolve p throws b1 x = Ok (b', x', o) ->
      match o with
      | Thrown => True
      | Returned LOADING_PACKET =>
          b_ibuf_next b < length (ibuf (b_bufs b)) /\ b_ibuf_next b' = S (b_ibuf_next b)
          /\ length (ibuf (b_bufs b')) = length (ibuf (b_bufs b))
          /\ (b_is_index_loaded b = true -> b_is_index_loaded b' = true)
      | Returned _ => b_is_index_loaded b' = false
      end).
    { intros b1 Hr. specialize (R b1 Hr). destruct o as [[]|]; auto. contradiction. }
    destruct (0 <? _).
    - injection H as <- _ <-. cbn [b_ibuf_next b_bufs b_is_index_loaded]. rewrite ibuf_set_ibuf. auto.
    - destruct (b_is_index_loaded b) eqn:El; [apply (R' _ H)|].
      ok_inv H r. destruct r as [w i]. destruct (i <? _).
      + ok_inv H a. ok_inv H n. destruct (n =? 0); [apply (R' _ H)|].
        injection H as <- _ <-. cbn [b_ibuf_next b_bufs b_is_index_loaded]. rewrite ibuf_set_ibuf. auto.
      + injection H as <- _ <-. reflexivity.
  Qed.

  Lemma read_index_e_fuel : forall src n fuel b x s,
    length (ibuf (b_bufs b)) - b_ibuf_next b < n -> n <= fuel ->
    read_index_e fuel src b x s = read_index_e n src b x s.
  Proof.
    intros src. induction n as [|n IH]; intros fuel b x s H1 H2; [lia|].
    destruct fuel as [|fuel]; [lia|]. cbn [Exceptions.read_index_e].
    destruct (negb (b_is_index_loaded b) && is_loading s) eqn:E; auto.
    destruct (src x) as [[x1 [byte|]]|]; cbn [bind]; auto.
    destruct (put_e byte b x1) as [[[b' x2] o']|] eqn:Ep; cbn [bind]; auto.
    apply put_e_inv in Ep. destruct o' as [[]|]; auto.
    - apply IH; lia.
    - destruct n, fuel; cbn [Exceptions.read_index_e is_loading]; rewrite andb_false_r; reflexivity.
    - destruct n, fuel; cbn [Exceptions.read_index_e is_loading]; rewrite andb_false_r; reflexivity.
  Qed.

  Lemma read_payload_e_fuel : forall src n fuel b x s,
    length (ibuf (b_bufs b)) - b_ibuf_next b < n -> n <= fuel ->
    read_payload_e fuel src b x s = read_payload_e n src b x s.
  Proof.
    intros src. induction n as [|n IH]; intros fuel b x s H1 H2; [lia|].
    destruct fuel as [|fuel]; [lia|]. cbn [Exceptions.read_payload_e].
    destruct (b_is_index_loaded b) eqn:E; auto.
    destruct (src x) as [[x1 [byte|]]|]; cbn [bind]; auto.
    destruct (put_e byte b x1) as [[[b' x2] o']|] eqn:Ep; cbn [bind]; auto.
    apply put_e_inv in Ep. destruct o' as [[]|]; auto.
    - apply IH; lia.
    - destruct n, fuel; cbn [Exceptions.read_payload_e]; rewrite Ep; reflexivity.
    - destruct n, fuel; cbn [Exceptions.read_payload_e]; rewrite Ep; reflexivity.
  Qed.

  (** The status read before the payload does not matter. *)
  Lemma read_payload_e_status : forall src n b x s s', b_is_index_loaded b = true ->
    read_payload_e n src b x s = read_payload_e n src b x s'.
  Proof. intros src [|n] b x s s' H; cbn [Exceptions.read_payload_e]; rewrite H; reflexivity. Qed.

  (** ** One byte of [read_from] *)

  Lemma read_thrown : forall src b x x', src x = Ok (x', Thrown) -> read_from_e src b x = Ok (b, x', Thrown).
  Proof.
    intros src b x x' H. unfold Exceptions.read_from_e. cbn [Exceptions.read_index_e is_loading].
    destruct (b_is_index_loaded b) eqn:El; cbn [negb andb bind].
    - cbn [Exceptions.read_payload_e]. rewrite El, H. reflexivity.
    - rewrite H. reflexivity.
  Qed.

  Lemma read_next : forall src b x x1 byte, src x = Ok (x1, Returned byte) ->
    read_from_e src b x =
      match put_e byte b x1 with
      | Ok (b', x', Returned LOADING_PACKET) => read_from_e src b' x'
      | r => r
      end.
  Proof.
    intros src b x x1 byte H. unfold Exceptions.read_from_e at 1. cbn [Exceptions.read_index_e is_loading].
    destruct (b_is_index_loaded b) eqn:El; cbn [negb andb bind].
    - cbn [Exceptions.read_payload_e]. rewrite El, H. cbn [bind].
      destruct (put_e byte b x1) as [[[b' x2] o']|] eqn:Ep; cbn [bind]; auto.
      apply put_e_inv in Ep. destruct o' as [[]|]; auto.
      + destruct Ep as (H1 & H2 & H3 & H4). specialize (H4 El).
        unfold Exceptions.read_from_e. cbn [Exceptions.read_index_e is_loading]. rewrite H4. cbn [negb andb bind].
        symmetry. apply read_payload_e_fuel; lia.
      + destruct (length (ibuf (b_bufs b))); cbn [Exceptions.read_payload_e]; rewrite Ep; reflexivity.
      + destruct (length (ibuf (b_bufs b))); cbn [Exceptions.read_payload_e]; rewrite Ep; reflexivity.
    - rewrite H. cbn [bind].
      destruct (put_e byte b x1) as [[[b' x2] o']|] eqn:Ep; cbn [bind]; auto.
      apply put_e_inv in Ep. destruct o' as [[]|]; auto.
      + destruct Ep as (H1 & H2 & H3 & H4). unfold Exceptions.read_from_e. rewrite H3.
        rewrite (read_index_e_fuel src (length (ibuf (b_bufs b))) (S (length (ibuf (b_bufs b))))) by lia.
        reflexivity.
      + replace (read_index_e (length (ibuf (b_bufs b))) src b' x2 DROPPED_PACKET)
          with (Ok (b', x2, Returned DROPPED_PACKET) : res (buffered X * X * outcome packet_status))
          by (destruct (length (ibuf (b_bufs b))); cbn [Exceptions.read_index_e is_loading];
              rewrite andb_false_r; reflexivity).
        cbn [bind]. cbn [Exceptions.read_payload_e]. rewrite Ep. reflexivity.
      + replace (read_index_e (length (ibuf (b_bufs b))) src b' x2 RESOLVED_PACKET)
          with (Ok (b', x2, Returned RESOLVED_PACKET) : res (buffered X * X * outcome packet_status))
          by (destruct (length (ibuf (b_bufs b))); cbn [Exceptions.read_index_e is_loading];
              rewrite andb_false_r; reflexivity).
        cbn [bind]. cbn [Exceptions.read_payload_e]. rewrite Ep. reflexivity.
  Qed.
End Loops.

(** ** One call of [put] *)

(** The index at the beginning of a request. *)
Definition index_of (fm : format) (bs : list Z) : nat := Z.to_nat (wire_value (fm_e fm) (firstn (fm_w fm) bs)).

(** Whether the callback throws, once [bs] has been received, and the world it
    leaves. *)
Definition thrown {X : Type} (fm : format) (throws : throwing X) (table : list (func X)) (bs : list Z) (x : X)
    : option X :=
  match examine fm table bs with
  | Request f payload => throws (index_of fm bs) (dec_list (fm_e fm) (fm_m fm) (params f) payload) x
  | _ => None
  end.

(** The arguments of a complete request can be decoded. *)
Definition receivable {X : Type} (fm : format) (p : platform) (table : list (func X)) (bs : list Z) : Prop :=
  match examine fm table bs with
  | Request f payload => decodable_list p (fm_e fm) (fm_m fm) (params f) payload
  | _ => True
  end.

Lemma servable_receivable : forall (X : Type) fm p (table : list (func X)) bs x,
  servable fm p table bs x -> receivable fm p table bs.
Proof.
  intros X fm p table bs x H. unfold servable, receivable in *. destruct (examine fm table bs); auto. apply H.
Qed.

Definition returning {X : Type} (r : res (buffered X * X * packet_status))
    : res (buffered X * X * outcome packet_status) :=
  '(b, x, s) <- r;; Ok (b, x, Returned s).

Section Put.
  Context {X : Type}.
  Variables (p : platform) (size_max : nat) (throws : throwing X).
  Variable kr : keyring X.
  Variable ft : action_features.
  Variables ni no : nat.
  Variable dbl : bool.
  Hypothesis Hp : wf_platform p.
  Hypothesis Hkr : keyring_ok p kr.
  Hypothesis Hroom : kr_index_size kr <= ni.
  Hypothesis Hframing : Forall (framing_ok ft ni no (kr_index_size kr)) (kr_signatures kr).

  Let fm := format_of kr.
  Let w := kr_index_size kr.

  Lemma call_e_ok : forall b table bs (f : func X) payload x,
    table_ok kr ft (b_dispatcher b) table ->
    length (ibuf (b_bufs b)) = ni ->
    examine fm table bs = Request f payload -> length bs = w + wire_sizes (params f) ->
    slice (ibuf (b_bufs b)) 0 (length bs) = bs -> Forall is_byte bs ->
    decodable_list p (kr_e kr) (kr_m kr) (params f) payload ->
    call_e p throws b x =
      match throws (index_of fm bs) (dec_list (kr_e kr) (kr_m kr) (params f) payload) x with
      | Some x' =>
          Ok (mk_buffered (b_dispatcher b) (b_is_index_loaded b) (b_load_count b) (b_ibuf_next b) 0 0 (b_bufs b),
              x', Thrown)
      | None => '(b', x') <- call_loaded p b x;; Ok (b', x', Returned tt)
      end.
  Proof.
    intros b table bs f payload x Ht Hni Hex Hlen Hs Hb Hd.
    unfold examine in Hex. cbn [fm format_of fm_w] in Hex. fold w in Hex.
    destruct (Nat.ltb_spec (length bs) w); [discriminate|].
    destruct (designated fm table bs) as [g|] eqn:Edes; [|discriminate].
    destruct (Nat.ltb_spec (length bs) (w + wire_sizes (params g))); [discriminate|].
    injection Hex as -> <-.
    unfold designated in Edes. cbn [fm format_of fm_w fm_e] in Edes. fold w in Edes.
    destruct (table_sig p kr ft ni no Hkr Hframing _ _ _ _ Ht Edes) as [Hsig (Hweak & Hfi & Hfo)].
    unfold call_e, call_loaded.
    rewrite (get_index_frame p kr ft ni Hp Hkr Hroom _ table _ _ _ bs); auto; [|unfold params in Hlen; lia].
    cbn [bind]. fold w.
    unfold action_at, framed_dispatcher. cbn [d_actions].
    pose proof Ht as (Hk & Hf & Ha & Hsigs). rewrite Ha, map_map, nth_error_map, Edes. cbn [option_map bind].
    rewrite (framed_action_make kr ft ni no Hframing).
    assert (Ep : pull ibuf_source (wire_sizes (params f)) (mk_frame (b_bufs b) w 0 x)
                 = Ok (mk_frame (b_bufs b) (w + wire_sizes (params f)) 0 x, skipn w bs)).
    { rewrite pull_frame by (unfold params in *; lia). do 2 f_equal.
      transitivity (skipn w (slice (ibuf (b_bufs b)) 0 (length bs))); [|rewrite Hs; reflexivity].
      rewrite skipn_slice. cbn [Nat.add]. f_equal. lia. }
    replace (thrown_by p throws (Z.to_nat (wire_value (kr_e kr) (firstn w bs)))
               (make_action ft (kr_e kr) (kr_m kr) (framed f)) (mk_frame (b_bufs b) w 0 x))
      with (Ok (throws (index_of fm bs) (dec_list (kr_e kr) (kr_m kr) (params f) (skipn w bs)) x) : res (option X)).
    - cbn [bind]. destruct (throws _ _ x); [reflexivity|].
      destruct (run p _ ibuf_source obuf_destination _) as [w2|]; reflexivity.
    - unfold thrown_by.
      replace (match make_action ft (kr_e kr) (kr_m kr) (framed f) with Storage o => o | NoStorage c => Some c end)
        with (Some (mk_model (kr_e kr) (kr_m kr) (framed f))) by (destruct ft; reflexivity).
      cbn [m_e m_m m_func]. change (f_sig (framed f)) with (f_sig f). fold (params f).
      destruct Hsig as [Hsp _]. rewrite read_tuple_ok by auto. rewrite Ep. cbn [bind].
      rewrite (invoke_decodes p (kr_e kr) (kr_m kr)); auto.
      + rewrite skipn_length. unfold params in *. lia.
      + apply skipn_bytes. auto.
  Qed.

  (** The state after the callback has thrown. *)
  Definition after_throw (b : buffered X) (a : machine X) (byte : Z) : buffered X :=
    mk_buffered (b_dispatcher b) true 0 (S (length (mc_in a))) 0 0
      (set_ibuf (splice (ibuf (b_bufs b)) (length (mc_in a)) [byte]) (b_bufs b)).

  Lemma put_e_ok : forall b a x byte, represents kr ft ni no dbl b a -> is_byte byte ->
    receivable fm p (mc_table a) (mc_in a ++ [byte]) ->
    put_e p size_max throws byte b x =
      match thrown fm throws (mc_table a) (mc_in a ++ [byte]) x with
      | Some x' => Ok (after_throw b a byte, x', Thrown)
      | None => returning (put p byte b x)
      end.
  Proof.
    intros b a x byte (Ht & Hni & Hno & Hdbl & Hnext & Hin & Hout & Hbot & Hso & Hbytes & Hprog) Hbyte Hrec.
    destruct (w_bounds p kr Hkr) as (Hw & _ & Hsize). fold w in Hw.
    set (bs := mc_in a ++ [byte]) in *.
    assert (Hlbs : length bs = S (length (mc_in a))).
    { unfold bs. rewrite app_length. cbn. lia. }
    assert (Hbs : Forall is_byte bs) by (apply Forall_app; auto).
    assert (Hfree : length bs <= ni /\ 1 <= b_load_count b).
    { unfold progress in Hprog. fold w in Hprog. fold w in Hroom. destruct (b_is_index_loaded b).
      - destruct Hprog as (f & Hd & H1 & H2 & H3). unfold designated in Hd.
        destruct (table_sig p kr ft ni no Hkr Hframing _ _ _ _ Ht Hd) as [_ (_ & Hf & _)].
        fold w in Hf. unfold params in *. lia.
      - destruct Hprog as [H1 H2]. lia. }
    destruct Hfree as [Hfree Hcount].
    set (m1 := splice (ibuf (b_bufs b)) (length (mc_in a)) [byte]) in *.
    assert (Hst : store (ibuf (b_bufs b)) (b_ibuf_next b) byte = Ok m1).
    { rewrite Hnext. apply store_ok. lia. }
    set (bufs1 := set_ibuf m1 (b_bufs b)).
    assert (Hm1 : ibuf bufs1 = m1) by apply ibuf_set_ibuf.
    assert (Hl1 : length m1 = ni) by (unfold m1; rewrite splice_length; cbn; lia).
    assert (Hni1 : length (ibuf bufs1) = ni) by congruence.
    assert (Hin1 : slice (ibuf bufs1) 0 (length bs) = bs).
    { rewrite Hm1, Hlbs. replace (S (length (mc_in a))) with (length (mc_in a) + 1) by lia.
      rewrite slice_app by lia. unfold bs. cbn [Nat.add]. f_equal.
      - transitivity (slice (ibuf (b_bufs b)) 0 (length (mc_in a))); auto.
        unfold m1. apply slice_splice_disjoint; cbn; lia.
      - unfold m1. apply (slice_splice_same _ _ [byte]). cbn. lia. }
    assert (Hcall : forall b1 f payload, b_dispatcher b1 = b_dispatcher b -> b_bufs b1 = bufs1 ->
              b_is_index_loaded b1 = true -> b_load_count b1 = 0 -> b_ibuf_next b1 = S (b_ibuf_next b) ->
              examine fm (mc_table a) bs = Request f payload -> length bs = w + wire_sizes (params f) ->
              resolve p throws b1 x =
              match thrown fm throws (mc_table a) bs x with
              | Some x' => Ok (after_throw b a byte, x', Thrown)
              | None => returning ('(b2, y) <- call_loaded p b1 x;; Ok (b2, y, RESOLVED_PACKET))
              end).
    { intros b1 f payload E1 E2 E3 E4 E5 Hex Hlen. unfold thrown, receivable in *. rewrite Hex in *.
      cbn [fm format_of fm_e fm_m] in Hrec |- *. fold fm. unfold resolve.
      rewrite (call_e_ok b1 (mc_table a) bs f payload x) by (rewrite ?E1, ?E2; auto).
      destruct (throws _ _ x) as [x'|].
      - cbn [bind]. unfold after_throw. fold m1. fold bufs1. rewrite E1, E2, E3, E4, E5, Hnext. reflexivity.
      - destruct (call_loaded p b1 x) as [[b2 y]|]; reflexivity. }
    assert (Hthrown : (forall f payload, examine fm (mc_table a) bs <> Request f payload) ->
              thrown fm throws (mc_table a) bs x = None).
    { intros H. unfold thrown. destruct (examine fm (mc_table a) bs) as [| |f pl]; auto. exfalso. apply (H f pl). reflexivity. }
    assert (Hgi : w <= length bs ->
              get_index p (framed_dispatcher (b_dispatcher b)) ibuf_source (mk_frame bufs1 0 0 x)
              = Ok (mk_frame bufs1 w 0 x, Z.to_nat (wire_value (kr_e kr) (firstn w bs)))).
    { intros Hwl. apply (get_index_frame p kr ft ni Hp Hkr Hroom _ (mc_table a)); auto. lia. }
    unfold put_e, put. rewrite Hst. cbn [bind]. fold bufs1.
    destruct (b_load_count b) as [|count] eqn:Ecount; [lia|].
    unfold progress in Hprog. fold w fm in Hprog. rewrite Ecount in Hprog. destruct (b_is_index_loaded b) eqn:Eloaded.
    - destruct Hprog as (f & Hd & H1 & H2 & H3).
      assert (Hd' : designated fm (mc_table a) bs = Some f) by (unfold bs; rewrite (designated_app kr ni Hroom); auto).
      destruct (Nat.ltb_spec 0 count) as [Hc|Hc].
      + rewrite Hthrown; [reflexivity|]. intros g pl. unfold examine. cbn [fm format_of fm_w]. fold w.
        destruct (Nat.ltb_spec (length bs) w); [discriminate|]. fold fm. rewrite Hd'.
        destruct (Nat.ltb_spec (length bs) (w + wire_sizes (params f))); [discriminate|]. lia.
      + apply (Hcall _ f (skipn w bs)); auto; cbn [b_load_count]; try lia.
        unfold examine. cbn [fm format_of fm_w]. fold w. destruct (Nat.ltb_spec (length bs) w); [lia|].
        fold fm. rewrite Hd'. destruct (Nat.ltb_spec (length bs) (w + wire_sizes (params f))); [lia|]. auto.
    - destruct Hprog as [H1 H2]. destruct (Nat.ltb_spec 0 count) as [Hc|Hc].
      + rewrite Hthrown; [reflexivity|]. intros g pl. unfold examine. cbn [fm format_of fm_w]. fold w.
        destruct (Nat.ltb_spec (length bs) w); [discriminate|]. lia.
      + assert (Hlen : length bs = w) by lia. rewrite Hgi by lia. cbn [bind].
        rewrite (d_size_ok p kr ft Hkr _ _ Ht).
        assert (Edes : designated fm (mc_table a) bs
                       = nth_error (mc_table a) (Z.to_nat (wire_value (kr_e kr) (firstn w bs)))) by reflexivity.
        set (i := Z.to_nat (wire_value (kr_e kr) (firstn w bs))) in *.
        destruct (Nat.ltb_spec i (length (mc_table a))) as [Hi|Hi].
        * destruct (nth_error (mc_table a) i) as [f|] eqn:Ef.
          2:{ apply nth_error_None in Ef. lia. }
          destruct (input_size_ok p kr ft ni no Hkr Hframing _ _ _ _ Ht Ef) as [Ea Es].
          rewrite Ea. cbn [bind]. rewrite Es. cbn [bind].
          destruct (Nat.eqb_spec (wire_sizes (params f)) 0) as [Hz|Hz].
          -- apply (Hcall _ f (skipn w bs)); auto; try lia.
             unfold examine. cbn [fm format_of fm_w]. fold w. destruct (Nat.ltb_spec (length bs) w); [lia|].
             fold fm. rewrite Edes. destruct (Nat.ltb_spec (length bs) (w + wire_sizes (params f))); [lia|]. auto.
          -- rewrite Hthrown; [reflexivity|]. intros g pl. unfold examine. cbn [fm format_of fm_w]. fold w.
             destruct (Nat.ltb_spec (length bs) w); [discriminate|]. fold fm. rewrite Edes.
             destruct (Nat.ltb_spec (length bs) (w + wire_sizes (params f))); [discriminate|]. lia.
        * rewrite Hthrown; [reflexivity|]. intros g pl. unfold examine. cbn [fm format_of fm_w]. fold w.
          destruct (Nat.ltb_spec (length bs) w); [discriminate|]. fold fm. rewrite Edes.
          apply nth_error_None in Hi. rewrite Hi. discriminate.
  Qed.
End Put.

(** ** Getters and putters *)

(** Used repeatedly, the getter returns the bytes [bs] and leaves the world [y]. *)
Inductive yields {X : Type} (src : esource X) : X -> list Z -> X -> Prop :=
| yields_nil : forall x, yields src x [] x
| yields_cons : forall x x1 b bs y, src x = Ok (x1, Returned b) -> yields src x1 bs y -> yields src x (b :: bs) y.

(** The putter takes the bytes [bs] and leaves the world [y]. *)
Inductive accepts {X : Type} (dest : edestination X) : X -> list Z -> X -> Prop :=
| accepts_nil : forall x, accepts dest x [] x
| accepts_cons : forall x x1 b bs y, dest b x = Ok (x1, Returned tt) -> accepts dest x1 bs y -> accepts dest x (b :: bs) y.

Lemma examine_prefix : forall (X : Type) fm (table : list (func X)) l l',
  examine fm table (l ++ l') = Incomplete -> examine fm table l = Incomplete.
Proof.
  intros X fm table l l' H. unfold examine in *. rewrite app_length in H.
  destruct (Nat.ltb_spec (length l) (fm_w fm)); auto.
  destruct (Nat.ltb_spec (length l + length l') (fm_w fm)); [lia|].
  assert (E : designated fm table (l ++ l') = designated fm table l).
  { unfold designated. rewrite firstn_app. replace (fm_w fm - length l) with 0 by lia. cbn [firstn].
    rewrite app_nil_r. reflexivity. }
  rewrite E in H. destruct (designated fm table l) as [f|]; auto.
  destruct (Nat.ltb_spec (length l) (fm_w fm + wire_sizes (params f))); auto.
  destruct (Nat.ltb_spec (length l + length l') (fm_w fm + wire_sizes (params f))); [lia|discriminate].
Qed.

Section Reached.
  Context {X : Type}.
  Variables (p : platform) (size_max : nat) (throws : throwing X) (dbl : bool) (kr : keyring X) (ft : action_features).
  Hypothesis Hp : wf_platform p.
  Hypothesis Hk : keyring_ok p kr.
  Hypothesis Hs : well_sized dbl kr ft.
  Let fm := format_of kr.
  Notation read_from_e := (read_from_e p size_max throws).
  Notation put_e := (put_e p size_max throws).

  Lemma reached_outside : forall b a x y, reached p dbl kr ft b a x -> reached p dbl kr ft b a y.
  Proof.
    intros b a x y H.
    destruct (reached_step p dbl kr ft Hp Hk Hs (Outside (fun _ => y)) b a x a y ONone H) as (b' & E & H').
    - split; [exact I|]. right. exact I.
    - reflexivity.
    - cbn [step] in E. assert (b' = b) by congruence. subst. exact H'.
  Qed.

  Lemma reached_put_thrown : forall b a x byte x', reached p dbl kr ft b a x -> is_byte byte ->
    receivable fm p (mc_table a) (mc_in a ++ [byte]) ->
    thrown fm throws (mc_table a) (mc_in a ++ [byte]) x = Some x' ->
    put_e byte b x = Ok (after_throw b a byte, x', Thrown).
  Proof.
    intros b a x byte x' H Hb Hr Ht. destruct (reached_represents p dbl kr ft Hp Hk Hs b a x H) as (ni & no & Hw & Hf & Hrep).
    rewrite (put_e_ok p size_max throws kr ft ni no dbl Hp Hk Hw Hf b a x byte Hrep Hb Hr). fold fm. rewrite Ht. reflexivity.
  Qed.

  Lemma reached_put_returns : forall b a x byte a' x' s, reached p dbl kr ft b a x -> is_byte byte ->
    (dbl = true \/ mc_out a = []) -> servable fm p (mc_table a) (mc_in a ++ [byte]) x ->
    thrown fm throws (mc_table a) (mc_in a ++ [byte]) x = None ->
    mc_put fm byte a x = (a', x', s) ->
    exists b', put_e byte b x = Ok (b', x', Returned s) /\ put p byte b x = Ok (b', x', s) /\ reached p dbl kr ft b' a' x'.
  Proof.
    intros b a x byte a' x' s H Hb Hc Hserv Ht Em.
    destruct (reached_step p dbl kr ft Hp Hk Hs (Put byte) b a x a' x' (OStatus s) H) as (b' & E & H').
    - split; [split; auto|]. destruct Hc; [left; auto|right; auto].
    - cbn [mc_step]. fold fm. rewrite Em. reflexivity.
    - cbn [step] in E. ok_inv E r. destruct r as [[b1 x1] s1].
      assert (Eq : (b1, x1, s1) = (b', x', s)) by congruence.
      assert (b1 = b' /\ x1 = x' /\ s1 = s) as (-> & -> & ->) by (split; [|split]; congruence).
      exists b'. split; [|split; auto].
      destruct (reached_represents p dbl kr ft Hp Hk Hs b a x H) as (ni & no & Hw & Hf & Hrep).
      rewrite (put_e_ok p size_max throws kr ft ni no dbl Hp Hk Hw Hf b a x byte Hrep Hb).
      + fold fm. rewrite Ht. unfold returning. rewrite E0. reflexivity.
      + apply servable_receivable with (x := x). exact Hserv.
  Qed.

  (** A prefix of a request. *)
  Lemma read_prefix : forall src bs b a x x1, reached p dbl kr ft b a x -> (dbl = true \/ mc_out a = []) ->
    yields src x bs x1 -> Forall is_byte bs -> examine fm (mc_table a) (mc_in a ++ bs) = Incomplete ->
    exists b1, reached p dbl kr ft b1 (mk_machine (mc_in a ++ bs) (mc_out a) (mc_table a)) x1
      /\ read_from_e src b x = read_from_e src b1 x1.
  Proof.
    intros src. induction bs as [|byte bs IH]; intros b a x x1 H Hc Hy Hb Hex; inversion Hy; subst.
    - exists b. rewrite app_nil_r. destruct a as [i o t]. auto.
    - rename x2 into y. assert (Hex' : examine fm (mc_table a) (mc_in a ++ [byte]) = Incomplete).
      { apply examine_prefix with (l' := bs). rewrite <- app_assoc. exact Hex. }
      inversion Hb; subst.
      destruct (reached_put_returns b a y byte (mk_machine (mc_in a ++ [byte]) (mc_out a) (mc_table a)) y LOADING_PACKET)
        as (b' & Ep & _ & H'); auto.
      + apply reached_outside with (x := x). exact H.
      + unfold servable. rewrite Hex'. exact I.
      + unfold thrown. rewrite Hex'. reflexivity.
      + unfold mc_put, received. rewrite Hex'. reflexivity.
      + destruct (IH b' (mk_machine (mc_in a ++ [byte]) (mc_out a) (mc_table a)) y x1) as (b1 & H1 & E1);
          cbn [mc_in mc_out mc_table]; auto.
        * rewrite <- app_assoc. exact Hex.
        * exists b1. cbn [mc_in mc_out mc_table] in H1. rewrite <- app_assoc in H1. split; [exact H1|].
          rewrite (read_next p size_max throws src b x y byte) by auto. rewrite Ep. exact E1.
  Qed.
End Reached.

(** ** C54 *)

(** A byte getter throws in the middle of a request: the exception leaves
    [read_from], the bytes obtained before are kept, nothing else changes. *)
Theorem C54_getter_throws : forall (X : Type) p size_max throws dbl (kr : keyring X) ft b a x src bs x1 x2,
  wf_platform p -> keyring_ok p kr -> well_sized dbl kr ft -> reached p dbl kr ft b a x ->
  (dbl = true \/ mc_out a = []) ->
  yields src x bs x1 -> Forall is_byte bs -> src x1 = Ok (x2, Thrown) ->
  examine (format_of kr) (mc_table a) (mc_in a ++ bs) = Incomplete ->
  exists b', read_from_e p size_max throws src b x = Ok (b', x2, Thrown)
    /\ reached p dbl kr ft b' (mk_machine (mc_in a ++ bs) (mc_out a) (mc_table a)) x2.
Proof.
  intros X p size_max throws dbl kr ft b a x src bs x1 x2 Hp Hk Hs H Hc Hy Hb Ht Hex.
  destruct (read_prefix p size_max throws dbl kr ft Hp Hk Hs src bs b a x x1 H Hc Hy Hb Hex) as (b1 & H1 & E).
  exists b1. split.
  - rewrite E. apply read_thrown. exact Ht.
  - apply (reached_outside p dbl kr ft Hp Hk Hs) with (x := x1). exact H1.
Qed.

(** A getter which does not throw before the end of the request. *)
Theorem C54_getter_returns : forall (X : Type) p size_max throws dbl (kr : keyring X) ft b a x src bs last x1 a' x' s,
  wf_platform p -> keyring_ok p kr -> well_sized dbl kr ft -> reached p dbl kr ft b a x ->
  (dbl = true \/ mc_out a = []) ->
  yields src x (bs ++ [last]) x1 -> Forall is_byte (bs ++ [last]) ->
  examine (format_of kr) (mc_table a) (mc_in a ++ bs) = Incomplete ->
  examine (format_of kr) (mc_table a) (mc_in a ++ bs ++ [last]) <> Incomplete ->
  servable (format_of kr) p (mc_table a) (mc_in a ++ bs ++ [last]) x1 ->
  thrown (format_of kr) throws (mc_table a) (mc_in a ++ bs ++ [last]) x1 = None ->
  received (format_of kr) (mc_in a ++ bs ++ [last]) a x1 = (a', x', s) ->
  exists b', read_from_e p size_max throws src b x = Ok (b', x', Returned s)
    /\ reached p dbl kr ft b' a' x'.
Proof.
  intros X p size_max throws dbl kr ft b a x src bs last x1 a' x' s Hp Hk Hs H Hc Hy Hb Hex Hend Hserv Ht Er.
  assert (Hsplit : forall l y, yields src y (l ++ [last]) x1 -> exists y1, yields src y l y1 /\ src y1 = Ok (x1, Returned last)).
  { induction l as [|c l IH]; intros y Hyl; inversion Hyl; subst.
    - exists y. split; [constructor|]. inversion H5; subst. auto.
    - destruct (IH _ H5) as (y1 & Hy1 & E1). exists y1. split; auto. econstructor; eauto. }
  destruct (Hsplit bs x Hy) as (y1 & Hy1 & E1). apply Forall_app in Hb. destruct Hb as [Hb Hlast].
  inversion Hlast; subst.
  destruct (read_prefix p size_max throws dbl kr ft Hp Hk Hs src bs b a x y1 H Hc Hy1 Hb Hex) as (b1 & H1 & E).
  rewrite app_assoc in Hserv, Ht, Er, Hend.
  destruct (reached_put_returns p size_max throws dbl kr ft Hp Hk Hs b1
              (mk_machine (mc_in a ++ bs) (mc_out a) (mc_table a)) x1 last a' x' s) as (b' & Ep & _ & H'); auto.
  { apply (reached_outside p dbl kr ft Hp Hk Hs) with (x := y1). exact H1. }
  exists b'. split; auto. rewrite E. rewrite (read_next p size_max throws src b1 y1 x1 last E1), Ep.
  pose proof (received_end kr _ _ _ _ _ _ Hend Er) as [_ Hs'].
  destruct s; auto. congruence.
Qed.

(** Reading again, whatever happened in between, completes the request: the
    callback gets all the bytes. *)
Theorem C54_resumes : forall (X : Type) p size_max throws dbl (kr : keyring X) ft b a x src bs x1 x2
    src' y bs' last y1 a' x' s,
  wf_platform p -> keyring_ok p kr -> well_sized dbl kr ft -> reached p dbl kr ft b a x ->
  (dbl = true \/ mc_out a = []) ->
  (* the first getter throws after [bs] *)
  yields src x bs x1 -> Forall is_byte bs -> src x1 = Ok (x2, Thrown) ->
  (* the second one gives the rest *)
  yields src' y (bs' ++ [last]) y1 -> Forall is_byte (bs' ++ [last]) ->
  let request := mc_in a ++ bs ++ bs' ++ [last] in
  examine (format_of kr) (mc_table a) (mc_in a ++ bs ++ bs') = Incomplete ->
  examine (format_of kr) (mc_table a) request <> Incomplete ->
  servable (format_of kr) p (mc_table a) request y1 ->
  thrown (format_of kr) throws (mc_table a) request y1 = None ->
  received (format_of kr) request a y1 = (a', x', s) ->
  exists b1 b2,
    read_from_e p size_max throws src b x = Ok (b1, x2, Thrown)
    /\ read_from_e p size_max throws src' b1 y = Ok (b2, x', Returned s)
    /\ reached p dbl kr ft b2 a' x'.
Proof.
  intros X p size_max throws dbl kr ft b a x src bs x1 x2 src' y bs' last y1 a' x' s Hp Hk Hs H Hc Hy Hb Ht
    Hy' Hb' request Hex Hend Hserv Hnt Er.
  assert (Hex1 : examine (format_of kr) (mc_table a) (mc_in a ++ bs) = Incomplete).
  { apply examine_prefix with (l' := bs'). rewrite <- app_assoc. exact Hex. }
  destruct (C54_getter_throws X p size_max throws dbl kr ft b a x src bs x1 x2 Hp Hk Hs H Hc Hy Hb Ht Hex1)
    as (b1 & E1 & H1).
  assert (Eq : request = (mc_in a ++ bs) ++ bs' ++ [last]) by (unfold request; rewrite <- app_assoc; reflexivity).
  rewrite Eq in *.
  destruct (C54_getter_returns X p size_max throws dbl kr ft b1 (mk_machine (mc_in a ++ bs) (mc_out a) (mc_table a)) y
              src' bs' last y1 a' x' s) as (b2 & E2 & H2); cbn [mc_in mc_out mc_table]; auto.
  - apply (reached_outside p dbl kr ft Hp Hk Hs) with (x := x2). exact H1.
  - rewrite <- app_assoc. exact Hex.
  - exists b1, b2. auto.
Qed.

(** ** C55 *)

(** A byte putter throws: the byte it was given is lost, the following ones are
    still to be sent. *)
Theorem C55_putter_throws : forall (X : Type) p dbl (kr : keyring X) ft b a x dest bs lost rest x1 x2,
  wf_platform p -> keyring_ok p kr -> well_sized dbl kr ft -> reached p dbl kr ft b a x ->
  mc_out a = bs ++ lost :: rest ->
  accepts dest x bs x1 -> dest lost x1 = Ok (x2, Thrown) ->
  exists b', write_to_e dest b x = Ok (b', x2, Thrown)
    /\ reached p dbl kr ft b' (mk_machine (mc_in a) rest (mc_table a)) x2.
Proof.
  intros X p dbl kr ft b a x dest bs lost rest x1 x2 Hp Hk Hs H Ho Ha Ht.
  assert (G : forall fuel l b a x, reached p dbl kr ft b a x -> mc_out a = l ++ lost :: rest -> accepts dest x l x1 ->
            length l < fuel ->
            exists b', write_loop_e fuel dest b x = Ok (b', x2, Thrown)
              /\ reached p dbl kr ft b' (mk_machine (mc_in a) rest (mc_table a)) x2).
  { clear b a x bs H Ho Ha. induction fuel as [|fuel IH]; intros l b a x H Ho Ha Hl; [lia|].
    destruct (reached_represents p dbl kr ft Hp Hk Hs b a x H) as (ni & no & Hw & Hf & Hrep).
    cbn [write_loop_e]. rewrite (is_loaded_ok kr ft ni no dbl Hw b a Hrep). unfold mc_loaded. rewrite Ho.
    assert (Hg : forall c out, mc_out a = c :: out ->
      exists b', get_byte b = Ok (b', c) /\ reached p dbl kr ft b' (mk_machine (mc_in a) out (mc_table a)) x).
    { intros c out Ec.
      destruct (reached_step p dbl kr ft Hp Hk Hs Get b a x (mk_machine (mc_in a) out (mc_table a)) x (OByte c) H)
        as (b' & E & H').
      - split; [exact I|]. right. exact I.
      - cbn [mc_step]. unfold mc_get. rewrite Ec. reflexivity.
      - cbn [step] in E. ok_inv E r. destruct r as [b1 c1]. exists b'. split; auto. congruence. }
    destruct l as [|c l]; cbn [app] in Ho |- *.
    - inversion Ha; subst. destruct (Hg lost rest Ho) as (b' & Eg & H'). rewrite Eg. cbn [bind]. rewrite Ht. cbn [bind].
      exists b'. split; auto. apply (reached_outside p dbl kr ft Hp Hk Hs) with (x := x1). exact H'.
    - inversion Ha; subst. destruct (Hg c (l ++ lost :: rest) Ho) as (b' & Eg & H'). rewrite Eg. cbn [bind].
      match goal with E : dest c x = _ |- _ => rewrite E end. cbn [bind].
      match goal with A : accepts dest ?y l x1 |- _ =>
        destruct (IH l b' (mk_machine (mc_in a) (l ++ lost :: rest) (mc_table a)) y) as (b2 & E2 & H2); auto end.
      + apply (reached_outside p dbl kr ft Hp Hk Hs) with (x := x). exact H'.
      + cbn [length] in Hl. lia.
      + exists b2. auto. }
  apply (G _ bs b a x); auto.
  destruct (reached_represents p dbl kr ft Hp Hk Hs b a x H) as (ni & no & Hw & Hf & Hrep).
  destruct Hrep as (_ & _ & Hno & _ & _ & _ & Hout & Hbot & _). rewrite Ho, app_length in Hout. cbn [length] in Hout. lia.
Qed.

(** A putter which takes every byte. *)
Theorem C55_putter_returns : forall (X : Type) p dbl (kr : keyring X) ft b a x dest x1,
  wf_platform p -> keyring_ok p kr -> well_sized dbl kr ft -> reached p dbl kr ft b a x ->
  accepts dest x (mc_out a) x1 ->
  exists b', write_to_e dest b x = Ok (b', x1, Returned tt)
    /\ reached p dbl kr ft b' (mk_machine (mc_in a) [] (mc_table a)) x1.
Proof.
  intros X p dbl kr ft b a x dest x1 Hp Hk Hs H Ha.
  assert (G : forall fuel b a x, reached p dbl kr ft b a x -> accepts dest x (mc_out a) x1 ->
            length (mc_out a) < fuel ->
            exists b', write_loop_e fuel dest b x = Ok (b', x1, Returned tt)
              /\ reached p dbl kr ft b' (mk_machine (mc_in a) [] (mc_table a)) x1).
  { clear b a x H Ha. induction fuel as [|fuel IH]; intros b a x H Ha Hl; [lia|].
    destruct (reached_represents p dbl kr ft Hp Hk Hs b a x H) as (ni & no & Hw & Hf & Hrep).
    cbn [write_loop_e]. rewrite (is_loaded_ok kr ft ni no dbl Hw b a Hrep). unfold mc_loaded.
    destruct a as [i out t]. cbn [mc_out mc_in mc_table] in *. destruct out as [|c out].
    - inversion Ha; subst. exists b. auto.
    - destruct (reached_step p dbl kr ft Hp Hk Hs Get b (mk_machine i (c :: out) t) x (mk_machine i out t) x (OByte c) H)
        as (b' & E & H').
      + split; [exact I|]. right. exact I.
      + reflexivity.
      + cbn [step] in E. ok_inv E r. destruct r as [b1 c1].
        assert (b1 = b' /\ c1 = c) as [-> ->] by (split; congruence). cbn [bind]. inversion Ha; subst.
        match goal with E : dest c x = _ |- _ => rewrite E end. cbn [bind].
        match goal with A : accepts dest ?y out x1 |- _ =>
          destruct (IH b' (mk_machine i out t) y) as (b2 & E2 & H2); auto end.
        * apply (reached_outside p dbl kr ft Hp Hk Hs) with (x := x). exact H'.
        * cbn [mc_out length] in *. lia.
        * exists b2. auto. }
  apply (G _ b a x); auto.
  destruct (reached_represents p dbl kr ft Hp Hk Hs b a x H) as (ni & no & Hw & Hf & Hrep).
  destruct Hrep as (_ & _ & Hno & _ & _ & _ & Hout & Hbot & _). lia.
Qed.

(** ** C56

    Full statement: after a callback has thrown, the dispatcher is ready for
    another request.  It is false (C56_refuted); C56_stuck tells what happens
    instead.  Proved: a callback which does not throw on the request received
    is served as in C35. *)
Theorem C56_returns_partial : forall (X : Type) p size_max throws dbl (kr : keyring X) ft b a x byte a' x' s,
  wf_platform p -> keyring_ok p kr -> well_sized dbl kr ft -> reached p dbl kr ft b a x ->
  is_byte byte -> (dbl = true \/ mc_out a = []) ->
  servable (format_of kr) p (mc_table a) (mc_in a ++ [byte]) x ->
  thrown (format_of kr) throws (mc_table a) (mc_in a ++ [byte]) x = None ->
  mc_put (format_of kr) byte a x = (a', x', s) ->
  exists b', put_e p size_max throws byte b x = Ok (b', x', Returned s) /\ reached p dbl kr ft b' a' x'.
Proof.
  intros X p size_max throws dbl kr ft b a x byte a' x' s Hp Hk Hs H Hb Hc Hserv Ht Em.
  destruct (reached_put_returns p size_max throws dbl kr ft Hp Hk Hs b a x byte a' x' s H Hb Hc Hserv Ht Em)
    as (b' & E & _ & H'). exists b'. auto.
Qed.

(** Several calls of [put]. *)
Fixpoint puts_e {X : Type} (p : platform) (size_max : nat) (throws : throwing X) (bytes : list Z) (b : buffered X) (x : X)
    : res (buffered X * X * list (outcome packet_status)) :=
  match bytes with
  | [] => Ok (b, x, [])
  | byte :: bytes' =>
      '(b1, x1, o) <- put_e p size_max throws byte b x;;
      '(b2, x2, os) <- puts_e p size_max throws bytes' b1 x1;;
      Ok (b2, x2, o :: os)
  end.

(** A dispatcher which waits for more bytes than its buffer can hold. *)
Definition stuck {X : Type} (b : buffered X) : Prop :=
  b_is_index_loaded b = true /\ (b_load_count b = 0 \/ length (ibuf (b_bufs b)) - b_ibuf_next b < b_load_count b).

Section Stuck.
  Context {X : Type}.
  Variables (p : platform) (size_max : nat) (throws : throwing X).

  Lemma put_stuck : forall byte b (x : X), stuck b -> length (ibuf (b_bufs b)) <= size_max ->
    (b_ibuf_next b < length (ibuf (b_bufs b)) /\
     exists b', put_e p size_max throws byte b x = Ok (b', x, Returned LOADING_PACKET) /\ stuck b'
       /\ length (ibuf (b_bufs b')) = length (ibuf (b_bufs b)) /\ b_ibuf_next b' = S (b_ibuf_next b))
    \/ (length (ibuf (b_bufs b)) <= b_ibuf_next b /\ put_e p size_max throws byte b x = Fault OutOfBounds).
  Proof.
    intros byte b x [Hl Hc] Hm. unfold put_e.
    destruct (Nat.lt_ge_cases (b_ibuf_next b) (length (ibuf (b_bufs b)))) as [Hi|Hi].
    - left. split; auto. rewrite store_ok by auto. cbn [bind].
      set (count := match b_load_count b with 0 => size_max | S c => c end).
      assert (Hcount : length (ibuf (b_bufs b)) - S (b_ibuf_next b) < count).
      { unfold count. destruct (b_load_count b) as [|c]; lia. }
      rewrite (proj2 (Nat.ltb_lt 0 count)) by lia.
      eexists. split; [reflexivity|]. unfold stuck.
      cbn [b_is_index_loaded b_load_count b_ibuf_next b_bufs]. rewrite ibuf_set_ibuf, splice_length by (cbn; lia).
      repeat split; auto.
    - right. split; auto. rewrite store_oob by auto. reflexivity.
  Qed.

  Lemma puts_stuck : forall bytes b (x : X), stuck b -> length (ibuf (b_bufs b)) <= size_max ->
    b_ibuf_next b <= length (ibuf (b_bufs b)) ->
    if b_ibuf_next b + length bytes <=? length (ibuf (b_bufs b)) then
      exists b', puts_e p size_max throws bytes b x = Ok (b', x, map (fun _ => Returned LOADING_PACKET) bytes)
    else puts_e p size_max throws bytes b x = Fault OutOfBounds.
  Proof.
    induction bytes as [|byte bytes IH]; intros b x Hst Hm Hi; cbn [puts_e length map].
    - rewrite (proj2 (Nat.leb_le _ _)) by lia. exists b. reflexivity.
    - destruct (put_stuck byte b x Hst Hm) as [[H1 (b' & E & Hst' & Hlen & Hn)]|[H1 E]]; rewrite E; cbn [bind].
      + specialize (IH b' x Hst' ltac:(lia) ltac:(lia)). rewrite Hlen, Hn in IH.
        replace (b_ibuf_next b + S (length bytes)) with (S (b_ibuf_next b) + length bytes) by lia.
        destruct (S (b_ibuf_next b) + length bytes <=? length (ibuf (b_bufs b))).
        * destruct IH as (b2 & E2). rewrite E2. cbn [bind]. exists b2. reflexivity.
        * rewrite IH. reflexivity.
      + destruct (Nat.leb_spec (b_ibuf_next b + S (length bytes)) (length (ibuf (b_bufs b)))); [lia|]. reflexivity.
  Qed.

  Lemma read_stuck : forall src n b (x : X), stuck b -> length (ibuf (b_bufs b)) <= size_max ->
    length (ibuf (b_bufs b)) - b_ibuf_next b <= n ->
    forall b' x' s, read_from_e p size_max throws src b x <> Ok (b', x', Returned s).
  Proof.
    intros src. induction n as [n IH] using lt_wf_ind. intros b x Hst Hm Hn b' x' s E.
    destruct (src x) as [[x1 [byte|]]|] eqn:Es.
    - rewrite (read_next p size_max throws src b x x1 byte Es) in E.
      destruct (put_stuck byte b x1 Hst Hm) as [[H1 (b1 & E1 & Hst' & Hlen & Hnext)]|[H1 E1]]; rewrite E1 in E.
      + apply (IH (n - 1) ltac:(lia) b1 x1 Hst' ltac:(lia) ltac:(lia) _ _ _ E).
      + discriminate.
    - rewrite (read_thrown p size_max throws src b x x1 Es) in E. discriminate.
    - unfold read_from_e in E. cbn [read_index_e read_payload_e] in E. destruct Hst as [Hl _].
      rewrite Hl in E. cbn [negb andb bind] in E. rewrite Hl, Es in E. discriminate.
  Qed.
End Stuck.

(** A callback throws: the exception leaves [put], the pending response is lost,
    and the dispatcher never serves a request again.  Whatever the bytes put
    afterwards, it claims to be loading a packet as long as there is room in
    its input buffer, then writes past the end of it; [read_from] never returns. *)
Theorem C56_stuck : forall (X : Type) p size_max throws dbl (kr : keyring X) ft b a x byte x',
  wf_platform p -> keyring_ok p kr -> well_sized dbl kr ft -> reached p dbl kr ft b a x ->
  is_byte byte -> receivable (format_of kr) p (mc_table a) (mc_in a ++ [byte]) ->
  length (ibuf (b_bufs b)) <= size_max ->
  thrown (format_of kr) throws (mc_table a) (mc_in a ++ [byte]) x = Some x' ->
  exists b', put_e p size_max throws byte b x = Ok (b', x', Thrown)
    /\ is_loaded b' = false
    /\ (forall bytes y,
          if length (mc_in a ++ [byte]) + length bytes <=? length (ibuf (b_bufs b)) then
            exists b'', puts_e p size_max throws bytes b' y = Ok (b'', y, map (fun _ => Returned LOADING_PACKET) bytes)
          else puts_e p size_max throws bytes b' y = Fault OutOfBounds)
    /\ (forall src y b'' y' s, read_from_e p size_max throws src b' y <> Ok (b'', y', Returned s)).
Proof.
  intros X p size_max throws dbl kr ft b a x byte x' Hp Hk Hs H Hb Hr Hm Ht.
  exists (after_throw b a byte). split; [apply (reached_put_thrown p size_max throws dbl kr ft Hp Hk Hs); auto|].
  split; [reflexivity|].
  destruct (reached_represents p dbl kr ft Hp Hk Hs b a x H) as (ni & no & Hw & Hf & Hrep).
  assert (Hroom : length (mc_in a) < length (ibuf (b_bufs b))).
  { pose proof Hrep as (Htab & Hni & _ & _ & _ & _ & _ & _ & _ & _ & Hprog). rewrite Hni. unfold progress in Hprog.
    destruct (b_is_index_loaded b).
    - destruct Hprog as (f & Hd & H1 & H2 & H3). unfold designated in Hd.
      destruct (table_sig p kr ft ni no Hk Hf _ _ _ _ Htab Hd) as [_ (_ & Hfi & _)]. unfold params in *. lia.
    - lia. }
  assert (Hlen : length (ibuf (b_bufs (after_throw b a byte))) = length (ibuf (b_bufs b))).
  { unfold after_throw. cbn [b_bufs]. rewrite ibuf_set_ibuf, splice_length; auto. cbn. lia. }
  assert (Hst : stuck (after_throw b a byte)) by (split; [reflexivity|left; reflexivity]).
  split.
  - intros bytes y. pose proof (puts_stuck p size_max throws bytes (after_throw b a byte) y Hst) as G.
    rewrite Hlen in G. cbn [after_throw b_ibuf_next] in G. specialize (G Hm ltac:(lia)).
    rewrite app_length. cbn [length]. replace (length (mc_in a) + 1) with (S (length (mc_in a))) by lia. exact G.
  - intros src y b'' y' s. apply (read_stuck p size_max throws src (length (ibuf (b_bufs b)))); auto; lia.
Qed.

(** ** Examples *)

(** The first callback throws when its second argument is 5. *)
Definition ex_throws : throwing log :=
  fun i args x => match i, args with
                  | 0, [_; VInt 5] => Some x
                  | _, _ => None
                  end.

Definition shown {A X B : Type} (r : res (A * X * B)) : res (X * B) := '(_, x, o) <- r;; Ok (x, o).

(** A valid request whose callback throws, then another valid request: a new
    dispatcher serves the latter, this one does not, and the ten bytes of
    requests which follow overflow its input buffer. *)
Theorem C56_refuted : exists b : buffered log,
  keyring_ok pc_native ex_keyring /\ well_sized true ex_keyring ANY
  /\ make_double ex_keyring ANY [9; 9; 9]%Z [] = Some b
  /\ shown (puts_e pc_native 1000 ex_throws [1]%Z b []) = Ok ([(1, [])], [Returned RESOLVED_PACKET])
  /\ shown (puts_e pc_native 1000 ex_throws [0; 255; 254; 5; 1]%Z b [])
     = Ok ([], [Returned LOADING_PACKET; Returned LOADING_PACKET; Returned LOADING_PACKET; Thrown;
                Returned LOADING_PACKET])
  /\ shown (puts_e pc_native 1000 ex_throws ([0; 255; 254; 5] ++ [1; 1; 1; 1; 1; 1; 1; 1; 1; 1])%Z b [])
     = Fault OutOfBounds.
Proof.
  eexists. split; [exact ex_keyring_ok|]. split; [exact (proj1 ex_well_sized)|]. split; [reflexivity|].
  repeat (split; [vm_compute; reflexivity|]). vm_compute. reflexivity.
Qed.

(** The conditions of C56_stuck, with an unfinished response. *)
Example C56_example : exists b a x,
  reached pc_native true ex_keyring ANY b a x
  /\ mc_in a = [0; 255; 254]%Z /\ mc_out a = [0; 3]%Z
  /\ receivable (format_of ex_keyring) pc_native (mc_table a) (mc_in a ++ [5]%Z)
  /\ length (ibuf (b_bufs b)) <= 1000
  /\ thrown (format_of ex_keyring) ex_throws (mc_table a) (mc_in a ++ [5]%Z) x = Some x
  /\ thrown (format_of ex_keyring) ex_throws (mc_table a) (mc_in a ++ [6]%Z) x = None.
Proof.
  destruct (make_double ex_keyring ANY [9; 9; 9]%Z []) as [b0|] eqn:E0; [|discriminate].
  pose proof (reached_new pc_native true ex_keyring ANY [9; 9; 9]%Z [] b0 ([] : log) E0) as H0.
  set (ops := [Put 0; Put 255; Put 254; Put 5; Get; Get; Put 0; Put 255; Put 254]%Z : list (op log)).
  destruct (mc_run (format_of ex_keyring) ops (fresh ex_keyring) []) as [[[a1 x1] vs]|f] eqn:Em;
    [|vm_compute in Em; discriminate].
  destruct (reached_run pc_native true ex_keyring ANY pc_native_wf ex_keyring_ok (proj1 ex_well_sized) ops b0
              (fresh ex_keyring) [] a1 x1 vs H0) as (b1 & Er & H1); auto.
  { unfold ops. legit. }
  exists b1, a1, x1. split; auto.
  assert (Ea : a1 = mk_machine [0; 255; 254]%Z [0; 3]%Z (map snd (kr_funcs ex_keyring))) by
    (unfold ops in Em; vm_compute in Em; injection Em as <- _ _; reflexivity).
  rewrite Ea. cbn [mc_in mc_out mc_table]. split; auto. split; auto.
  split; [vm_compute; repeat constructor; range|].
  split; [|split; reflexivity].
  assert (Hl : match make_double ex_keyring ANY [9; 9; 9]%Z [] with
               | Some b => match run_ops pc_native ops b [] with Ok (b', _, _) => length (ibuf (b_bufs b')) | Fault _ => 0 end
               | None => 0
               end = 5) by (vm_compute; reflexivity).
  rewrite E0, Er in Hl. lia.
Qed.

(** A serial line with a timeout: the getter throws when nothing comes, the
    putter when two bytes are waiting already. *)
Definition take_or_throw {S : Type} : esource (wires S) :=
  fun w => match w_in w with
           | [] => Ok (w, Thrown)
           | b :: bs => Ok (mk_wires bs (w_out w) (w_user w), Returned b)
           end.
Definition give_or_throw {S : Type} : edestination (wires S) :=
  fun b w => if length (w_out w) <? 2 then Ok (mk_wires (w_in w) (w_out w ++ [b]) (w_user w), Returned tt)
             else Ok (w, Thrown).

(** Three bytes of a request, a timeout, the last byte: the callback is called
    with all of them.  Sending the response [0; 0; 0; 3] fails at the third
    byte, which is lost: only the last one is sent by the next attempt. *)
Example C54_C55_example : exists b : buffered (wires log),
  make_double (lift_keyring ex_keyring) ANY [] [] = Some b
  /\ yields take_or_throw (mk_wires [0; 255; 254]%Z [] ([] : log)) [0; 255; 254]%Z (mk_wires [] [] [])
  /\ examine (format_of (lift_keyring ex_keyring)) (mc_table (fresh (lift_keyring ex_keyring))) [0; 255; 254]%Z = Incomplete
  /\ (let never := fun _ _ _ => None in
      '(b1, w1, o1) <- read_from_e pc_native 1000 never take_or_throw b (mk_wires [0; 255; 254]%Z [] []);;
      '(b2, w2, o2) <- read_from_e pc_native 1000 never take_or_throw b1 (mk_wires [5; 77]%Z [] (w_user w1));;
      '(b3, w3, o3) <- write_to_e give_or_throw b2 w2;;
      '(b4, w4, o4) <- write_to_e give_or_throw b3 (mk_wires (w_in w3) [] (w_user w3));;
      Ok ((o1, o2, o3, o4), (w2, w_out w3, w_out w4)))
     = Ok ((Thrown, Returned RESOLVED_PACKET, Thrown, Returned tt),
           (mk_wires [77]%Z [] [(0, [VInt (-2); VInt 5])], [0; 0]%Z, [3]%Z)).
Proof.
  eexists. split; [reflexivity|]. split; [repeat (econstructor; [reflexivity|]); constructor|].
  split; [vm_compute; reflexivity|]. vm_compute. reflexivity.
Qed.

Print Assumptions C54_getter_throws.
Print Assumptions C54_getter_returns.
Print Assumptions C54_resumes.
Print Assumptions C55_putter_throws.
Print Assumptions C55_putter_returns.
Print Assumptions C56_returns_partial.
Print Assumptions C56_stuck.
Print Assumptions C56_refuted.
