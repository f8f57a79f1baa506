(** Property C60: callbacks which use the dispatcher they are called by. *)

From Coq Require Import List ZArith Lia Bool Arith.
From Verif Require Import Base CInt Spec IntModel Conditions MemFacts TypeLevel Serial TupleModel
  TypeLevelProofs IntProofs SignedProofs SerialProofs CodecFacts Bounds TupleProofs SpecRpc Rpc RpcProofs
  Hosts Closed PropertiesTypes PropertiesRpc Buffered SpecBuffered BufferedProofs PropertiesBuffered
  PropertiesBuffers PropertiesPackets Exceptions PropertiesExceptions ReEntrant.
Import ListNotations.
Open Scope nat_scope.

(** ** Specification: what a callback sees of the dispatcher.  The output is
    empty; [room] bytes can be put, which is all that happens to them; the
    callbacks of the [table] can be replaced.  [read_from] takes bytes until they
    do not fit: it never returns. *)
Fixpoint conduct {X : Type} (s : script X) (room : nat) (table : list (func X)) (x : X)
    : res (list (func X) * X * val) :=
  match s with
  | SReturn v => Ok (table, x, v)
  | SWorld f => let (x', s') := f x in conduct s' room table x'
  | SPut byte k => match room with 0 => Fault OutOfBounds | S n => conduct (k LOADING_PACKET) n table x end
  | SGet k => conduct (k 0%Z) room table x
  | SIsLoaded k => conduct (k false) room table x
  | SReplace i r k => conduct k room (update table i (replacing r)) x
  | SReadFrom src _ | SProcess src _ _ =>
      '(_, _) <- pull src (S room) x;;
      Fault OutOfBounds
  | SWriteTo _ k => conduct k room table x
  end.

(** The replacements compile. *)
Fixpoint script_ok {X : Type} (ft : action_features) (sigs : list signature) (s : script X) : Prop :=
  match s with
  | SReturn _ => True
  | SWorld f => forall x, script_ok ft sigs (snd (f x))
  | SPut _ k => forall st, script_ok ft sigs (k st)
  | SGet k => forall b, script_ok ft sigs (k b)
  | SIsLoaded k => forall b, script_ok ft sigs (k b)
  | SReplace i r k => replaceable ft sigs i r /\ script_ok ft sigs k
  | SReadFrom _ k | SProcess _ _ k => forall st, script_ok ft sigs (k st)
  | SWriteTo _ k => script_ok ft sigs k
  end.

Section Spec.
  Context {X : Type}.
  Variables (fm : format) (capacity : nat) (does : behaviour X).

  (** The packet machine of SpecBuffered.v with such callbacks.  [capacity] is
      the size of the input buffer. *)
  Definition script_of (bs : list Z) (f : func X) (payload : list Z) : script X :=
    does (index_of fm bs) f (dec_list (fm_e fm) (fm_m fm) (params f) payload).

  Definition rmc_put (byte : Z) (a : machine X) (x : X) : res (machine X * X * packet_status) :=
    let bs := mc_in a ++ [byte] in
    match examine fm (mc_table a) bs with
    | Incomplete => Ok (mk_machine bs (mc_out a) (mc_table a), x, LOADING_PACKET)
    | Invalid => Ok (mk_machine [] (mc_out a) (mc_table a), x, DROPPED_PACKET)
    | Request f payload =>
        '(table, x', v) <- conduct (script_of bs f payload) (capacity - length bs) (mc_table a) x;;
        Ok (mk_machine [] (response (fm_e fm) (fm_m fm) (ret f) v) table, x', RESOLVED_PACKET)
    end.

  Fixpoint rmc_run (ops : list (option Z)) (a : machine X) (x : X) : res (machine X * X * list (packet_status + Z)) :=
    match ops with
    | [] => Ok (a, x, [])
    | Some byte :: ops' =>
        '(a1, x1, s) <- rmc_put byte a x;;
        '(a2, x2, vs) <- rmc_run ops' a1 x1;;
        Ok (a2, x2, inl s :: vs)
    | None :: ops' =>
        let (a1, byte) := mc_get a in
        '(a2, x2, vs) <- rmc_run ops' a1 x;;
        Ok (a2, x2, inr byte :: vs)
    end.

  (** Arguments decodable, results encodable, replacements which compile, and no
      byte put while a response is pending in a single buffer. *)
  Definition put_fair (p : platform) (dbl : bool) (ft : action_features) (sigs : list signature)
      (byte : Z) (a : machine X) (x : X) : Prop :=
    let bs := mc_in a ++ [byte] in
    is_byte byte /\ (dbl = true \/ mc_out a = [])
    /\ match examine fm (mc_table a) bs with
       | Request f payload =>
           decodable_list p (fm_e fm) (fm_m fm) (params f) payload
           /\ script_ok ft sigs (script_of bs f payload)
           /\ (forall table x' v,
                 conduct (script_of bs f payload) (capacity - length bs) (mc_table a) x = Ok (table, x', v) ->
                 ret_encodable p (fm_m fm) (ret f) v)
       | _ => True
       end.

  Fixpoint fair (p : platform) (dbl : bool) (ft : action_features) (sigs : list signature)
      (ops : list (option Z)) (a : machine X) (x : X) : Prop :=
    match ops with
    | [] => True
    | Some byte :: ops' =>
        put_fair p dbl ft sigs byte a x
        /\ (forall a' x' s, rmc_put byte a x = Ok (a', x', s) -> fair p dbl ft sigs ops' a' x')
    | None :: ops' => fair p dbl ft sigs ops' (fst (mc_get a)) x
    end.
End Spec.

(** ** Proofs *)

Lemma pull_nested : forall (X : Type) n (b : buffered X) i (x : X), i + n <= length (ibuf (b_bufs b)) ->
  pull nested_source n (mk_nested b i x) = Ok (mk_nested b (i + n) x, slice (ibuf (b_bufs b)) i n).
Proof.
  intros X. induction n as [|n IH]; intros b i x H; cbn [pull].
  - rewrite Nat.add_0_r. reflexivity.
  - unfold nested_source at 1, iterator_source. cbn [ne_b ne_ptr ne_x].
    destruct (nth_error (ibuf (b_bufs b)) i) as [c|] eqn:E.
    2:{ apply nth_error_None in E. lia. }
    unfold load. rewrite E. cbn [bind]. rewrite IH by lia. cbn [bind]. do 2 f_equal.
    + f_equal. lia.
    + unfold slice. rewrite (skipn_nth_cons _ _ i c E). reflexivity.
Qed.

Lemma push_nested : forall (X : Type) bs (b : buffered X) i (x : X),
  b_obuf_bottom b + length bs <= length (obuf (b_bufs b)) ->
  push nested_destination bs (mk_nested b i x)
  = Ok (mk_nested (with_output b (b_obuf_next b) (b_obuf_bottom b + length bs)
                     (set_obuf (splice (obuf (b_bufs b)) (b_obuf_bottom b) bs) (b_bufs b))) i x).
Proof.
  intros X. induction bs as [|c bs IH]; intros b i x H; cbn [push length] in *.
  - rewrite splice_nil, Nat.add_0_r, set_obuf_id. destruct b. reflexivity.
  - unfold nested_destination at 1. cbn [ne_b ne_ptr ne_x].
    rewrite store_ok by lia. cbn [bind].
    rewrite IH by (cbn [with_output b_obuf_bottom b_bufs]; rewrite obuf_set_obuf, splice_length; cbn; lia).
    cbn [with_output b_obuf_bottom b_obuf_next b_bufs b_dispatcher b_is_index_loaded b_load_count b_ibuf_next].
    unfold with_output. cbn [b_obuf_bottom b_obuf_next b_bufs b_dispatcher b_is_index_loaded b_load_count b_ibuf_next].
    rewrite obuf_set_obuf, set_obuf_set_obuf. do 3 f_equal; [lia|]. f_equal. change (c :: bs) with ([c] ++ bs).
    rewrite <- (splice_splice_app (obuf (b_bufs b)) (b_obuf_bottom b) [c] bs) by (cbn; lia). f_equal. cbn. lia.
Qed.

Section Proofs.
  Context {X : Type}.
  Variables (p : platform) (size_max : nat) (kr : keyring X) (ft : action_features) (ni no : nat) (dbl : bool).
  Variable does : behaviour X.
  Hypothesis Hp : wf_platform p.
  Hypothesis Hkr : keyring_ok p kr.
  Hypothesis Hroom : kr_index_size kr <= ni.
  Hypothesis Hframing : Forall (framing_ok ft ni no (kr_index_size kr)) (kr_signatures kr).
  Hypothesis Hmax : ni <= size_max.

  Let fm : format := format_of kr.
  Let w := kr_index_size kr.

  (** The dispatcher while a callback runs. *)
  Definition calling_state (b : buffered X) (table : list (func X)) : Prop :=
    table_ok kr ft (b_dispatcher b) table
    /\ length (ibuf (b_bufs b)) = ni /\ length (obuf (b_bufs b)) = no /\ is_double (b_bufs b) = dbl
    /\ b_is_index_loaded b = true /\ b_ibuf_next b <= ni
    /\ (b_load_count b = 0 \/ ni - b_ibuf_next b < b_load_count b)
    /\ b_obuf_next b = 0 /\ b_obuf_bottom b = 0.

  Lemma replace_table : forall d table i r, table_ok kr ft d table -> replaceable ft (kr_signatures kr) i r ->
    exists d', replace d i r = Some (Ok d') /\ table_ok kr ft d' (update table i (replacing r)).
  Proof.
    intros d table i r Ht [Hsig Hft].
    assert (Hi : i < length (kr_funcs kr)).
    { assert (i < length (kr_signatures kr)) by (apply nth_error_Some; congruence).
      unfold kr_signatures in H. rewrite map_length in H. auto. }
    pose proof Ht as (Hk & Hf & Ha & Hs). destruct (w_bounds p kr Hkr) as (_ & _ & Hsize).
    assert (Htl : length table = length (kr_funcs kr)).
    { rewrite <- (map_length f_sig), Hs. apply map_length. }
    eexists. split.
    - unfold replace. rewrite at17_nth_error, Hk, Hsig. unfold d_size. rewrite Hk, Hsize.
      fold (replacing r). rewrite sig_eqb_refl.
      destruct (Nat.ltb_spec i (length (kr_funcs kr))); [|lia]. cbn [andb].
      unfold assign_action. rewrite Ha, map_length, Htl.
      destruct (Nat.ltb_spec i (length (kr_funcs kr))); [|lia]. rewrite Hf, Hk.
      instantiate (1 := mk_dispatcher kr ft (set_nth (map (make_action ft (kr_e kr) (kr_m kr)) table) i
                          (make_action ft (kr_e kr) (kr_m kr) (replacing r)))).
      destruct r; [reflexivity|]. cbn [replacing] in *. rewrite Hft. reflexivity.
    - unfold table_ok. cbn [d_keyring d_features d_actions]. split; auto. split; auto.
      rewrite update_set_nth. split; [rewrite map_set_nth; reflexivity|].
      rewrite map_set_nth, Hs. apply set_nth_id. auto.
  Qed.

  (** [put] by a callback. *)
  Lemma put_calling : forall call byte b table x, calling_state b table ->
    match ni - b_ibuf_next b with
    | 0 => put_with p size_max call byte b x = Fault OutOfBounds
    | S n => exists b', put_with p size_max call byte b x = Ok (b', x, LOADING_PACKET) /\ calling_state b' table
               /\ ni - b_ibuf_next b' = n
    end.
  Proof.
    intros call byte b table x Hc. pose proof Hc as (Ht & Hni & Hno & Hdbl & Hl & Hn & Hcount & Hon & Hob).
    destruct (ni - b_ibuf_next b) as [|n] eqn:En.
    - unfold put_with. rewrite store_oob by lia. reflexivity.
    - unfold put_with. rewrite store_ok by lia. cbn [bind].
      set (count := match b_load_count b with 0 => size_max | S c => c end).
      assert (Hcount' : ni - S (b_ibuf_next b) < count).
      { unfold count. destruct (b_load_count b); lia. }
      destruct (Nat.ltb_spec 0 count); [|lia]. eexists. split; [reflexivity|].
      unfold calling_state. cbn [b_dispatcher b_bufs b_ibuf_next b_obuf_next b_obuf_bottom b_is_index_loaded b_load_count].
      assert (Hln : length (splice (ibuf (b_bufs b)) (b_ibuf_next b) [byte]) = ni)
        by (rewrite splice_length; cbn; lia).
      rewrite ibuf_set_ibuf, obuf_set_ibuf, is_double_set_ibuf by congruence.
      split; [|lia]. repeat (split; [solve [auto | lia]|]). auto.
  Qed.

  (** [read_from] by a callback. *)
  Lemma read_calling : forall call src b table x, calling_state b table ->
    read_from_with p size_max call src b x = ('(_, _) <- pull src (S (ni - b_ibuf_next b)) x;; Fault OutOfBounds).
  Proof.
    intros call src b table x Hc. pose proof Hc as (_ & Hni & _ & _ & Hl & _). unfold read_from_with.
    assert (E : forall fuel s, read_index_with p size_max call fuel src b x s = Ok (b, x, s)).
    { intros fuel s. destruct fuel; cbn [read_index_with]; rewrite Hl; reflexivity. }
    rewrite E. cbn [bind]. rewrite Hni. clear E Hni Hl.
    assert (G : forall n b x s fuel, calling_state b table -> ni - b_ibuf_next b = n -> n < fuel ->
              read_payload_with p size_max call fuel src b x s = ('(_, _) <- pull src (S n) x;; Fault OutOfBounds)).
    { clear b x Hc. induction n as [|n IH]; intros b x s fuel Hc En Hf; (destruct fuel as [|fuel]; [lia|]);
        cbn [read_payload_with]; pose proof Hc as (_ & _ & _ & _ & Hl & _); rewrite Hl;
        cbn [pull]; (destruct (src x) as [[x1 c]|e]; [|reflexivity]); cbn [bind];
        pose proof (put_calling call c b table x1 Hc) as Hput; rewrite En in Hput.
      - rewrite Hput. reflexivity.
      - destruct Hput as (b' & E & Hc' & En'). rewrite E. cbn [bind].
        rewrite (IH b' x1 _ fuel Hc' En' ltac:(lia)). cbn [pull].
        destruct (src x1) as [[x2 c2]|e]; [|reflexivity]. cbn [bind].
        destruct (pull src n x2) as [[x3 l]|e]; reflexivity. }
    apply G; auto. lia.
  Qed.

  Lemma play_ok : forall call s b table x, calling_state b table -> script_ok ft (kr_signatures kr) s ->
    match conduct s (ni - b_ibuf_next b) table x with
    | Ok (table', x', v) =>
        exists b', play p size_max call s b x = Ok (b', x', v) /\ calling_state b' table'
    | Fault f => play p size_max call s b x = Fault f
    end.
  Proof.
    intros call. fix IH 1. intros s b table x Hc Hs.
    pose proof Hc as (Ht & Hni & Hno & Hdbl & Hl & Hn & Hcount & Hon & Hob).
    destruct s as [v|f|byte k|k|k|i r k|src k|dest k|src dest k]; cbn [conduct play script_ok] in *.
    - exists b. auto.
    - specialize (Hs x). pose proof (IH (snd (f x))) as G. destruct (f x) as [x' s']. exact (G b table x' Hc Hs).
    - pose proof (put_calling call byte b table x Hc) as Hput. destruct (ni - b_ibuf_next b) as [|n].
      + rewrite Hput. reflexivity.
      + destruct Hput as (b1 & E & Hc1 & En). rewrite E. cbn [bind].
        pose proof (IH (k LOADING_PACKET) b1 table x Hc1 (Hs _)) as G. rewrite En in G. exact G.
    - unfold get_byte, is_loaded. rewrite Hon, Hob. cbn [Nat.eqb negb bind]. apply (IH (k 0%Z) b table x Hc (Hs _)).
    - unfold is_loaded. rewrite Hon, Hob. cbn [Nat.eqb negb]. apply (IH (k false) b table x Hc (Hs _)).
    - destruct Hs as [Hr Hs]. destruct (replace_table _ _ _ _ Ht Hr) as (d' & E & Ht').
      unfold replace_buffered. rewrite E.
      set (b1 := mk_buffered _ _ _ _ _ _ _).
      assert (Hc1 : calling_state b1 (update table i (replacing r))).
      { unfold calling_state, b1. cbn [b_dispatcher b_bufs b_ibuf_next b_obuf_next b_obuf_bottom b_is_index_loaded b_load_count].
        repeat (split; [solve [auto | lia]|]). auto. }
      exact (IH k b1 _ x Hc1 Hs).
    - rewrite (read_calling call src b table x Hc).
      destruct (pull src (S (ni - b_ibuf_next b)) x) as [[x1 l]|e]; reflexivity.
    - unfold write_to. cbn [write_loop]. unfold is_loaded. rewrite Hon, Hob. cbn [Nat.eqb negb bind].
      exact (IH k b table x Hc Hs).
    - unfold process_with. rewrite (read_calling call src b table x Hc).
      destruct (pull src (S (ni - b_ibuf_next b)) x) as [[x1 l]|e]; reflexivity.
  Qed.

  Lemma call_r_ok : forall depth b table bs (f : func X) payload x,
    table_ok kr ft (b_dispatcher b) table ->
    length (ibuf (b_bufs b)) = ni -> length (obuf (b_bufs b)) = no -> is_double (b_bufs b) = dbl ->
    b_is_index_loaded b = true -> b_ibuf_next b = length bs -> b_load_count b = 0 ->
    examine fm table bs = Request f payload -> length bs = w + wire_sizes (params f) -> length bs <= ni ->
    slice (ibuf (b_bufs b)) 0 (length bs) = bs -> Forall is_byte bs ->
    decodable_list p (kr_e kr) (kr_m kr) (params f) payload ->
    script_ok ft (kr_signatures kr) (script_of fm does bs f payload) ->
    (forall table' x' v, conduct (script_of fm does bs f payload) (ni - length bs) table x = Ok (table', x', v) ->
       ret_encodable p (kr_m kr) (ret f) v) ->
    match conduct (script_of fm does bs f payload) (ni - length bs) table x with
    | Ok (table', x', v) =>
        exists b', call_r p size_max does (S depth) b x = Ok (b', x')
          /\ represents kr ft ni no dbl b' (mk_machine [] (response (kr_e kr) (kr_m kr) (ret f) v) table')
    | Fault e => call_r p size_max does (S depth) b x = Fault e
    end.
  Proof.
    intros depth b table bs f payload x Ht Hni Hno Hdbl Hl Hnext Hcount Hex Hlen Hle Hs Hb Hd Hsc Hret.
    unfold examine in Hex. cbn [fm format_of fm_w] in Hex. fold w in Hex.
    destruct (Nat.ltb_spec (length bs) w); [discriminate|].
    destruct (designated fm table bs) as [g|] eqn:Edes; [|discriminate].
    destruct (Nat.ltb_spec (length bs) (w + wire_sizes (params g))); [discriminate|].
    injection Hex as -> <-.
    unfold designated in Edes. cbn [fm format_of fm_w fm_e] in Edes. fold w in Edes.
    destruct (table_sig p kr ft ni no Hkr Hframing _ _ _ _ Ht Edes) as [Hsig (Hweak & Hfi & Hfo)].
    set (call := call_r p size_max does depth). cbn [call_r]. fold call.
    rewrite (get_index_frame p kr ft ni Hp Hkr Hroom _ table _ _ _ bs); auto; [|unfold params in Hlen; lia].
    cbn [bind]. fold w.
    unfold action_at. pose proof Ht as (Hk & Hf & Ha & Hsigs). rewrite Ha, nth_error_map, Edes. cbn [option_map bind fr_iptr].
    set (i := Z.to_nat (wire_value (kr_e kr) (firstn w bs))) in *.
    set (b0 := with_output b 0 0 (b_bufs b)).
    assert (Hc0 : calling_state b0 table).
    { unfold calling_state, b0, with_output.
      cbn [b_dispatcher b_bufs b_ibuf_next b_obuf_next b_obuf_bottom b_is_index_loaded b_load_count].
      repeat (split; [solve [auto | lia]|]). auto. }
    assert (Ep : pull nested_source (wire_sizes (params f)) (mk_nested b0 w x)
                 = Ok (mk_nested b0 (w + wire_sizes (params f)) x, skipn w bs)).
    { rewrite pull_nested by (cbn [b0 with_output b_bufs]; unfold params in *; lia). do 2 f_equal.
      cbn [b0 with_output b_bufs].
      transitivity (skipn w (slice (ibuf (b_bufs b)) 0 (length bs))); [|rewrite Hs; reflexivity].
      rewrite skipn_slice. cbn [Nat.add]. f_equal. lia. }
    set (script := script_of fm does bs f (skipn w bs)) in *.
    set (args := dec_list (kr_e kr) (kr_m kr) (params f) (skipn w bs)).
    assert (Escript : does i f args = script) by reflexivity.
    assert (Efault : nested_fault p size_max does call i (make_action ft (kr_e kr) (kr_m kr) f) (mk_nested b0 w x)
                     = Ok (match play p size_max call script b0 x with Ok _ => None | Fault e => Some e end)).
    { unfold nested_fault.
      replace (match make_action ft (kr_e kr) (kr_m kr) f with Storage o => o | NoStorage c => Some c end)
        with (Some (mk_model (kr_e kr) (kr_m kr) f)) by (destruct ft; reflexivity).
      cbn [m_e m_m m_func]. fold (params f). destruct Hsig as [Hsp _]. rewrite read_tuple_ok by auto. rewrite Ep. cbn [bind].
      rewrite (invoke_decodes p (kr_e kr) (kr_m kr)); auto.
      - rewrite skipn_length. unfold params in *. lia.
      - apply skipn_bytes. auto. }
    rewrite Efault. cbn [bind].
    pose proof (play_ok call script b0 table x Hc0 Hsc) as Hplay.
    replace (ni - b_ibuf_next b0) with (ni - length bs) in Hplay by (cbn [b0 with_output b_ibuf_next]; lia).
    destruct (conduct script (ni - length bs) table x) as [[[table' x'] v]|e] eqn:Econ.
    2:{ rewrite Hplay. reflexivity. }
    destruct Hplay as (b' & Eplay & Hc'). rewrite Eplay.
    specialize (Hret _ _ _ eq_refl).
    destruct Hc' as (Ht' & Hni' & Hno' & Hdbl' & _ & _ & _ & Hon' & Hob').
    replace (nested_action p size_max does call i (make_action ft (kr_e kr) (kr_m kr) f))
      with (make_action ft (kr_e kr) (kr_m kr) (nested_func p size_max does call i f)) by (destruct ft; reflexivity).
    rewrite (run_call p _ _ (mk_model (kr_e kr) (kr_m kr) (nested_func p size_max does call i f))) by (destruct ft; reflexivity).
    cbn [m_e m_m m_func].
    assert (Ecall : f_call (nested_func p size_max does call i f) args (mk_nested b0 (w + wire_sizes (params f)) x)
                    = (mk_nested b' (w + wire_sizes (params f)) x', v)).
    { unfold nested_func. cbn [f_call ne_b ne_x ne_ptr]. rewrite Escript, Eplay. reflexivity. }
    set (out := response (kr_e kr) (kr_m kr) (ret f) v).
    assert (Hlo : length out <= no).
    { unfold out, response, ret_encodable, ret in *. destruct (sig_ret (f_sig f)) as [t|]; [|cbn; lia].
      rewrite enc_length by apply Hret. cbn [wire_size_ret] in Hfo. lia. }
    rewrite call_ok; auto.
    - unfold call_spec. change (f_sig (nested_func p size_max does call i f)) with (f_sig f). fold (params f) (ret f).
      rewrite Ep. cbn [bind]. fold args. rewrite Ecall. fold out.
      rewrite push_nested by (rewrite Hob'; cbn; lia).
      cbn [bind ne_b ne_x]. unfold with_output. rewrite Hon', Hob'.
      cbn [b_dispatcher b_bufs b_ibuf_next b_obuf_next b_obuf_bottom b_is_index_loaded b_load_count Nat.add].
      eexists. split; [reflexivity|]. unfold represents, progress.
      cbn [b_dispatcher b_bufs b_ibuf_next b_obuf_next b_obuf_bottom b_is_index_loaded b_load_count mc_in mc_out mc_table].
      split; [auto|]. split.
      { rewrite ibuf_set_obuf; auto. rewrite splice_length; auto. lia. }
      split; [rewrite obuf_set_obuf, splice_length; auto; lia|].
      split; [rewrite is_double_set_obuf; auto|]. split; [reflexivity|]. split; [reflexivity|].
      split; [reflexivity|]. split; [auto|]. split.
      { rewrite obuf_set_obuf. apply slice_splice_same. lia. }
      split; [constructor|]. cbn [length]. destruct Ht' as (Hk' & _). unfold index_length. rewrite Hk'.
      destruct (w_bounds p kr Hkr) as (Hw & _). lia.
    - change (f_sig (nested_func p size_max does call i f)) with (f_sig f). fold (params f) (ret f). rewrite Ep. intros x1 l H1.
      injection H1 as <- <-. split; [apply skipn_bytes; auto|]. split; [exact Hd|].
      fold args. rewrite Ecall. exact Hret.
  Qed.

  Lemma put_r_ok : forall depth b a x byte, represents kr ft ni no dbl b a ->
    put_fair fm ni does p dbl ft (kr_signatures kr) byte a x ->
    match rmc_put fm ni does byte a x with
    | Ok (a', x', s) =>
        exists b', put_r p size_max does (S depth) byte b x = Ok (b', x', s) /\ represents kr ft ni no dbl b' a'
    | Fault f => put_r p size_max does (S depth) byte b x = Fault f
    end.
  Proof.
    intros depth b a x byte (Ht & Hni & Hno & Hdbl & Hnext & Hin & Hout & Hbot & Hso & Hbytes & Hprog) (Hbyte & Hcalm & Hserv).
    destruct (w_bounds p kr Hkr) as (Hw & _ & Hsize). fold w in Hw.
    set (bs := mc_in a ++ [byte]) in *.
    assert (Hlbs : length bs = S (length (mc_in a))).
    { unfold bs. rewrite app_length. cbn. lia. }
    assert (Hbs : Forall is_byte bs) by (apply Forall_app; auto).
    assert (Hfree : length bs <= ni /\ 1 <= b_load_count b).
    { unfold progress in Hprog. fold w in Hprog. fold w in Hroom. destruct (b_is_index_loaded b).
      - destruct Hprog as (f & Hd & H1 & H2 & H3). unfold designated in Hd.
        destruct (table_sig p kr ft ni no Hkr Hframing _ _ _ _ Ht Hd) as [_ (_ & Hf & _)].
        fold w in Hf. unfold params in *. lia.
      - destruct Hprog as [H1 H2]. lia. }
    destruct Hfree as [Hfree Hcount].
    set (m1 := splice (ibuf (b_bufs b)) (length (mc_in a)) [byte]) in *.
    assert (Hst : store (ibuf (b_bufs b)) (b_ibuf_next b) byte = Ok m1).
    { rewrite Hnext. apply store_ok. lia. }
    set (bufs1 := set_ibuf m1 (b_bufs b)).
    assert (Hm1 : ibuf bufs1 = m1) by apply ibuf_set_ibuf.
    assert (Hl1 : length m1 = ni) by (unfold m1; rewrite splice_length; cbn; lia).
    assert (Hni1 : length (ibuf bufs1) = ni) by congruence.
    assert (Hno1 : length (obuf bufs1) = no).
    { unfold bufs1. rewrite obuf_set_ibuf; congruence. }
    assert (Hin1 : slice (ibuf bufs1) 0 (length bs) = bs).
    { rewrite Hm1, Hlbs. replace (S (length (mc_in a))) with (length (mc_in a) + 1) by lia.
      rewrite slice_app by lia. unfold bs. cbn [Nat.add]. f_equal.
      - transitivity (slice (ibuf (b_bufs b)) 0 (length (mc_in a))); auto.
        unfold m1. apply slice_splice_disjoint; cbn; lia.
      - unfold m1. apply (slice_splice_same _ _ [byte]). cbn. lia. }
    assert (Hso1 : slice (obuf bufs1) (b_obuf_next b) (length (mc_out a)) = mc_out a).
    { unfold bufs1. destruct Hcalm as [E|E].
      - rewrite E in Hdbl. destruct (b_bufs b); [discriminate|]. exact Hso.
      - rewrite E. unfold slice. reflexivity. }
    assert (Hdbl1 : is_double bufs1 = dbl) by (unfold bufs1; rewrite is_double_set_ibuf; auto).
    assert (Hkr_d : d_keyring (b_dispatcher b) = kr) by apply Ht.
    assert (Hkeep : forall l n t, progress kr (mk_buffered (b_dispatcher b) l n (length bs) (b_obuf_next b) (b_obuf_bottom b) bufs1)
                                   (mk_machine bs (mc_out a) (mc_table a)) ->
              t = length bs ->
              represents kr ft ni no dbl (mk_buffered (b_dispatcher b) l n t (b_obuf_next b) (b_obuf_bottom b) bufs1)
                (mk_machine bs (mc_out a) (mc_table a))).
    { intros l n t Hpr ->. unfold represents.
      cbn [b_dispatcher b_bufs b_ibuf_next b_obuf_next b_obuf_bottom mc_in mc_out mc_table].
      repeat (split; [solve [auto]|]). exact Hpr. }
    assert (Hcall : forall b1 f payload, b_dispatcher b1 = b_dispatcher b -> b_bufs b1 = bufs1 ->
              b_is_index_loaded b1 = true -> b_load_count b1 = 0 -> b_ibuf_next b1 = S (b_ibuf_next b) ->
              examine fm (mc_table a) bs = Request f payload -> length bs = w + wire_sizes (params f) ->
              match rmc_put fm ni does byte a x with
              | Ok (a', x', s) =>
                  exists b', ('(b2, y) <- call_r p size_max does (S depth) b1 x;; Ok (b2, y, RESOLVED_PACKET)) = Ok (b', x', s)
                    /\ represents kr ft ni no dbl b' a'
              | Fault e => ('(b2, y) <- call_r p size_max does (S depth) b1 x;; Ok (b2, y, RESOLVED_PACKET)) = Fault e
              end).
    { intros b1 f payload E1 E2 E3 E4 E5 Hex Hlen. unfold rmc_put. fold bs. rewrite Hex in Hserv |- *.
      destruct Hserv as (Hd & Hsc & Hret).
      pose proof (call_r_ok depth b1 (mc_table a) bs f payload x) as G. rewrite E1, E2, E3, E4, E5 in G.
      specialize (G Ht Hni1 Hno1 Hdbl1 eq_refl ltac:(lia) eq_refl Hex Hlen Hfree Hin1 Hbs Hd Hsc Hret).
      destruct (conduct _ _ _ _) as [[[table' x'] v]|e]; cbn [bind].
      - destruct G as (b' & E & Hr). exists b'. rewrite E. split; [reflexivity|exact Hr].
      - rewrite G. reflexivity. }
    assert (Hgi : w <= length bs ->
              get_index p (framed_dispatcher (b_dispatcher b)) ibuf_source (mk_frame bufs1 0 0 x)
              = Ok (mk_frame bufs1 w 0 x, Z.to_nat (wire_value (kr_e kr) (firstn w bs)))).
    { intros Hwl. apply (get_index_frame p kr ft ni Hp Hkr Hroom _ (mc_table a)); auto. lia. }
    unfold put_r, put_with. rewrite Hst. cbn [bind]. fold bufs1.
    destruct (b_load_count b) as [|count] eqn:Ecount; [lia|].
    unfold progress in Hprog. fold w in Hprog. fold fm in Hprog. rewrite Ecount in Hprog.
    destruct (b_is_index_loaded b) eqn:Eloaded.
    - (* arguments *)
      destruct Hprog as (f & Hd & H1 & H2 & H3).
      assert (Hd' : designated fm (mc_table a) bs = Some f) by (unfold bs; rewrite (designated_app kr ni Hroom); auto).
      destruct (Nat.ltb_spec 0 count) as [Hc|Hc].
      + assert (Ex : examine fm (mc_table a) bs = Incomplete).
        { unfold examine. cbn [fm format_of fm_w]. fold w.
          destruct (Nat.ltb_spec (length bs) w); auto. fold fm. rewrite Hd'.
          destruct (Nat.ltb_spec (length bs) (w + wire_sizes (params f))); auto. lia. }
        unfold rmc_put. fold bs. rewrite Ex. eexists. split; [reflexivity|].
        apply Hkeep; [|lia]. unfold progress. cbn [b_is_index_loaded b_load_count mc_in mc_table].
        exists f. fold w. fold fm. repeat (split; [solve [auto | lia]|]). lia.
      + assert (Hlen : length bs = w + wire_sizes (params f)) by lia.
        apply (Hcall _ f (skipn w bs)); auto; try reflexivity; try (cbn [b_load_count]; lia).
        unfold examine. cbn [fm format_of fm_w]. fold w. destruct (Nat.ltb_spec (length bs) w); [lia|].
        fold fm. rewrite Hd'. destruct (Nat.ltb_spec (length bs) (w + wire_sizes (params f))); [lia|]. auto.
    - (* index *)
      destruct Hprog as [H1 H2]. destruct (Nat.ltb_spec 0 count) as [Hc|Hc].
      + assert (Ex : examine fm (mc_table a) bs = Incomplete).
        { unfold examine. cbn [fm format_of fm_w]. fold w. destruct (Nat.ltb_spec (length bs) w); auto. lia. }
        unfold rmc_put. fold bs. rewrite Ex. eexists. split; [reflexivity|].
        apply Hkeep; [|lia]. unfold progress. cbn [b_is_index_loaded b_load_count mc_in mc_table]. fold w. lia.
      + assert (Hlen : length bs = w) by lia. rewrite Hgi by lia. cbn [bind].
        rewrite (d_size_ok p kr ft Hkr _ _ Ht).
        assert (Edes : designated fm (mc_table a) bs
                       = nth_error (mc_table a) (Z.to_nat (wire_value (kr_e kr) (firstn w bs)))) by reflexivity.
        set (i := Z.to_nat (wire_value (kr_e kr) (firstn w bs))) in *.
        destruct (Nat.ltb_spec i (length (mc_table a))) as [Hi|Hi].
        * destruct (nth_error (mc_table a) i) as [f|] eqn:Ef.
          2:{ apply nth_error_None in Ef. lia. }
          destruct (input_size_ok p kr ft ni no Hkr Hframing _ _ _ _ Ht Ef) as [Ea Es].
          rewrite Ea. cbn [bind]. rewrite Es. cbn [bind].
          destruct (Nat.eqb_spec (wire_sizes (params f)) 0) as [Hz|Hz].
          -- apply (Hcall _ f (skipn w bs)); auto; [|lia].
             unfold examine. cbn [fm format_of fm_w]. fold w. destruct (Nat.ltb_spec (length bs) w); [lia|].
             fold fm. rewrite Edes. destruct (Nat.ltb_spec (length bs) (w + wire_sizes (params f))); [lia|]. auto.
          -- assert (Ex : examine fm (mc_table a) bs = Incomplete).
             { unfold examine. cbn [fm format_of fm_w]. fold w. destruct (Nat.ltb_spec (length bs) w); auto.
               fold fm. rewrite Edes. destruct (Nat.ltb_spec (length bs) (w + wire_sizes (params f))); auto. lia. }
             unfold rmc_put. fold bs. rewrite Ex. eexists. split; [reflexivity|].
             apply Hkeep; [|lia]. unfold progress. cbn [b_is_index_loaded b_load_count mc_in mc_table].
             exists f. fold w. fold fm. repeat (split; [solve [auto | lia]|]). lia.
        * assert (Ex : examine fm (mc_table a) bs = Invalid).
          { unfold examine. cbn [fm format_of fm_w]. fold w. destruct (Nat.ltb_spec (length bs) w); [lia|].
            fold fm. rewrite Edes. apply nth_error_None in Hi. rewrite Hi. reflexivity. }
          unfold rmc_put. fold bs. rewrite Ex. eexists. split; [reflexivity|].
          unfold represents, progress, index_length. rewrite Hkr_d.
          cbn [b_dispatcher b_bufs b_ibuf_next b_obuf_next b_obuf_bottom b_is_index_loaded b_load_count mc_in mc_out mc_table].
          repeat (split; [solve [auto]|]). cbn [length]. fold w. lia.
  Qed.

  Lemma run_r_ok : forall depth ops b a x, represents kr ft ni no dbl b a ->
    fair fm ni does p dbl ft (kr_signatures kr) ops a x ->
    match rmc_run fm ni does ops a x with
    | Ok (a', x', vs) =>
        exists b', run_r p size_max does (S depth) ops b x = Ok (b', x', vs) /\ represents kr ft ni no dbl b' a'
    | Fault f => run_r p size_max does (S depth) ops b x = Fault f
    end.
  Proof.
    intros depth. induction ops as [|[byte|] ops IH]; intros b a x Hr Hf; cbn [rmc_run run_r fair] in *.
    - exists b. auto.
    - destruct Hf as [Hput Hrest]. pose proof (put_r_ok depth b a x byte Hr Hput) as G.
      destruct (rmc_put fm ni does byte a x) as [[[a1 x1] s]|f]; cbn [bind].
      2:{ rewrite G. reflexivity. }
      destruct G as (b1 & E1 & Hr1). rewrite E1. cbn [bind].
      pose proof (IH b1 a1 x1 Hr1 (Hrest _ _ _ eq_refl)) as G.
      destruct (rmc_run fm ni does ops a1 x1) as [[[a2 x2] vs]|f]; cbn [bind].
      + destruct G as (b2 & E2 & Hr2). exists b2. rewrite E2. auto.
      + rewrite G. reflexivity.
    - destruct (get_byte_ok kr ft ni no dbl Hroom b a Hr) as (b1 & E1 & Hr1). rewrite E1. cbn [bind].
      destruct (mc_get a) as [a1 byte]. cbn [fst snd] in *.
      pose proof (IH b1 a1 x Hr1 Hf) as G.
      destruct (rmc_run fm ni does ops a1 x) as [[[a2 x2] vs]|f]; cbn [bind].
      + destruct G as (b2 & E2 & Hr2). exists b2. rewrite E2. auto.
      + rewrite G. reflexivity.
  Qed.
End Proofs.

(** ** C60 *)

(** What is seen from outside. *)
Definition seen {A X V : Type} (r : res (A * X * V)) : res (X * V) := '(_, x, vs) <- r;; Ok (x, vs).

(** Whatever the callbacks do with the dispatcher which calls them, it shows
    the world what the machine above shows: a callback gets zeros from [get],
    [false] from [is_loaded], and its replacements take place.  The bytes it
    [put]s are lost, [LOADING_PACKET] being returned, unless there are more of
    them than the input buffer can hold, which is an access out of bounds.
    [write_to] writes nothing, and [read_from] and [operator()] always end up out
    of bounds, unless the getter fails before. *)
Theorem C60_refines : forall (X : Type) p size_max (does : behaviour X) depth dbl (kr : keyring X) ft g g' b ops x,
  wf_platform p -> keyring_ok p kr -> well_sized dbl kr ft ->
  make_buffered dbl kr ft g g' = Some b ->
  let capacity := length (ibuf (b_bufs b)) in
  capacity <= size_max ->
  fair (format_of kr) capacity does p dbl ft (kr_signatures kr) ops (fresh kr) x ->
  seen (run_r p size_max does (S depth) ops b x) = seen (rmc_run (format_of kr) capacity does ops (fresh kr) x).
Proof.
  intros X p size_max does depth dbl kr ft g g' b ops x Hp Hk Hs Hb capacity Hmax Hf.
  destruct (make_buffered_represents X p dbl kr ft g g' b Hk Hs Hb) as (ni & no & Hw & Hfr & Hr).
  assert (E : capacity = ni) by apply Hr. rewrite E in *. clear capacity E.
  pose proof (run_r_ok p size_max kr ft ni no dbl does Hp Hk Hw Hfr Hmax depth ops b (fresh kr) x Hr Hf) as H.
  destruct (rmc_run (format_of kr) ni does ops (fresh kr) x) as [[[a' x'] vs]|f]; cbn [seen bind].
  - destruct H as (b' & E & _). rewrite E. reflexivity.
  - rewrite H. reflexivity.
Qed.

(** Callbacks never run inside one another. *)
Theorem C60_depth : forall (X : Type) p size_max (does : behaviour X) depth dbl (kr : keyring X) ft g g' b ops x,
  wf_platform p -> keyring_ok p kr -> well_sized dbl kr ft ->
  make_buffered dbl kr ft g g' = Some b ->
  let capacity := length (ibuf (b_bufs b)) in
  capacity <= size_max ->
  fair (format_of kr) capacity does p dbl ft (kr_signatures kr) ops (fresh kr) x ->
  seen (run_r p size_max does (S depth) ops b x) = seen (run_r p size_max does 1 ops b x).
Proof.
  intros X p size_max does depth dbl kr ft g g' b ops x Hp Hk Hs Hb capacity Hmax Hf.
  rewrite (C60_refines X p size_max does depth dbl kr ft g g' b ops x Hp Hk Hs Hb Hmax Hf).
  rewrite (C60_refines X p size_max does 0 dbl kr ft g g' b ops x Hp Hk Hs Hb Hmax Hf). reflexivity.
Qed.

(** ** Callbacks which leave the dispatcher alone *)

Definition aloof {X : Type} : behaviour X :=
  fun _ f args => SWorld (fun x => let (x', v) := f_call f args x in (x', SReturn v)).

Definition from_outside {X : Type} (o : option Z) : op X :=
  match o with Some byte => Put byte | None => Get end.
Definition as_obs (o : packet_status + Z) : obs :=
  match o with inl s => OStatus s | inr c => OByte c end.

Lemma aloof_run : forall (X : Type) (fm : format) capacity ops (a : machine X) x,
  mc_run fm (map from_outside ops) a x
  = '(a', x', vs) <- rmc_run fm capacity aloof ops a x;; Ok (a', x', map as_obs vs).
Proof.
  intros X fm capacity. induction ops as [|[byte|] ops IH]; intros a x; cbn [map from_outside mc_run mc_step rmc_run].
  - reflexivity.
  - unfold mc_put, received, rmc_put.
    destruct (examine fm (mc_table a) (mc_in a ++ [byte])) as [| |f payload]; cbn [bind].
    + rewrite IH. destruct (rmc_run _ _ _ _ _ _) as [[[a2 x2] vs]|e]; reflexivity.
    + rewrite IH. destruct (rmc_run _ _ _ _ _ _) as [[[a2 x2] vs]|e]; reflexivity.
    + unfold serve, script_of, aloof. cbn [conduct].
      destruct (f_call f (dec_list (fm_e fm) (fm_m fm) (params f) payload) x) as [x' v]. cbn [conduct bind].
      rewrite IH. destruct (rmc_run _ _ _ _ _ _) as [[[a2 x2] vs]|e]; reflexivity.
  - destruct (mc_get a) as [a1 c]. cbn [bind]. rewrite IH. destruct (rmc_run _ _ _ _ _ _) as [[[a2 x2] vs]|e]; reflexivity.
Qed.

Lemma aloof_fair : forall (X : Type) p dbl (kr : keyring X) ft capacity ops (a : machine X) x,
  along (format_of kr) (legitimate p dbl kr ft) (map from_outside ops) a x ->
  fair (format_of kr) capacity aloof p dbl ft (kr_signatures kr) ops a x.
Proof.
  intros X p dbl kr ft capacity. induction ops as [|[byte|] ops IH]; intros a x; cbn [map from_outside along fair]; auto.
  - intros [[[Hb Hserv] Hh] Hrest]. split.
    + unfold put_fair. split; auto. split; [destruct Hh as [H|H]; auto|].
      unfold servable in Hserv. destruct (examine (format_of kr) (mc_table a) (mc_in a ++ [byte])) as [| |f payload]; auto.
      destruct Hserv as [Hd He]. split; auto. unfold script_of, aloof. split.
      * cbn [script_ok]. intros y. destruct (f_call _ _ y). exact I.
      * intros table x' v. cbn [conduct]. destruct (f_call _ _ x) as [y u]. cbn [conduct]. intros E.
        injection E as <- <- <-. exact He.
    + intros a' x' s E. apply IH. apply (Hrest a' x' (OStatus s)). cbn [mc_step].
      pose proof (aloof_run X (format_of kr) capacity [Some byte] a x) as G. cbn [map from_outside mc_run mc_step rmc_run] in G.
      rewrite E in G. cbn [bind map as_obs] in G. destruct (mc_put (format_of kr) byte a x) as [[a1 x1] s1]. cbn [bind] in G.
      congruence.
  - intros [_ Hrest]. apply IH. specialize (Hrest (fst (mc_get a)) x (OByte (snd (mc_get a)))).
    cbn [mc_step] in Hrest. destruct (mc_get a) as [a1 c]. apply Hrest. reflexivity.
Qed.

(** Such callbacks are those of C35 and C42. *)
Theorem C60_aloof : forall (X : Type) p size_max depth dbl (kr : keyring X) ft g g' b ops x,
  wf_platform p -> keyring_ok p kr -> well_sized dbl kr ft ->
  make_buffered dbl kr ft g g' = Some b ->
  length (ibuf (b_bufs b)) <= size_max ->
  along (format_of kr) (legitimate p dbl kr ft) (map from_outside ops) (fresh kr) x ->
  ('(y, vs) <- seen (run_r p size_max aloof (S depth) ops b x);; Ok (y, map as_obs vs))
  = observe (run_ops p (map from_outside ops) b x).
Proof.
  intros X p size_max depth dbl kr ft g g' b ops x Hp Hk Hs Hb Hmax Hal.
  rewrite (C60_refines X p size_max aloof depth dbl kr ft g g' b ops x Hp Hk Hs Hb Hmax).
  2:{ apply aloof_fair. exact Hal. }
  rewrite (runs_agree p dbl kr ft Hp Hk Hs g g' b _ x Hb Hal).
  rewrite (aloof_run X (format_of kr) (length (ibuf (b_bufs b)))).
  destruct (rmc_run _ _ _ _ _ _) as [[[a2 x2] vs]|e]; reflexivity.
Qed.

(** ** Examples *)

(** The callback without parameter (index 1) sends to its own dispatcher the
    request for itself twice, asks for a response and replaces itself. *)
Definition ex_other : func log := mk_func (f_sig ex_notify) (fun args x => ((9, args) :: x, VInt 0)).
Definition remember (n : nat) (vs : list val) (s : script log) : script log := SWorld (fun x => ((n, vs) :: x, s)).
Definition status_number (s : packet_status) : Z :=
  match s with LOADING_PACKET => 1 | DROPPED_PACKET => 2 | RESOLVED_PACKET => 3 end.
Definition ex_does : behaviour log := fun i f args =>
  match i with
  | 1 =>
      SPut 1 (fun s1 => SPut 1 (fun s2 => SGet (fun c => SIsLoaded (fun l =>
        remember 7 [VInt (status_number s1); VInt (status_number s2); VInt c; VInt (if l then 1 else 0)]
          (SReplace 1 (ByFunctor ex_other) (aloof i f args))))))
  | _ => aloof i f args
  end.
Definition ex_ops : list (option Z) := map Some [1; 1; 0; 255; 254; 5]%Z ++ [None; None; None; None].

Ltac next_put t' :=
  match goal with
  | |- forall a1 x1 s, rmc_put ?fm ?c ?d ?o (mk_machine ?i ?out ?t) ?x = Ok (a1, x1, s) -> _ =>
      let r := constr:(rmc_put fm c d o (mk_machine i out t) x) in
      let i' := eval vm_compute in (match r with Ok (a, _, _) => mc_in a | Fault _ => [] end) in
      let out' := eval vm_compute in (match r with Ok (a, _, _) => mc_out a | Fault _ => [] end) in
      let x' := eval vm_compute in (match r with Ok (_, y, _) => y | Fault _ => x end) in
      let v := eval vm_compute in (match r with Ok (_, _, b) => b | Fault _ => LOADING_PACKET end) in
      let E := fresh in
      let E' := fresh in
      assert (E : r = Ok (mk_machine i' out' t', x', v)) by (vm_compute; reflexivity);
      intros ? ? ? E'; rewrite E in E'; clear E; injection E' as <- <- <-
  end.

Ltac put_is_fair :=
  split; [split; [discriminate|reflexivity]|]; split; [left; reflexivity|].

Example C60_example : exists b,
  keyring_ok pc_native ex_keyring /\ well_sized true ex_keyring ANY
  /\ make_buffered true ex_keyring ANY [9; 9; 9]%Z [] = Some b
  /\ length (ibuf (b_bufs b)) = 5
  /\ fair (format_of ex_keyring) 5 ex_does pc_native true ANY (kr_signatures ex_keyring) ex_ops (fresh ex_keyring) []
  /\ seen (run_r pc_native 255 ex_does 1 ex_ops b []) =
     Ok ([(0, [VInt (-2); VInt 5]); (9, []); (7, [VInt 1; VInt 1; VInt 0; VInt 0]);
          (1, []); (7, [VInt 1; VInt 1; VInt 0; VInt 0])],
         [inl RESOLVED_PACKET; inl RESOLVED_PACKET;
          inl LOADING_PACKET; inl LOADING_PACKET; inl LOADING_PACKET; inl RESOLVED_PACKET;
          inr 0; inr 0; inr 0; inr 3]%Z).
Proof.
  eexists. split; [exact ex_keyring_ok|]. split; [exact (proj1 ex_well_sized)|]. split; [reflexivity|].
  split; [reflexivity|]. split; [|vm_compute; reflexivity].
  unfold ex_ops, fresh. cbn [map app fair]. set (t := map snd (kr_funcs ex_keyring)).
  assert (Hrep : script_ok ANY (kr_signatures ex_keyring) (ex_does 1 ex_notify [])
                 /\ script_ok ANY (kr_signatures ex_keyring) (ex_does 1 ex_other [])).
  { split; cbn [ex_does remember aloof script_ok snd f_call ex_notify ex_other]; intros; (split; [|intros; exact I]);
      (split; [reflexivity|reflexivity]). }
  split.
  { put_is_fair. change (examine _ _ _) with (Request ex_notify ([] : list Z)). cbv beta iota.
    split; [constructor|]. split; [exact (proj1 Hrep)|]. intros. exact I. }
  next_put (update t 1 ex_other). split.
  { put_is_fair. change (examine _ _ _) with (Request ex_other ([] : list Z)). cbv beta iota.
    split; [constructor|]. split; [exact (proj2 Hrep)|]. intros. exact I. }
  next_put (update t 1 ex_other). split.
  { put_is_fair. change (examine _ _ _) with (@Incomplete log). exact I. }
  next_put (update t 1 ex_other). split.
  { put_is_fair. change (examine _ _ _) with (@Incomplete log). exact I. }
  next_put (update t 1 ex_other). split.
  { put_is_fair. change (examine _ _ _) with (@Incomplete log). exact I. }
  next_put (update t 1 ex_other). split; [|intros; exact I].
  put_is_fair. change (examine _ _ _) with (Request ex_add [255; 254; 5]%Z). cbv beta iota.
  split; [vm_compute; repeat constructor|]. split; [intros x; exact I|].
  intros table x' v E. vm_compute in E. injection E as <- <- <-. vm_compute. repeat constructor; range.
Qed.

(** A fifth byte does not fit. *)
Definition ex_floods : behaviour log := fun i f args =>
  SPut 0 (fun _ => SPut 0 (fun _ => SPut 0 (fun _ => SPut 0 (fun _ => SPut 0 (fun _ => aloof i f args))))).
Example C60_example_floods : exists b,
  make_buffered true ex_keyring ANY [9; 9; 9]%Z [] = Some b
  /\ fair (format_of ex_keyring) 5 ex_floods pc_native true ANY (kr_signatures ex_keyring) [Some 1%Z] (fresh ex_keyring) []
  /\ seen (run_r pc_native 255 ex_floods 1 [Some 1%Z] b []) = Fault OutOfBounds.
Proof.
  eexists. split; [reflexivity|]. split; [|vm_compute; reflexivity].
  cbn [fair]. split; [|intros; exact I].
  put_is_fair. change (examine _ _ _) with (Request ex_notify ([] : list Z)). cbv beta iota.
  split; [constructor|]. split; [|intros; exact I]. cbn. intros. exact I.
Qed.

(** A callback which sends the response itself sends nothing; one which waits for
    the next request ends up out of bounds, even if all it is given are requests for
    the callback without parameter. *)
Definition ex_sends : behaviour log := fun i f args =>
  SWriteTo (fun c x => Ok ((8, [VInt c]) :: x)) (aloof i f args).
Definition ex_waits : behaviour log := fun i f args =>
  SReadFrom (fun x => Ok ((8, []) :: x, 1%Z)) (fun _ => aloof i f args).
Example C60_example_nested : exists b,
  make_buffered true ex_keyring ANY [9; 9; 9]%Z [] = Some b
  /\ fair (format_of ex_keyring) 5 ex_sends pc_native true ANY (kr_signatures ex_keyring) [Some 1%Z] (fresh ex_keyring) []
  /\ seen (run_r pc_native 255 ex_sends 1 [Some 1%Z] b []) = Ok ([(1, [])], [inl RESOLVED_PACKET])
  /\ fair (format_of ex_keyring) 5 ex_waits pc_native true ANY (kr_signatures ex_keyring) [Some 1%Z] (fresh ex_keyring) []
  /\ seen (run_r pc_native 255 ex_waits 1 [Some 1%Z] b []) = Fault OutOfBounds.
Proof.
  eexists. split; [reflexivity|]. split; [|split; [vm_compute; reflexivity|split; [|vm_compute; reflexivity]]].
  all: cbn [fair]; (split; [|intros; exact I]).
  all: put_is_fair; change (examine _ _ _) with (Request ex_notify ([] : list Z)); cbv beta iota.
  all: (split; [constructor|]); (split; [|intros; exact I]); cbn; intros; exact I.
Qed.

Print Assumptions C60_refines.
Print Assumptions C60_depth.
Print Assumptions C60_aloof.
