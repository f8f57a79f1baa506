(** Property C111: plain dispatchers and keys when something throws. *)

From Coq Require Import List ZArith Lia Bool Arith ZifyBool ZifyNat String.
From Verif Require Import Base CInt Spec IntModel Conditions MemFacts TypeLevel Serial TupleModel
  TypeLevelProofs IntProofs SignedProofs SerialProofs CodecFacts Bounds TupleProofs SpecRpc Rpc RpcProofs
  Hosts Closed PropertiesTypes PropertiesRpc Buffered SpecBuffered BufferedProofs PropertiesBuffered
  PropertiesBuffers Counters PropertiesCounters Classes Methods PropertiesMethods Throwing PropertiesThrowing ThrowingCalls.
From Verif Require Cpp Exceptions PropertiesExceptions PropertiesTuple PropertiesPackets PropertiesPyRaise PropertiesStreams.
Import ListNotations.
Open Scope string_scope.
Open Scope list_scope.
Open Scope nat_scope.

(** ** The statements of [operator()] *)

Section Statements.
  Variable p : platform.
  Variable sz : nat.
  Hypothesis Hp : wf_platform p.
  Hypothesis Hsz : p_int_size p <= sz <= 8.
  Context {X : Type}.
  Variable fuel : nat.
  Variable throws : Exceptions.throwing X.
  Variable src : Exceptions.esource X.
  Variable dest : Exceptions.edestination X.
  Variable b : members X.

  Notation eval := (eval_x p sz fuel throws src dest).
  Notation exec := (exec_x p sz fuel throws src dest).

  (** [src()] as the statements of dispatcher.hpp 119-127 evaluate it. *)
  Definition src_in : Exceptions.esource (state X) :=
    fun st => both st1 v <~ eval CallSrc st;; z <- number v;; ended st1 z.
  (** [dest(byte)], the call of action.hpp 34-41. *)
  Definition dest_in : Exceptions.edestination (state X) :=
    fun byte st =>
      both st1 o <~ exec (CallDest (Read (Local "byte"))) (declare "byte" (Number (CInt 1 false) byte) st);;
      ended (leave (st_locals st) st1) tt.

  (** The world is the one of [r]; so are the local variables, unless something
      was thrown. *)
  Definition within_ {A : Type} (L : list (string * value)) (r : res (X * Exceptions.outcome A))
      (r' : res (state X * Exceptions.outcome A)) : Prop :=
    match r with
    | Fault f => r' = Fault f
    | Ok (x, Exceptions.Returned a) => r' = Ok (mk_state b L x, Exceptions.Returned a)
    | Ok (x, Exceptions.Thrown) => exists l, r' = Ok (mk_state b l x, Exceptions.Thrown)
    end.

  Lemma within_then : forall (A B : Type) L (r : res (X * Exceptions.outcome A)) r' (k : X -> A -> res (X * Exceptions.outcome B)) k',
    within_ L r r' -> (forall x a, within_ L (k x a) (k' (mk_state b L x) a)) -> within_ L (then_ r k) (then_ r' k').
  Proof.
    intros A B L r r' k k' H Hk. destruct r as [[x [a|]]|f]; cbn [within_] in H.
    - rewrite H. cbn [then_ bind]. apply Hk.
    - destruct H as (l & ->). cbn. eauto.
    - rewrite H. reflexivity.
  Qed.

  Lemma within_bind : forall (A B : Type) L (r : res A) (k : A -> res (X * Exceptions.outcome B)) k',
    (forall a, within_ L (k a) (k' a)) -> within_ L (bind r k) (bind r k').
  Proof. intros A B L [a|f] k k' H; cbn [bind]; auto. reflexivity. Qed.

  Lemma src_in_ok : forall L x, within_ L (src x) (src_in (mk_state b L x)).
  Proof.
    intros L x. unfold src_in. cbn [eval_x st_world st_object st_locals].
    destruct (src x) as [[x1 [z|]]|f]; cbn; eauto.
  Qed.

  Lemma dest_in_ok : forall L byte x, within_ L (dest byte x) (dest_in byte (mk_state b L x)).
  Proof.
    intros L byte x. unfold dest_in. gox.
    destruct (dest byte x) as [[x1 [[]|]]|f]; cbn [bind then_ within_]; eauto.
    unfold leave. gox. replace (S (List.length L) - List.length L) with 1 by lia. reflexivity.
  Qed.

  Lemma fill_in : forall L k pos x mem, within_ L (fill_x src k pos x mem) (fill_x src_in k pos (mk_state b L x) mem).
  Proof.
    intros L. induction k as [|k IH]; intros pos x mem; cbn [fill_x]; [reflexivity|].
    apply within_then; [apply src_in_ok|]. intros x1 z. apply within_bind. intros mem'. apply IH.
  Qed.

  Lemma read_tuple_in : forall L e m ts x, within_ L (read_tuple_x p e m ts src x) (read_tuple_x p e m ts src_in (mk_state b L x)).
  Proof. intros L e m ts x. unfold read_tuple_x. apply within_bind. intros st. apply fill_in. Qed.

  Lemma put_each_in : forall L bs x, within_ L (put_each_x dest bs x) (put_each_x dest_in bs (mk_state b L x)).
  Proof.
    intros L. induction bs as [|z bs IH]; intros x; cbn [put_each_x]; [reflexivity|].
    apply within_then; [apply dest_in_ok|]. intros x1 []. apply IH.
  Qed.

  Lemma get_index_in : forall L d x,
    within_ L (get_index_x p d src x) (get_index_x p (within_dispatcher d) src_in (mk_state b L x)).
  Proof.
    intros L d x. unfold get_index_x, within_dispatcher. cbn [d_keyring kr_e kr_m].
    rewrite index_size_map. apply within_then; [apply read_tuple_in|]. intros x1 st. apply within_bind.
    intros [z|l]; reflexivity.
  Qed.

  Lemma run_in : forall L i a x,
    within_ L (run_x p throws i a src dest x)
      (run_x p (throws_within throws) i (within_action a) src_in dest_in (mk_state b L x)).
  Proof.
    intros L i a x. unfold run_x.
    set (m0 := match a with Storage o => o | NoStorage c => Some c end).
    assert (E2 : match within_action a with Storage o => o | NoStorage c => Some c end
                 = option_map (fun c => mk_model (m_e c) (m_m c) (within (m_func c))) m0)
      by (destruct a as [[[e m f]|]|[e m f]]; reflexivity).
    rewrite E2. clear E2. destruct m0 as [[e m f]|]; cbn [option_map]; [|reflexivity].
    cbn [m_e m_m m_func]. change (f_sig (within f)) with (f_sig f).
    apply within_then; [apply read_tuple_in|]. intros x1 st. apply within_bind. intros args.
    unfold throws_within. cbn [st_object st_locals st_world].
    destruct (throws i args x1) as [x2|]; cbn [option_map within_]; [eauto|].
    cbn [within f_call st_object st_locals st_world]. destruct (f_call f args x1) as [x2 r].
    destruct (sig_ret (f_sig f)) as [t|]; [|reflexivity].
    apply within_bind. intros rt. apply within_bind. intros bs. apply put_each_in.
  Qed.

  Lemma get_index_x_range : forall d x x' i, get_index_x p d src x = Ok (x', Exceptions.Returned i) ->
    (Z.of_nat i < space (kr_index_size (d_keyring d)))%Z.
  Proof.
    intros d x x' i E. unfold get_index_x in E.
    destruct (read_tuple_x p _ _ _ src x) as [[x1 [st|]]|]; cbn [then_ bind] in E; try discriminate.
    ok_inv E v. unfold get, tuple_at in E0. cbn [v_types v_e v_m v_kind v_begin] in E0.
    change (at17 [TUns (kr_index_size (d_keyring d))] 0) with (Some (TUns (kr_index_size (d_keyring d)))) in E0. cbn iota in E0.
    ok_inv E0 o. unfold read_at in E0. cbn [read_as] in E0. ok_inv E0 z. injection E0 as <-.
    apply from_endianess_range in E2. unfold ended in E. injection E as <- <-. lia.
  Qed.

  Lemma dispatch_exec_x : forall x, seen (exec dispatch_body (mk_state b [] x))
    = mapped (fun q => (b, fst q,
                map_outcome (fun i => Returned (Number (CInt (index_length (s_dispatcher b)) false) (Z.of_nat i))) (snd q)))
        (dispatch_x p throws (s_dispatcher b) src dest x).
  Proof.
    intros x. unfold dispatch_body, dispatch_x. set (d := s_dispatcher b).
    assert (E : exec (Auto "index" (GetIndex CallSrc)) (mk_state b [] x)
                = both st1 i <~ get_index_x p (within_dispatcher d) src_in (mk_state b [] x);;
                  ended (declare "index" (Number (CInt (index_length d) false) (Z.of_nat i)) st1) Next).
    { change (exec (Auto "index" (GetIndex CallSrc)) (mk_state b [] x)) with
        (both st1 v <~ (both st1 index <~ get_index_x p (within_dispatcher d) src_in (mk_state b [] x);;
                        ended st1 (Number (CInt (index_length d) false) (Z.of_nat index)));;
         ended (declare "index" v st1) Next).
      destruct (get_index_x p (within_dispatcher d) src_in (mk_state b [] x)) as [[st1 [i|]]|]; reflexivity. }
    pose proof (get_index_in [] d x) as W.
    destruct (get_index_x p d src x) as [[x1 [i|]]|f] eqn:Ei; cbn [within_] in W.
    2:{ destruct W as (l & W). rewrite W in E. cbn [then_ bind] in E. erewrite thrown_x by exact E. reflexivity. }
    2:{ rewrite W in E. cbn [then_ bind] in E. erewrite fault_x by exact E. reflexivity. }
    rewrite W in E. cbn [then_ bind] in *. erewrite next_x by exact E. clear E W.
    apply get_index_x_range in Ei. fold (index_length d) in Ei.
    set (L := [("index", Number (CInt (index_length d) false) (Z.of_nat i))]).
    change (declare "index" (Number (CInt (index_length d) false) (Z.of_nat i)) (mk_state b [] x1)) with (mk_state b L x1).
    assert (E : eval (Compare Less (Read (Local "index")) DispatcherSize) (mk_state b L x1)
                = ended (mk_state b L x1) (bool_value (i <? d_size d))).
    { unfold L. gox. fold d. pose proof (index_length_range X d). pose proof (d_size_range p sz Hsz d).
      rewrite !(convert_index p sz) by (auto; lia). unfold bool_value.
      replace (Z.of_nat i <? Z.of_nat (d_size d))%Z with (i <? d_size d) by (destruct (Nat.ltb_spec i (d_size d)); lia).
      reflexivity. }
    pose proof (if_x p sz fuel throws src dest _ (RunAction (Read (Local "index")) CallSrc "byte" (CallDest (Read (Local "byte")))) Skip
      _ _ _ _ E (truth_bool _)) as E1. clear E.
    destruct (i <? d_size d).
    - change (exec (RunAction ?e CallSrc "byte" ?s) (mk_state b L x1)) with
        (a <- action_at (within_dispatcher d) (Z.to_nat (Z.of_nat i));;
         both st2 u <~ run_x p (throws_within throws) (Z.to_nat (Z.of_nat i)) a src_in dest_in (mk_state b L x1);;
         ended st2 Next) in E1.
      rewrite Nat2Z.id in E1. unfold within_dispatcher in E1. rewrite action_at_map in E1.
      unfold action_at. destruct (nth_error (d_actions d) i) as [a|]; cbn [bind mapped] in *;
        [|rewrite (fault_x p sz fuel throws src dest _ _ _ OutOfBounds) by exact E1; reflexivity].
      pose proof (run_in L i a x1) as W.
      destruct (run_x p throws i a src dest x1) as [[x2 [u|]]|f]; cbn [within_] in W.
      + rewrite W in E1. cbn [then_ bind] in *. erewrite next_x by exact E1. reflexivity.
      + destruct W as (l & W). rewrite W in E1. cbn [then_ bind] in E1. erewrite thrown_x by exact E1. reflexivity.
      + rewrite W in E1. cbn [then_ bind] in E1. erewrite fault_x by exact E1. reflexivity.
    - erewrite next_x by exact E1. reflexivity.
  Qed.
End Statements.

(** ** What is read and written *)

Section Bytes.
  Variables (p : platform) (e : endianess) (m : signed_mode).
  Hypothesis Hp : wf_platform p.
  Context {X : Type}.

  Lemma yields_app : forall (src : Exceptions.esource X) l l' x y, PropertiesExceptions.yields src x (l ++ l') y ->
    exists z, PropertiesExceptions.yields src x l z /\ PropertiesExceptions.yields src z l' y.
  Proof.
    intros src. induction l as [|c l IH]; intros l' x y H.
    - exists x. split; [constructor|exact H].
    - cbn [app] in H. inversion H as [|? x1 ? ? ? H1 H2]; subst. destruct (IH _ _ _ H2) as (z & K1 & K2).
      exists z. split; auto. econstructor; eauto.
  Qed.

  Lemma fill_yields : forall (src : Exceptions.esource X) bs x y off mem, PropertiesExceptions.yields src x bs y ->
    off + List.length bs <= List.length mem ->
    fill_x src (List.length bs) off x mem = ended y (splice mem off bs).
  Proof.
    intros src. induction bs as [|c bs IH]; intros x y off mem H Hl; cbn [List.length fill_x] in *.
    - inversion H; subst. rewrite splice_nil. reflexivity.
    - inversion H as [|? x1 ? ? ? H1 H2]; subst. rewrite H1. cbn [then_ bind]. rewrite store_ok by lia. cbn [bind].
      rewrite (IH x1 y) by (auto; rewrite splice_length; cbn; lia). unfold ended. do 3 f_equal.
      change (c :: bs) with ([c] ++ bs). rewrite <- (splice_splice_app mem off [c] bs) by (cbn; lia).
      f_equal. cbn. lia.
  Qed.

  Lemma fill_throws : forall (src : Exceptions.esource X) bs x y y' n off mem, PropertiesExceptions.yields src x bs y ->
    src y = Ok (y', Exceptions.Thrown) -> List.length bs < n -> off + n <= List.length mem ->
    fill_x src n off x mem = Ok (y', Exceptions.Thrown).
  Proof.
    intros src. induction bs as [|c bs IH]; intros x y y' n off mem H Ht Hn Hl; destruct n as [|n]; cbn [List.length] in *; try lia;
      cbn [fill_x].
    - inversion H; subst. rewrite Ht. reflexivity.
    - inversion H as [|? x1 ? ? ? H1 H2]; subst. rewrite H1. cbn [then_ bind]. rewrite store_ok by lia. cbn [bind].
      apply (IH x1 y y'); auto; [lia|]. rewrite splice_length; cbn; lia.
  Qed.

  Lemma read_tuple_x_eq : forall ts (src : Exceptions.esource X) x, Forall (ty_ok p e m) ts ->
    exists mem, List.length mem = wire_sizes ts /\ read_tuple_x p e m ts src x = fill_x src (wire_sizes ts) 0 x mem.
  Proof.
    intros ts src x Hok. exists (enc_list e m ts (map default_val ts)).
    assert (Hd : Forall2 (encodable p m) ts (map default_val ts)).
    { induction Hok; cbn [map]; constructor; auto. apply PropertiesTuple.default_ok. apply H. }
    split; [apply enc_list_length; eapply encodable_has; eauto|].
    unfold read_tuple_x. pose proof (tuple_size_wire ts (tys_layout p e m ts Hok)) as Hs. rewrite Hs.
    unfold default_construct. rewrite (construct_ok p e m Hp) by (auto; apply indet_bytes_length). cbn [bind].
    unfold v_end. cbn [tuple_at v_begin v_types]. rewrite Hs. f_equal. lia.
  Qed.

  Lemma read_yields : forall ts (src : Exceptions.esource X) bs x y, Forall (ty_ok p e m) ts ->
    PropertiesExceptions.yields src x bs y -> List.length bs = wire_sizes ts ->
    read_tuple_x p e m ts src x = ended y bs.
  Proof.
    intros ts src bs x y Hok H Hl. destruct (read_tuple_x_eq ts src x Hok) as (mem & Hm & ->).
    rewrite <- Hl. rewrite (fill_yields src bs x y) by (auto; lia). f_equal. apply splice_all. lia.
  Qed.

  Lemma read_throws : forall ts (src : Exceptions.esource X) bs x y y', Forall (ty_ok p e m) ts ->
    PropertiesExceptions.yields src x bs y -> src y = Ok (y', Exceptions.Thrown) -> List.length bs < wire_sizes ts ->
    read_tuple_x p e m ts src x = Ok (y', Exceptions.Thrown).
  Proof.
    intros ts src bs x y y' Hok H Ht Hl. destruct (read_tuple_x_eq ts src x Hok) as (mem & Hm & ->).
    apply (fill_throws src bs x y y'); auto; lia.
  Qed.

  Lemma put_accepts : forall (dest : Exceptions.edestination X) bs x y, PropertiesExceptions.accepts dest x bs y ->
    put_each_x dest bs x = ended y tt.
  Proof.
    intros dest bs x y H. induction H as [x|x x1 c bs y H1 H2 IH]; cbn [put_each_x]; auto. rewrite H1. exact IH.
  Qed.

  Lemma put_throws : forall (dest : Exceptions.edestination X) bs lost rest x y y', PropertiesExceptions.accepts dest x bs y ->
    dest lost y = Ok (y', Exceptions.Thrown) -> put_each_x dest (bs ++ lost :: rest) x = Ok (y', Exceptions.Thrown).
  Proof.
    intros dest bs lost rest x y y' H Ht. induction H as [x|x x1 c bs y H1 H2 IH]; cbn [put_each_x app].
    - rewrite Ht. reflexivity.
    - rewrite H1. cbn [then_ bind]. auto.
  Qed.
End Bytes.

(** ** One call of [operator()] *)

Section Dispatch.
  Variable p : platform.
  Hypothesis Hp : wf_platform p.
  Context {X : Type}.
  Variable throws : Exceptions.throwing X.
  Variables (kr : keyring X) (ft : action_features).
  Hypothesis Hk : keyring_ok p kr.
  Variables (d : dispatcher X) (table : list (func X)).
  Hypothesis Hd : table_ok kr ft d table.

  Notation fm := (format_of kr).
  Notation w := (kr_index_size kr).

  Lemma table_size : d_size d = List.length table.
  Proof.
    destruct Hd as (H1 & _ & _ & H4). unfold d_size. rewrite H1. destruct (index_size X kr (proj1 Hk)) as (_ & _ & ->).
    assert (E : List.length (map f_sig table) = List.length (kr_signatures kr)) by (rewrite H4; reflexivity).
    unfold kr_signatures in E. rewrite !map_length in E. lia.
  Qed.

  Lemma index_tys : Forall (ty_ok p (kr_e kr) (kr_m kr)) [TUns w].
  Proof. constructor; auto. apply index_ty_ok. apply Hk. Qed.

  Lemma index_yields : forall src x bs y, PropertiesExceptions.yields src x bs y -> List.length bs = w -> Forall is_byte bs ->
    get_index_x p d src x = ended y (Z.to_nat (wire_value (kr_e kr) bs)).
  Proof.
    intros src x bs y H Hl Hb. destruct Hd as (H1 & _). unfold get_index_x. rewrite H1. cbv zeta.
    assert (Hw : List.length bs = wire_sizes [TUns w]) by (cbn; lia).
    rewrite (read_yields p _ _ Hp [TUns w] src bs x y index_tys H Hw). cbn [ended then_ bind].
    rewrite (get_decodes p _ _ Hp [TUns w] bs 0 (TUns w)); auto using index_tys.
    - cbn [bind dec]. unfold offset_of. cbn [firstn map list_sum fold_right wire_size].
      rewrite slice_0_all by auto. reflexivity.
    - cbn. auto.
  Qed.

  Lemma index_throws : forall src x bs y y', PropertiesExceptions.yields src x bs y -> src y = Ok (y', Exceptions.Thrown) ->
    List.length bs < w -> get_index_x p d src x = Ok (y', Exceptions.Thrown).
  Proof.
    intros src x bs y y' H Ht Hl. destruct Hd as (H1 & _). unfold get_index_x. rewrite H1. cbv zeta.
    rewrite (read_throws p _ _ Hp [TUns w] src bs x y y' index_tys H Ht); [reflexivity|]. cbn. lia.
  Qed.

  Lemma action_of : forall i f, nth_error table i = Some f ->
    action_at d i = Ok (make_action ft (kr_e kr) (kr_m kr) f) /\ sig_ok p (kr_e kr) (kr_m kr) (f_sig f)
    /\ (i <? d_size d) = true.
  Proof.
    intros i f Hi. destruct Hd as (_ & _ & H3 & H4). split; [|split].
    - unfold action_at. rewrite H3, nth_error_map, Hi. reflexivity.
    - apply (keyring_sig p kr Hk). rewrite <- H4. apply in_map. eapply nth_error_In; eauto.
    - rewrite table_size. apply Nat.ltb_lt. apply nth_error_Some. congruence.
  Qed.

  (** What a call of the action of [f] does, once the bytes of its arguments are
      available. *)
  Lemma run_made : forall i f src dest x, sig_ok p (kr_e kr) (kr_m kr) (f_sig f) ->
    run_x p throws i (make_action ft (kr_e kr) (kr_m kr) f) src dest x
    = both w1 st <~ read_tuple_x p (kr_e kr) (kr_m kr) (params f) src x;;
      args <- get_each p (tuple_at (kr_e kr) (kr_m kr) (params f) 0) (make_index_sequence14 (List.length (params f))) st;;
      match throws i args w1 with
      | Some w2 => Ok (w2, Exceptions.Thrown)
      | None =>
          let (w2, r) := f_call f args w1 in
          match ret f with
          | None => ended w2 tt
          | Some t =>
              rt <- construct p (kr_e kr) (kr_m kr) [t] [r] (indet_bytes p (tuple_size [t]));;
              bs <- content (tuple_at (kr_e kr) (kr_m kr) [t] 0) rt;;
              put_each_x dest bs w2
          end
      end.
  Proof. intros i f src dest x _. unfold run_x. destruct ft; reflexivity. Qed.

  Lemma args_decoded : forall (f : func X) bs, sig_ok p (kr_e kr) (kr_m kr) (f_sig f) -> List.length bs = wire_sizes (params f) ->
    Forall is_byte bs -> decodable_list p (kr_e kr) (kr_m kr) (params f) bs ->
    get_each p (tuple_at (kr_e kr) (kr_m kr) (params f) 0) (make_index_sequence14 (List.length (params f))) bs
    = Ok (dec_list (kr_e kr) (kr_m kr) (params f) bs).
  Proof.
    intros f bs [Hps _] Hl Hb Hdec.
    pose proof (invoke_decodes p (kr_e kr) (kr_m kr) Hp (list val) (params f) bs (fun args (u : unit) => (u, args)) tt Hps Hl Hb Hdec) as I.
    unfold invoke in I. cbn [tuple_at v_types] in I. ok_inv I args. injection I as ->. reflexivity.
  Qed.

  Lemma result_encoded : forall (t : ty) v, ty_ok p (kr_e kr) (kr_m kr) t -> encodable p (kr_m kr) t v ->
    (rt <- construct p (kr_e kr) (kr_m kr) [t] [v] (indet_bytes p (tuple_size [t]));;
     content (tuple_at (kr_e kr) (kr_m kr) [t] 0) rt) = Ok (enc (kr_e kr) (kr_m kr) t v).
  Proof.
    intros t v Ht Hv. assert (Hs : tuple_size [t] = wire_sizes [t]) by (apply tuple_size_wire; constructor; auto; apply Ht).
    rewrite Hs, (construct_ok p _ _ Hp) by (auto; apply indet_bytes_length).
    cbn [bind]. rewrite content_eq. cbn [tuple_at v_begin v_types]. rewrite Hs.
    assert (Hl : List.length (enc_list (kr_e kr) (kr_m kr) [t] [v]) = wire_sizes [t]).
    { apply enc_list_length. eapply encodable_has. constructor; eauto. }
    rewrite load_range_ok by lia. rewrite slice_0_all by auto. cbn [enc_list]. rewrite app_nil_r. reflexivity.
  Qed.

  (** A prefix of a request, then the getter throws. *)
  Lemma dispatch_getter : forall src dest x bs x1 x2,
    PropertiesExceptions.yields src x bs x1 -> Forall is_byte bs -> src x1 = Ok (x2, Exceptions.Thrown) ->
    examine fm table bs = Incomplete -> dispatch_x p throws d src dest x = Ok (x2, Exceptions.Thrown).
  Proof.
    intros src dest x bs x1 x2 Hy Hb Ht Hex. unfold examine in Hex. change (fm_w fm) with w in Hex.
    unfold dispatch_x. destruct (Nat.ltb_spec (List.length bs) w) as [Hl|Hl].
    - rewrite (index_throws src x bs x1 x2) by auto. reflexivity.
    - rewrite <- (firstn_skipn w bs) in Hy, Hb. apply yields_app in Hy. destruct Hy as (z & Y1 & Y2).
      apply Forall_app in Hb. destruct Hb as (B1 & B2).
      rewrite (index_yields src x (firstn w bs) z) by (auto; rewrite firstn_length; lia). cbn [then_ ended bind].
      unfold designated in Hex. change (fm_w fm) with w in Hex. change (fm_e fm) with (kr_e kr) in Hex.
      destruct (nth_error table (Z.to_nat (wire_value (kr_e kr) (firstn w bs)))) as [f|] eqn:Ef; [|discriminate].
      destruct (Nat.ltb_spec (List.length bs) (w + wire_sizes (params f))) as [Hl'|]; [|discriminate].
      destruct (action_of _ _ Ef) as (Ea & Hs & Hi). rewrite Hi, Ea. cbn [bind]. rewrite run_made by auto.
      rewrite (read_throws p _ _ Hp (params f) src (skipn w bs) z x1 x2); auto.
      + apply Hs.
      + rewrite skipn_length. lia.
  Qed.

  (** An index which designates nothing. *)
  Lemma dispatch_invalid : forall src dest x bs x1,
    PropertiesExceptions.yields src x bs x1 -> Forall is_byte bs -> List.length bs = w ->
    examine fm table bs = Invalid ->
    dispatch_x p throws d src dest x = Ok (x1, Exceptions.Returned (PropertiesExceptions.index_of fm bs)).
  Proof.
    intros src dest x bs x1 Hy Hb Hl Hex. unfold examine in Hex. change (fm_w fm) with w in Hex.
    unfold dispatch_x. rewrite (index_yields src x bs x1) by auto. cbn [then_ ended bind].
    destruct (Nat.ltb_spec (List.length bs) w) as [|_]; [lia|]. unfold designated in Hex. change (fm_w fm) with w in Hex.
    rewrite firstn_all2 in Hex by lia. change (fm_e fm) with (kr_e kr) in Hex.
    destruct (nth_error table (Z.to_nat (wire_value (kr_e kr) bs))) as [f|] eqn:Ef.
    { destruct (_ <? _) in Hex; discriminate. }
    apply nth_error_None in Ef. rewrite table_size. destruct (Nat.ltb_spec (Z.to_nat (wire_value (kr_e kr) bs)) (List.length table)); [lia|].
    unfold PropertiesExceptions.index_of. change (fm_w fm) with w. rewrite firstn_all2 by lia. reflexivity.
  Qed.

  (** A complete request. *)
  Lemma dispatch_request : forall src dest x bs x1 f payload,
    PropertiesExceptions.yields src x bs x1 -> Forall is_byte bs ->
    examine fm table bs = Request f payload -> List.length payload = wire_sizes (params f) ->
    decodable_list p (kr_e kr) (kr_m kr) (params f) payload ->
    (PropertiesExceptions.thrown fm throws table bs x1 = None ->
     ret_encodable p (kr_m kr) (ret f) (snd (f_call f (dec_list (kr_e kr) (kr_m kr) (params f) payload) x1))) ->
    dispatch_x p throws d src dest x
    = match PropertiesExceptions.thrown fm throws table bs x1 with
      | Some x2 => Ok (x2, Exceptions.Thrown)
      | None =>
          let (x2, out) := serve fm f payload x1 in
          both x3 u <~ put_each_x dest out x2;;
          ended x3 (PropertiesExceptions.index_of fm bs)
      end.
  Proof.
    intros src dest x bs x1 f payload Hy Hb Hex Hl Hdec Henc.
    unfold PropertiesExceptions.thrown in *. rewrite Hex in *. unfold examine in Hex. change (fm_w fm) with w in Hex.
    destruct (Nat.ltb_spec (List.length bs) w) as [|Hw]; [discriminate|].
    unfold dispatch_x. rewrite <- (firstn_skipn w bs) in Hy, Hb. apply yields_app in Hy. destruct Hy as (z & Y1 & Y2).
    apply Forall_app in Hb. destruct Hb as (B1 & B2).
    rewrite (index_yields src x (firstn w bs) z) by (auto; rewrite firstn_length; lia). cbn [then_ ended bind].
    unfold designated in Hex. change (fm_w fm) with w in Hex. change (fm_e fm) with (kr_e kr) in Hex.
    unfold PropertiesExceptions.index_of in *. change (fm_w fm) with w in *. change (fm_e fm) with (kr_e kr) in *.
    change (fm_m fm) with (kr_m kr) in *.
    destruct (nth_error table (Z.to_nat (wire_value (kr_e kr) (firstn w bs)))) as [f'|] eqn:Ef; [|discriminate].
    destruct (Nat.ltb_spec (List.length bs) (w + wire_sizes (params f'))) as [|Hl']; [discriminate|].
    assert (f' = f /\ skipn w bs = payload) as [-> <-] by (split; congruence). clear Hex.
    destruct (action_of _ _ Ef) as (Ea & Hs & Hi). rewrite Hi, Ea. cbn [bind]. rewrite run_made by auto.
    rewrite (read_yields p _ _ Hp (params f) src (skipn w bs) z x1) by (auto; apply Hs). cbn [then_ ended bind].
    rewrite args_decoded by auto. cbn [bind].
    destruct (throws _ _ x1) as [x2|]; [reflexivity|]. specialize (Henc eq_refl).
    unfold serve. change (fm_e fm) with (kr_e kr). change (fm_m fm) with (kr_m kr).
    destruct (f_call f _ x1) as [x2 r]. cbn [snd] in Henc. destruct Hs as [_ Hr]. unfold ret in *.
    destruct (sig_ret (f_sig f)) as [t|]; cbn [response put_each_x ret_ty_ok ret_encodable] in *; [|reflexivity].
    pose proof (result_encoded t r Hr Henc) as R.
    destruct (construct p _ _ [t] [r] _) as [rt|]; cbn [bind] in *; [|discriminate]. rewrite R. reflexivity.
  Qed.
End Dispatch.

(** ** C111 *)

(** The value of type [index_t] which [operator()] returns
    (dispatcher.hpp 119-127). *)
Definition index_value {X : Type} (b : members X) (i : nat) : value :=
  Number (CInt (kr_index_size (d_keyring (s_dispatcher b))) false) (Z.of_nat i).

(** The statements of [operator()]: whatever is thrown and whenever, the
    dispatcher is not changed. *)
Theorem C111_dispatch : forall p sz (X : Type) fuel throws src dest (b : members X) x,
  wf_platform p -> p_int_size p <= sz <= 8 ->
  run_method_x p sz fuel throws src dest TIndex dispatch_body [] b x
  = match dispatch_x p throws (s_dispatcher b) src dest x with
    | Ok (x', Exceptions.Returned i) => Ok (b, x', Exceptions.Returned (index_value b i))
    | Ok (x', Exceptions.Thrown) => Ok (b, x', Exceptions.Thrown)
    | Fault f => Fault f
    end.
Proof.
  intros p sz X fuel throws src dest b x Hp Hsz. rewrite method_seen. rewrite (dispatch_exec_x p sz Hp Hsz).
  destruct (dispatch_x p throws (s_dispatcher b) src dest x) as [[x' [i|]]|f]; cbn [mapped bind fst snd map_outcome]; auto.
  cbn [returned into number_type bind]. rewrite convert_same. reflexivity.
Qed.

Section Outcomes.
  Variables (p : platform) (sz : nat).
  Hypothesis Hp : wf_platform p.
  Hypothesis Hsz : p_int_size p <= sz <= 8.
  Context {X : Type}.
  Variables (fuel : nat) (throws : Exceptions.throwing X) (kr : keyring X) (ft : action_features).
  Hypothesis Hk : keyring_ok p kr.
  Variables (b : members X) (table : list (func X)).
  Hypothesis Hd : table_ok kr ft (s_dispatcher b) table.

  Notation fm := (format_of kr).

  Lemma getter_outcome : forall src dest x bs x1 x2,
    PropertiesExceptions.yields src x bs x1 -> Forall is_byte bs -> src x1 = Ok (x2, Exceptions.Thrown) ->
    examine fm table bs = Incomplete ->
    run_method_x p sz fuel throws src dest TIndex dispatch_body [] b x = Ok (b, x2, Exceptions.Thrown).
  Proof.
    intros src dest x bs x1 x2 H1 H2 H3 H4. rewrite C111_dispatch by auto.
    rewrite (dispatch_getter p Hp throws kr ft Hk (s_dispatcher b) table Hd src dest x bs x1 x2) by auto. reflexivity.
  Qed.

  Lemma request_outcome : forall src dest x bs x1 f payload,
    PropertiesExceptions.yields src x bs x1 -> Forall is_byte bs ->
    examine fm table bs = Request f payload -> List.length payload = wire_sizes (sig_params (f_sig f)) ->
    decodable_list p (kr_e kr) (kr_m kr) (sig_params (f_sig f)) payload ->
    let args := dec_list (kr_e kr) (kr_m kr) (sig_params (f_sig f)) payload in
    let i := Z.to_nat (wire_value (kr_e kr) (firstn (kr_index_size kr) bs)) in
    let call := run_method_x p sz fuel throws src dest TIndex dispatch_body [] b x in
    match throws i args x1 with
    | Some x2 => call = Ok (b, x2, Exceptions.Thrown)
    | None => forall x2 r, f_call f args x1 = (x2, r) -> ret_encodable p (kr_m kr) (sig_ret (f_sig f)) r ->
        let out := response (kr_e kr) (kr_m kr) (sig_ret (f_sig f)) r in
        (forall x3, PropertiesExceptions.accepts dest x2 out x3 -> call = Ok (b, x3, Exceptions.Returned (index_value b i)))
        /\ (forall sent lost rest x3 x4, out = sent ++ lost :: rest ->
              PropertiesExceptions.accepts dest x2 sent x3 -> dest lost x3 = Ok (x4, Exceptions.Thrown) ->
              call = Ok (b, x4, Exceptions.Thrown))
    end.
  Proof.
    intros src dest x bs x1 f payload H1 H2 H3 H4 H5. cbv zeta.
    rewrite C111_dispatch by auto.
    pose proof (dispatch_request p Hp throws kr ft Hk (s_dispatcher b) table Hd src dest x bs x1 f payload H1 H2 H3 H4 H5) as E.
    unfold PropertiesExceptions.thrown in E. rewrite H3 in E. unfold PropertiesExceptions.index_of, params in E.
    change (fm_e fm) with (kr_e kr) in E. change (fm_m fm) with (kr_m kr) in E. change (fm_w fm) with (kr_index_size kr) in E.
    destruct (throws _ _ x1) as [x2|].
    - rewrite E by discriminate. reflexivity.
    - intros x2 r Ef Hr. rewrite Ef in E. specialize (E (fun _ => Hr)).
      unfold serve in E. change (fm_e fm) with (kr_e kr) in E. change (fm_m fm) with (kr_m kr) in E. unfold params, ret in E.
      rewrite Ef in E. split.
      + intros x3 Ha. rewrite E, (put_accepts dest _ _ _ Ha). reflexivity.
      + intros sent lost rest x3 x4 Eo Ha Ht. rewrite E, Eo. rewrite (put_throws dest _ _ _ _ _ _ Ha Ht). reflexivity.
  Qed.
End Outcomes.

(** The getter throws in the middle of a request: the exception leaves
    [operator()], no callback is called, nothing is sent.  The bytes it gave
    before are lost. *)
Theorem C111_getter : forall p sz (X : Type) fuel throws (kr : keyring X) ft b table src dest x bs x1 x2,
  wf_platform p -> p_int_size p <= sz <= 8 -> keyring_ok p kr -> table_ok kr ft (s_dispatcher b) table ->
  PropertiesExceptions.yields src x bs x1 -> Forall is_byte bs -> src x1 = Ok (x2, Exceptions.Thrown) ->
  examine (format_of kr) table bs = Incomplete ->
  run_method_x p sz fuel throws src dest TIndex dispatch_body [] b x = Ok (b, x2, Exceptions.Thrown).
Proof. intros. eapply getter_outcome; eauto. Qed.

(** A complete request.  The callback throws: nothing is sent.  It returns: the
    putter gets the bytes of the response in order, until it throws. *)
Theorem C111_request : forall p sz (X : Type) fuel throws (kr : keyring X) ft b table src dest x bs x1 f payload,
  wf_platform p -> p_int_size p <= sz <= 8 -> keyring_ok p kr -> table_ok kr ft (s_dispatcher b) table ->
  PropertiesExceptions.yields src x bs x1 -> Forall is_byte bs ->
  examine (format_of kr) table bs = Request f payload -> List.length payload = wire_sizes (sig_params (f_sig f)) ->
  decodable_list p (kr_e kr) (kr_m kr) (sig_params (f_sig f)) payload ->
  let args := dec_list (kr_e kr) (kr_m kr) (sig_params (f_sig f)) payload in
  let i := Z.to_nat (wire_value (kr_e kr) (firstn (kr_index_size kr) bs)) in
  let call := run_method_x p sz fuel throws src dest TIndex dispatch_body [] b x in
  match throws i args x1 with
  | Some x2 => call = Ok (b, x2, Exceptions.Thrown)
  | None => forall x2 r, f_call f args x1 = (x2, r) -> ret_encodable p (kr_m kr) (sig_ret (f_sig f)) r ->
      let out := response (kr_e kr) (kr_m kr) (sig_ret (f_sig f)) r in
      (forall x3, PropertiesExceptions.accepts dest x2 out x3 ->
         call = Ok (b, x3, Exceptions.Returned (Number (CInt (kr_index_size kr) false) (Z.of_nat i))))
      /\ (forall sent lost rest x3 x4, out = sent ++ lost :: rest ->
            PropertiesExceptions.accepts dest x2 sent x3 -> dest lost x3 = Ok (x4, Exceptions.Thrown) ->
            call = Ok (b, x4, Exceptions.Thrown))
  end.
Proof.
  intros p sz X fuel throws kr ft b table src dest x bs x1 f payload Hp Hsz Hk Hd H1 H2 H3 H4 H5.
  pose proof (request_outcome p sz Hp Hsz fuel throws kr ft Hk b table Hd src dest x bs x1 f payload H1 H2 H3 H4 H5) as G.
  cbv zeta in *. unfold index_value in G. destruct Hd as (Ed & _). rewrite Ed in G. exact G.
Qed.

(** Calls of callbacks of which some throw: the requests, the bytes which encode
    them, the bytes of the results, what [operator()] returns or throws. *)
Inductive tried {S : Type} (p : platform) (kr : keyring S) (throws : Exceptions.throwing S)
  : list (nat * list val) -> S -> list Z -> list Z -> list (Exceptions.outcome nat) -> S -> Prop :=
| tried_nil : forall s, tried p kr throws [] s [] [] [] s
| tried_returns : forall i name f args s s1 r reqs bytes outs os s2,
    nth_error (kr_funcs kr) i = Some (name, f) -> throws i args s = None ->
    PropertiesPackets.calls p kr f args s s1 r -> tried p kr throws reqs s1 bytes outs os s2 ->
    tried p kr throws ((i, args) :: reqs) s (PropertiesPackets.packet kr i f args ++ bytes)
      (PropertiesPackets.answer kr f r ++ outs) (Exceptions.Returned i :: os) s2
| tried_throws : forall i name f args s s1 reqs bytes outs os s2,
    nth_error (kr_funcs kr) i = Some (name, f) -> throws i args s = Some s1 ->
    Forall2 (encodable p (kr_m kr)) (sig_params (f_sig f)) args -> tried p kr throws reqs s1 bytes outs os s2 ->
    tried p kr throws ((i, args) :: reqs) s (PropertiesPackets.packet kr i f args ++ bytes)
      outs (Exceptions.Thrown :: os) s2.

(** The callbacks act on the user's part of the world. *)
Definition on_user {S : Type} (throws : Exceptions.throwing S) : Exceptions.throwing (wires S) :=
  fun i args w => option_map (mk_wires (w_in w) (w_out w)) (throws i args (w_user w)).

(** A putter which takes every byte. *)
Definition give_always {S : Type} : Exceptions.edestination (wires S) :=
  fun c w => Ok (mk_wires (w_in w) (w_out w ++ [c]) (w_user w), Exceptions.Returned tt).

Lemma take_yields : forall (S : Type) bs rest out (s : S),
  PropertiesExceptions.yields PropertiesExceptions.take_or_throw (mk_wires (bs ++ rest) out s) bs (mk_wires rest out s).
Proof.
  intros S. induction bs as [|c bs IH]; intros rest out s; cbn [app]; [constructor|].
  econstructor; [reflexivity|]. apply IH.
Qed.

Lemma give_accepts : forall (S : Type) bs inp out (s : S),
  PropertiesExceptions.accepts give_always (mk_wires inp out s) bs (mk_wires inp (out ++ bs) s).
Proof.
  intros S. induction bs as [|c bs IH]; intros inp out s; [rewrite app_nil_r; constructor|].
  econstructor; [reflexivity|]. cbn [w_in w_out w_user]. specialize (IH inp (out ++ [c]) s). rewrite <- app_assoc in IH. exact IH.
Qed.

Lemma lifted_packet : forall (S : Type) p (kr : keyring S) ft throws sz fuel (b : members (wires S)) i name f args rest out s,
  wf_platform p -> p_int_size p <= sz <= 8 -> keyring_ok p kr ->
  s_dispatcher b = make_dispatcher (lift_keyring kr) ft ->
  nth_error (kr_funcs kr) i = Some (name, f) -> Forall2 (encodable p (kr_m kr)) (sig_params (f_sig f)) args ->
  let call := run_method_x p sz fuel (on_user throws) PropertiesExceptions.take_or_throw give_always TIndex dispatch_body [] b
                (mk_wires (PropertiesPackets.packet kr i f args ++ rest) out s) in
  match throws i args s with
  | Some s1 => call = Ok (b, mk_wires rest out s1, Exceptions.Thrown)
  | None => forall s1 r, f_call f args s = (s1, r) -> ret_encodable p (kr_m kr) (sig_ret (f_sig f)) r ->
      call = Ok (b, mk_wires rest (out ++ PropertiesPackets.answer kr f r) s1,
                 Exceptions.Returned (Number (CInt (kr_index_size kr) false) (Z.of_nat i)))
  end.
Proof.
  intros S p kr ft throws sz fuel b i name f args rest out s Hp Hsz Hk Hb Hi Ha. cbv zeta.
  set (kr' := lift_keyring kr). set (table := map snd (kr_funcs kr')).
  pose proof (PropertiesStreams.lift_keyring_ok S p kr Hk) as Hk'. fold kr' in Hk'.
  assert (Hsig : map f_sig table = kr_signatures kr') by (unfold table, kr_signatures; rewrite map_map; reflexivity).
  assert (Hd : table_ok kr' ft (s_dispatcher b) table).
  { rewrite Hb. fold kr'. split; [reflexivity|]. split; [reflexivity|]. split; [|exact Hsig].
    unfold make_dispatcher, table. cbn [d_actions]. rewrite map_map. reflexivity. }
  assert (Hf : nth_error table i = Some (lift_func f)).
  { unfold table, kr', lift_keyring. cbn [kr_funcs]. rewrite map_map, nth_error_map, Hi. reflexivity. }
  assert (Ha' : Forall2 (encodable p (kr_m kr')) (sig_params (f_sig (lift_func f))) args) by exact Ha.
  rewrite <- (PropertiesStreams.lift_packet S kr i f args). fold kr'.
  pose proof (PropertiesPyRaise.examine_whole p kr' Hk' table Hsig i (lift_func f) args Hf Ha') as Hex.
  pose proof (PropertiesPackets.packet_bytes kr' i (lift_func f) args) as Hby.
  assert (Hs : sig_ok p (kr_e kr') (kr_m kr') (f_sig (lift_func f))).
  { apply (PropertiesPackets.table_sig_ok p kr' Hk' table Hsig i). exact Hf. }
  assert (Hwf : Forall wf_ty (sig_params (f_sig (lift_func f)))).
  { eapply Forall_impl; [|exact (proj1 Hs)]. intros t Ht. apply Ht. }
  pose proof (request_outcome p sz Hp Hsz fuel (on_user throws) kr' ft Hk' b table Hd PropertiesExceptions.take_or_throw give_always
    (mk_wires (PropertiesPackets.packet kr' i (lift_func f) args ++ rest) out s) _ (mk_wires rest out s) (lift_func f) _
    (take_yields S _ rest out s) Hby Hex) as G.
  specialize (G ltac:(apply enc_list_length; eapply encodable_has; eauto)).
  specialize (G ltac:(apply encodable_decodable_list; auto)).
  cbv zeta in G. rewrite (dec_list_enc_list p) in G by auto.
  rewrite (PropertiesPackets.packet_index kr' i (lift_func f) args) in G.
  assert (Hlt : i < List.length (kr_funcs kr')).
  { unfold kr'. rewrite lift_funcs_length. apply nth_error_Some. congruence. }
  rewrite (wire_index _ kr' (kr_e kr') i (proj1 Hk') Hlt) in G.
  unfold on_user at 1 in G. cbn [w_in w_out w_user] in G.
  destruct (throws i args s) as [s1|]; cbn [option_map] in G; [exact G|].
  intros s1 r Ef Hr. specialize (G (mk_wires rest out s1) r). cbn [lift_func f_call w_user w_in w_out] in G. rewrite Ef in G.
  specialize (G eq_refl Hr). destruct G as [G _]. rewrite (G _ (give_accepts S _ rest out s1)).
  unfold index_value. rewrite Hb. fold kr'. cbn [make_dispatcher d_keyring].
  rewrite (PropertiesStreams.lift_index_size S kr : kr_index_size kr' = kr_index_size kr). reflexivity.
Qed.

(** Requests one after the other through a plain dispatcher, some of which make
    their callback throw: each call consumes its request, nothing is sent for
    those which throw, and the others are served as if nothing had happened. *)
Theorem C111_session : forall (S : Type) p (kr : keyring S) ft throws sz fuel b reqs s bytes outs os s2 rest out,
  wf_platform p -> p_int_size p <= sz <= 8 -> keyring_ok p kr ->
  s_dispatcher b = make_dispatcher (lift_keyring kr) ft ->
  tried p kr throws reqs s bytes outs os s2 ->
  dispatches_x p (on_user throws) sz fuel (map (fun _ => (PropertiesExceptions.take_or_throw, give_always)) reqs) b
    (mk_wires (bytes ++ rest) out s)
  = Ok (b, mk_wires rest (out ++ outs) s2,
        map (map_outcome (fun i => Number (CInt (kr_index_size kr) false) (Z.of_nat i))) os).
Proof.
  intros S p kr ft throws sz fuel b reqs s bytes outs os s2 rest out Hp Hsz Hk Hb H. revert out.
  induction H as [s|i name f args s s1 r reqs bytes outs os s2 Hi Ht (Ha & Ef & Hr) H IH
                 |i name f args s s1 reqs bytes outs os s2 Hi Ht Ha H IH]; intros out; cbn [map dispatches_x].
  - rewrite app_nil_r. reflexivity.
  - pose proof (lifted_packet S p kr ft throws sz fuel b i name f args (bytes ++ rest) out s Hp Hsz Hk Hb Hi Ha) as G.
    cbv zeta in G. rewrite Ht in G. rewrite <- app_assoc, (G s1 r Ef Hr). cbn [bind]. rewrite IH. cbn [bind map_outcome].
    rewrite <- app_assoc. reflexivity.
  - pose proof (lifted_packet S p kr ft throws sz fuel b i name f args (bytes ++ rest) out s Hp Hsz Hk Hb Hi Ha) as G.
    cbv zeta in G. rewrite Ht in G. rewrite <- app_assoc, G. cbn [bind]. rewrite IH. reflexivity.
Qed.

(** ** Keys *)

(** A key sends its request to a putter which throws: the bytes before have been
    sent, nothing follows. *)
Theorem C111_key_write : forall p (X Y : Type) (kr : keyring X) name f k args (dest : Exceptions.edestination Y) y,
  wf_platform p -> keyring_ok p kr -> In (name, f) (kr_funcs kr) -> kr_get kr name f = Some k ->
  Forall2 (encodable p (kr_m kr)) (sig_params (f_sig f)) args ->
  let bytes := request (kr_e kr) (kr_m kr) (kr_index_size kr) (k_index k) (sig_params (f_sig f)) args in
  (forall y1, PropertiesExceptions.accepts dest y bytes y1 -> key_write_x p k args dest y = Ok (y1, Exceptions.Returned tt))
  /\ (forall sent lost rest y1 y2, bytes = sent ++ lost :: rest -> PropertiesExceptions.accepts dest y sent y1 ->
        dest lost y1 = Ok (y2, Exceptions.Thrown) -> key_write_x p k args dest y = Ok (y2, Exceptions.Thrown)).
Proof.
  intros p X Y kr name f k args dest y Hp [Hl Hsigs] Hin Hk Ha. cbv zeta.
  destruct (kr_get_nth X kr name f k Hk Hin) as (Hi & _ & Ek).
  assert (Hs : sig_ok p (kr_e kr) (kr_m kr) (f_sig f)).
  { rewrite Forall_forall in Hsigs. apply (Hsigs (name, f) Hin). }
  assert (Hlt : k_index k < List.length (kr_funcs kr)) by (apply nth_error_Some; congruence).
  destruct (index_size X kr Hl) as (_ & Hsp & _).
  set (ts := TUns (kr_index_size kr) :: sig_params (f_sig f)).
  set (vs := VInt (Z.of_nat (k_index k)) :: args).
  assert (Hok : Forall (ty_ok p (kr_e kr) (kr_m kr)) ts) by (constructor; [apply index_ty_ok; auto|apply Hs]).
  assert (Hen : Forall2 (encodable p (kr_m kr)) ts vs).
  { constructor; auto. split; cbn [has_type all_signed]; auto. lia. }
  assert (E : key_write_x p k args dest y
              = put_each_x dest (request (kr_e kr) (kr_m kr) (kr_index_size kr) (k_index k) (sig_params (f_sig f)) args) y).
  { unfold key_write_x. rewrite Ek. cbn [k_index_size k_index k_sig k_e k_m].
    fold ts. fold vs. pose proof (tuple_size_wire ts (tys_layout _ _ _ ts Hok)) as Hz. rewrite Hz.
    rewrite (construct_ok p _ _ Hp) by (auto; apply indet_bytes_length). cbn [bind].
    rewrite content_eq. cbn [tuple_at v_begin v_types]. rewrite Hz.
    assert (Hle : List.length (enc_list (kr_e kr) (kr_m kr) ts vs) = wire_sizes ts).
    { apply enc_list_length. eapply encodable_has; eauto. }
    rewrite load_range_ok by lia. rewrite slice_0_all by auto. reflexivity. }
  rewrite E. split.
  - intros y1 H. apply put_accepts. exact H.
  - intros sent lost rest y1 y2 Eb H Ht. rewrite Eb. eapply put_throws; eauto.
Qed.

(** A key reads the response: an exception of the getter leaves [read_from], and
    the bytes obtained before are lost. *)
Theorem C111_key_read : forall p (X Y : Type) (kr : keyring X) name f k t (src : Exceptions.esource Y) y bs y1,
  wf_platform p -> keyring_ok p kr -> In (name, f) (kr_funcs kr) -> kr_get kr name f = Some k ->
  sig_ret (f_sig f) = Some t -> PropertiesExceptions.yields src y bs y1 ->
  (forall v, encodable p (kr_m kr) t v -> bs = enc (kr_e kr) (kr_m kr) t v ->
     key_read_x p k src y = Ok (y1, Exceptions.Returned (Some v)))
  /\ (forall y2, src y1 = Ok (y2, Exceptions.Thrown) -> List.length bs < wire_size t ->
        key_read_x p k src y = Ok (y2, Exceptions.Thrown)).
Proof.
  intros p X Y kr name f k t src y bs y1 Hp [Hl Hsigs] Hin Hk Ht Hy.
  destruct (kr_get_nth X kr name f k Hk Hin) as (Hi & _ & Ek).
  assert (Hs : sig_ok p (kr_e kr) (kr_m kr) (f_sig f)).
  { rewrite Forall_forall in Hsigs. apply (Hsigs (name, f) Hin). }
  destruct Hs as [_ Hr]. rewrite Ht in Hr. cbn [ret_ty_ok] in Hr.
  assert (Hok : Forall (ty_ok p (kr_e kr) (kr_m kr)) [t]) by (constructor; auto).
  assert (Hw : wire_sizes [t] = wire_size t) by (cbn; lia).
  unfold key_read_x. rewrite Ek. cbn [k_index_size k_index k_sig k_e k_m]. rewrite Ht. split.
  - intros v Hv ->. assert (Hle : List.length (enc (kr_e kr) (kr_m kr) t v) = wire_size t) by (apply enc_length; apply Hv).
    rewrite (read_yields p _ _ Hp [t] src _ y y1 Hok Hy) by lia. cbn [ended then_ bind].
    rewrite (get_decodes p _ _ Hp [t] _ 0 t); auto.
    + cbn [bind]. unfold offset_of. cbn [firstn map list_sum fold_right]. rewrite slice_0_all by auto.
      rewrite (dec_enc p) by (auto; apply Hr). reflexivity.
    + lia.
    + apply enc_bytes.
    + cbn [decodable_list]. split; auto. rewrite firstn_all2 by lia. apply encodable_decodable; auto. apply Hr.
  - intros y2 H Hlt. rewrite (read_throws p _ _ Hp [t] src bs y y1 y2) by (auto; lia). reflexivity.
Qed.

(** The key of a callback which returns nothing reads nothing. *)
Theorem C111_void_key : forall p (X Y : Type) (kr : keyring X) name f k (src : Exceptions.esource Y) y,
  In (name, f) (kr_funcs kr) -> kr_get kr name f = Some k -> sig_ret (f_sig f) = None ->
  key_read_x p k src y = Ok (y, Exceptions.Returned None).
Proof.
  intros p X Y kr name f k src y Hin Hk Hr. destruct (kr_get_nth X kr name f k Hk Hin) as (_ & _ & Ek).
  unfold key_read_x. rewrite Ek. cbn [k_sig]. rewrite Hr. reflexivity.
Qed.

(** ** Examples *)

(** Two requests of three make their callback throw; [1] is a notification. *)
Example C111_session_example : exists b : members (wires log),
  s_dispatcher b = make_dispatcher (lift_keyring ex_keyring) ANY
  /\ keyring_ok pc_native ex_keyring
  /\ tried pc_native ex_keyring PropertiesExceptions.ex_throws
       [(0, [VInt (-2); VInt 5]); (1, []); (0, [VInt 1; VInt 5]); (0, [VInt (-2); VInt 7])] []
       [0; 255; 254; 5;  1;  0; 0; 1; 5;  0; 255; 254; 7]%Z [0; 0; 0; 5]%Z
       [Exceptions.Thrown; Exceptions.Returned 1; Exceptions.Thrown; Exceptions.Returned 0]
       [(0, [VInt (-2); VInt 7]); (1, [])]
  /\ dispatches_x pc_native (on_user PropertiesExceptions.ex_throws) 8 0
       (map (fun _ => (PropertiesExceptions.take_or_throw, give_always)) [tt; tt; tt; tt]) b
       (mk_wires [0; 255; 254; 5;  1;  0; 0; 1; 5;  0; 255; 254; 7;  77]%Z [] [])
     = Ok (b, mk_wires [77]%Z [0; 0; 0; 5]%Z [(0, [VInt (-2); VInt 7]); (1, [])],
           [Exceptions.Thrown; Exceptions.Returned (Number (CInt 1 false) 1); Exceptions.Thrown;
            Exceptions.Returned (Number (CInt 1 false) 0)]).
Proof.
  exists (init_members (make_dispatcher (lift_keyring ex_keyring) ANY) (Single [])).
  split; [reflexivity|]. split; [exact ex_keyring_ok|]. split.
  - change [0; 255; 254; 5; 1; 0; 0; 1; 5; 0; 255; 254; 7]%Z with
      (PropertiesPackets.packet ex_keyring 0 ex_add [VInt (-2); VInt 5]
       ++ PropertiesPackets.packet ex_keyring 1 ex_notify []
       ++ PropertiesPackets.packet ex_keyring 0 ex_add [VInt 1; VInt 5]
       ++ PropertiesPackets.packet ex_keyring 0 ex_add [VInt (-2); VInt 7] ++ []).
    eapply tried_throws; [reflexivity|reflexivity|cbn; encs|].
    change [0; 0; 0; 5]%Z with (PropertiesPackets.answer ex_keyring ex_notify (VInt 0) ++ [0; 0; 0; 5]%Z).
    eapply tried_returns; [reflexivity|reflexivity|split; [cbn; encs|split; [reflexivity|cbn; auto]]|].
    eapply tried_throws; [reflexivity|reflexivity|cbn; encs|].
    change [0; 0; 0; 5]%Z with (PropertiesPackets.answer ex_keyring ex_add (VInt 5) ++ []).
    eapply tried_returns; [reflexivity|reflexivity|split; [cbn; encs|split; [reflexivity|cbn; encs]]|]. constructor.
  - vm_compute. reflexivity.
Qed.

(** That a call can be resumed after its getter has thrown, as with a buffered
    dispatcher (C54), is false of a plain one: the three bytes already read are
    lost, and the fourth is taken for an index. *)
Theorem C111_resumes_refuted : exists b : members (wires log),
  s_dispatcher b = make_dispatcher (lift_keyring ex_keyring) ANY
  /\ (let run := run_method_x pc_native 8 0 (fun _ _ _ => None) PropertiesExceptions.take_or_throw give_always
                   TIndex dispatch_body [] in
      run b (mk_wires [0; 255; 254; 5]%Z [] [])
      = Ok (b, mk_wires [] [0; 0; 0; 3]%Z [(0, [VInt (-2); VInt 5])], Exceptions.Returned (Number (CInt 1 false) 0))
      /\ run b (mk_wires [0; 255; 254]%Z [] []) = Ok (b, mk_wires [] [] [], Exceptions.Thrown)
      /\ run b (mk_wires [5]%Z [] []) = Ok (b, mk_wires [] [] [], Exceptions.Returned (Number (CInt 1 false) 5))).
Proof.
  exists (init_members (make_dispatcher (lift_keyring ex_keyring) ANY) (Single [])).
  split; [reflexivity|]. cbv zeta. repeat split; vm_compute; reflexivity.
Qed.

(** The conditions of C111_getter and of C111_request: a prefix of a request; a
    request whose response is interrupted at the third byte. *)
Example C111_conditions :
  let kr := lift_keyring ex_keyring in
  let table := map snd (kr_funcs kr) in
  table_ok kr ANY (make_dispatcher kr ANY) table
  /\ PropertiesExceptions.yields PropertiesExceptions.take_or_throw (mk_wires [0; 255; 254]%Z [] ([] : log)) [0; 255; 254]%Z
       (mk_wires [] [] [])
  /\ examine (format_of kr) table [0; 255; 254]%Z = Incomplete
  /\ examine (format_of kr) table [0; 255; 254; 5]%Z = Request (lift_func ex_add) [255; 254; 5]%Z
  /\ decodable_list pc_native (kr_e kr) (kr_m kr) (sig_params (f_sig (lift_func ex_add))) [255; 254; 5]%Z
  /\ f_call (lift_func ex_add) [VInt (-2); VInt 5] (mk_wires [] [] []) = (mk_wires [] [] [(0, [VInt (-2); VInt 5])], VInt 3)
  /\ PropertiesExceptions.accepts PropertiesExceptions.give_or_throw (mk_wires [] [] [(0, [VInt (-2); VInt 5])]) [0; 0]%Z
       (mk_wires [] [0; 0]%Z [(0, [VInt (-2); VInt 5])])
  /\ PropertiesExceptions.give_or_throw 0%Z (mk_wires [] [0; 0]%Z [(0, [VInt (-2); VInt 5])])
     = Ok (mk_wires [] [0; 0]%Z [(0, [VInt (-2); VInt 5])], Exceptions.Thrown).
Proof.
  cbv zeta. split; [split; [reflexivity|split; [reflexivity|split; reflexivity]]|].
  split; [repeat (econstructor; [reflexivity|]); constructor|].
  split; [vm_compute; reflexivity|]. split; [vm_compute; reflexivity|].
  split; [vm_compute; repeat constructor; range|]. split; [reflexivity|].
  split; [repeat (econstructor; [reflexivity|]); constructor|]. reflexivity.
Qed.

(** A key whose request is interrupted at its third byte, then whose response is
    interrupted after two bytes, and read at the next attempt. *)
Example C111_key_example :
  kr_get ex_keyring 10 ex_add = Some ex_key_add /\ In (10, ex_add) (kr_funcs ex_keyring)
  /\ key_write_x pc_native ex_key_add [VInt (-2); VInt 5] PropertiesExceptions.give_or_throw (mk_wires [] [] tt)
     = Ok (mk_wires [] [0; 255]%Z tt, Exceptions.Thrown)
  /\ key_write_x pc_native ex_key_add [VInt (-2); VInt 5] give_always (mk_wires [] [] tt)
     = Ok (mk_wires [] [0; 255; 254; 5]%Z tt, Exceptions.Returned tt)
  /\ key_read_x pc_native ex_key_notify PropertiesExceptions.take_or_throw (mk_wires [] [] tt)
     = Ok (mk_wires [] [] tt, Exceptions.Returned None)
  /\ key_read_x pc_native ex_key_add PropertiesExceptions.take_or_throw (mk_wires [255; 255]%Z [] tt)
     = Ok (mk_wires [] [] tt, Exceptions.Thrown)
  /\ key_read_x pc_native ex_key_add PropertiesExceptions.take_or_throw (mk_wires [255; 255; 255; 251; 77]%Z [] tt)
     = Ok (mk_wires [77]%Z [] tt, Exceptions.Returned (Some (VInt (-5)))).
Proof. split; [reflexivity|]. split; [left; reflexivity|]. repeat split; vm_compute; reflexivity. Qed.

Print Assumptions C111_dispatch.
Print Assumptions C111_getter.
Print Assumptions C111_request.
Print Assumptions C111_session.
Print Assumptions C111_key_write.
Print Assumptions C111_key_read.
Print Assumptions C111_void_key.
Print Assumptions C111_resumes_refuted.
