(** Property C100: the buffered dispatcher, statement by statement. *)

From Coq Require Import List ZArith Lia Bool Arith ZifyBool ZifyNat String.
From Verif Require Import Base CInt Spec IntModel Conditions MemFacts TypeLevel Serial TupleModel
  TypeLevelProofs IntProofs SignedProofs SerialProofs CodecFacts Bounds TupleProofs SpecRpc Rpc RpcProofs
  Hosts Closed PropertiesTypes PropertiesRpc Buffered SpecBuffered BufferedProofs PropertiesBuffered
  PropertiesBuffers Counters PropertiesCounters Classes Methods.
From Verif Require Cpp SourceProofs.
Import ListNotations.
Open Scope string_scope.
Open Scope list_scope.
Open Scope nat_scope.

(** ** The same operations on two representations of the world *)

Section Embedding.
  Variable p : platform.
  Context {Y Z' : Type}.
  Variable emb : Y -> Z'.
  Variables (src1 : source Y) (src2 : source Z') (dest1 : destination Y) (dest2 : destination Z').
  Hypothesis Hsrc : forall y, src2 (emb y) = mapped (fun q => (emb (fst q), snd q)) (src1 y).
  Hypothesis Hdest : forall byte y, dest2 byte (emb y) = mapped emb (dest1 byte y).

  Lemma fill_emb : forall k pos y mem,
    fill src2 k pos (emb y) mem = mapped (fun q => (emb (fst q), snd q)) (fill src1 k pos y mem).
  Proof.
    induction k as [|k IH]; intros pos y mem; cbn [fill]; auto.
    rewrite Hsrc. destruct (src1 y) as [[y1 b]|]; cbn [mapped bind fst snd]; auto.
    destruct (store mem pos b); cbn [bind mapped]; auto.
  Qed.

  Lemma put_each_emb : forall bs y, put_each dest2 bs (emb y) = mapped emb (put_each dest1 bs y).
  Proof.
    induction bs as [|b bs IH]; intros y; cbn [put_each]; auto.
    rewrite Hdest. destruct (dest1 b y); cbn [mapped bind]; auto.
  Qed.

  Lemma read_tuple_emb : forall e m ts y,
    read_tuple p e m ts src2 (emb y) = mapped (fun q => (emb (fst q), snd q)) (read_tuple p e m ts src1 y).
  Proof.
    intros e m ts y. unfold read_tuple, fill_tuple. destruct (default_construct p e m ts _); cbn [bind mapped]; auto.
    apply fill_emb.
  Qed.

  Lemma get_index_emb : forall (d1 : dispatcher Y) (d2 : dispatcher Z') y,
    kr_e (d_keyring d2) = kr_e (d_keyring d1) -> kr_m (d_keyring d2) = kr_m (d_keyring d1) ->
    kr_index_size (d_keyring d2) = kr_index_size (d_keyring d1) ->
    get_index p d2 src2 (emb y) = mapped (fun q => (emb (fst q), snd q)) (get_index p d1 src1 y).
  Proof.
    intros d1 d2 y He Hm Hi. unfold get_index. rewrite He, Hm, Hi, read_tuple_emb.
    destruct (read_tuple p _ _ _ src1 y) as [[y1 st]|]; cbn [mapped bind fst snd]; auto.
    destruct (get p _ 0 st) as [[z|l]|]; reflexivity.
  Qed.

  Definition same_model (c1 : model Y) (c2 : model Z') : Prop :=
    m_e c2 = m_e c1 /\ m_m c2 = m_m c1 /\ f_sig (m_func c2) = f_sig (m_func c1)
    /\ forall args y, f_call (m_func c2) args (emb y)
         = (emb (fst (f_call (m_func c1) args y)), snd (f_call (m_func c1) args y)).

  Definition same_action (a1 : action Y) (a2 : action Z') : Prop :=
    match a1, a2 with
    | Storage None, Storage None => True
    | Storage (Some c1), Storage (Some c2) => same_model c1 c2
    | NoStorage c1, NoStorage c2 => same_model c1 c2
    | _, _ => False
    end.

  Lemma invoke_emb : forall c1 c2 v st y, same_model c1 c2 ->
    invoke p v (f_call (m_func c2)) st (emb y)
    = mapped (fun q => (emb (fst q), snd q)) (invoke p v (f_call (m_func c1)) st y).
  Proof.
    intros c1 c2 v st y (_ & _ & _ & H). unfold invoke. destruct (get_each p _ _ _); cbn [bind mapped]; auto.
    rewrite H. destruct (f_call (m_func c1) _ y); reflexivity.
  Qed.

  Lemma run_emb : forall a1 a2 y, same_action a1 a2 ->
    run p a2 src2 dest2 (emb y) = mapped emb (run p a1 src1 dest1 y).
  Proof.
    intros a1 a2 y H.
    assert (G : forall c1 c2, same_model c1 c2 ->
              call p (m_e c2) (m_m c2) (m_func c2) src2 dest2 (emb y) = mapped emb (call p (m_e c1) (m_m c1) (m_func c1) src1 dest1 y)
              /\ static_wrapper p (m_e c2) (m_m c2) (m_func c2) src2 dest2 (emb y)
                 = mapped emb (static_wrapper p (m_e c1) (m_m c1) (m_func c1) src1 dest1 y)).
    { intros c1 c2 Hc. pose proof Hc as (He & Hm & Hs & _). unfold call, static_wrapper. rewrite He, Hm, Hs, read_tuple_emb.
      destruct (read_tuple p _ _ _ src1 y) as [[y1 st]|]; cbn [mapped bind fst snd]; [|destruct (sig_ret _); auto].
      destruct (sig_ret _) as [t|]; rewrite (invoke_emb c1 c2) by auto;
        destruct (invoke p _ (f_call (m_func c1)) st y1) as [[y2 r]|]; cbn [mapped bind fst snd]; auto.
      unfold insert, write_tuple. destruct (construct p _ _ _ _ _); cbn [bind mapped]; auto.
      destruct (content _ _); cbn [bind mapped]; auto. rewrite put_each_emb. auto. }
    destruct a1 as [[c1|]|c1], a2 as [[c2|]|c2]; cbn [same_action] in H; try contradiction; cbn [run mapped]; auto;
      apply (G c1 c2 H).
  Qed.
End Embedding.

(** ** The index *)

Lemma smallest_range : forall n, 1 <= smallest_unsigned n <= 8.
Proof.
  intros n. unfold smallest_unsigned, try_promote. repeat match goal with |- context[if ?c then _ else _] => destruct c end; lia.
Qed.

Lemma index_length_range : forall (X : Type) (d : dispatcher X), 1 <= index_length d <= 8.
Proof. intros. apply smallest_range. Qed.

Lemma loop_range : forall p w e mem off n k i sh r v, (0 <= r < space w)%Z ->
  from_endianess_loop p (CInt w false) e mem off n k i sh r = Ok v -> (0 <= v < space w)%Z.
Proof.
  induction k as [|k IH]; intros i sh r v Hr E; cbn [from_endianess_loop] in E.
  - injection E as <-. exact Hr.
  - ok_inv E b. ok_inv E s. eapply IH; [|exact E]. rewrite conv_unsigned. apply Z.mod_pos_bound. apply space_pos.
Qed.

Lemma from_endianess_range : forall p w e mem off n v,
  from_endianess p (CInt w false) e mem off n = Ok v -> (0 <= v < space w)%Z.
Proof.
  intros p w e mem off n v E. unfold from_endianess in E. destruct (native_endianess p e).
  - ok_inv E bs. destruct (csizeof (CInt w false) <? n); [discriminate|]. unfold obj_value in E.
    match type of E with Ok ?a = Ok _ => assert (H : v = a) by congruence end. rewrite H.
    rewrite conv_unsigned. apply Z.mod_pos_bound. apply space_pos.
  - unfold from_endianess_impl in E. eapply loop_range; [|exact E]. rewrite conv_unsigned. apply Z.mod_pos_bound. apply space_pos.
Qed.

Lemma get_index_range : forall p (X : Type) (d : dispatcher X) src x x' i,
  get_index p d src x = Ok (x', i) -> (Z.of_nat i < space (kr_index_size (d_keyring d)))%Z.
Proof.
  intros p X d src x x' i E. unfold get_index in E. ok_inv E q. destruct q as [x1 st]. ok_inv E v.
  unfold get, tuple_at in E1. cbn [v_types v_e v_m v_kind v_begin] in E1.
  change (at17 [TUns (kr_index_size (d_keyring d))] 0) with (Some (TUns (kr_index_size (d_keyring d)))) in E1. cbn iota in E1.
  ok_inv E1 o. unfold read_at in E1. cbn [read_as] in E1. ok_inv E1 z. injection E1 as <-.
  apply from_endianess_range in E3. injection E as <- <-. lia.
Qed.

Section Types.
  Variable p : platform.
  Variable sz : nat.
  Hypothesis Hp : wf_platform p.
  Hypothesis Hsz : p_int_size p <= sz <= 8.

  (** The usual arithmetic conversions of [std::size_t] and [int]. *)
  Lemma common_size_int : Cpp.common p (CInt sz false) (CInt (p_int_size p) true) = CInt sz false.
  Proof.
    unfold Cpp.common, promote. rewrite Nat.ltb_irrefl. destruct (Nat.ltb_spec sz (p_int_size p)); [lia|].
    destruct (Nat.eqb_spec sz (p_int_size p)); [reflexivity|]. destruct (Nat.ltb_spec sz (p_int_size p)); [lia|reflexivity].
  Qed.

  Lemma common_size : Cpp.common p (CInt sz false) (CInt sz false) = CInt sz false.
  Proof. unfold Cpp.common, promote. destruct (Nat.ltb_spec sz (p_int_size p)); [lia|]. rewrite Nat.eqb_refl. reflexivity. Qed.

  Lemma convert_same : forall t z, convert t t z = z.
  Proof.
    intros [|w s] z; unfold convert; cbn [Cpp.same_type]; auto. rewrite Nat.eqb_refl, Bool.eqb_reflx. reflexivity.
  Qed.

  Lemma convert_int : forall z, (0 <= z <= 1)%Z -> convert (CInt (p_int_size p) true) (CInt sz false) z = z.
  Proof.
    intros z Hz. unfold convert. cbn [Cpp.same_type eqb]. rewrite andb_false_r.
    apply SourceProofs.conv_nonneg; cbn; [destruct Hp; lia|]. destruct Hp.
    pose proof (space_mono 1 sz ltac:(lia)). change (space 1) with 256%Z in *. lia.
  Qed.

  (** An index and the number of callbacks. *)
  Lemma convert_index : forall w a, 1 <= w <= 8 -> (0 <= a < space w)%Z ->
    convert (CInt w false) (Cpp.common p (CInt w false) (CInt w false)) a = a.
  Proof.
    intros w a Hw Ha. unfold convert. destruct (Cpp.same_type _ _); auto. destruct Hp.
    apply SourceProofs.conv_nonneg.
    - apply (SourceProofs.valid_common p sz); cbn; auto; lia.
    - destruct (SourceProofs.tmax_common p sz wf_int_size ltac:(lia) (CInt w false) (CInt w false)) as [H _]; cbn [SourceProofs.valid]; auto.
      cbn [SourceProofs.tmax] in H. lia.
  Qed.
End Types.

(** ** What is read from the input buffer *)

Lemma fill_inv : forall (X : Type) (P : X -> Prop) (src : source X),
  (forall y y' b, P y -> src y = Ok (y', b) -> P y') ->
  forall k pos x mem x' mem', P x -> fill src k pos x mem = Ok (x', mem') -> P x'.
Proof.
  intros X P src H. induction k as [|k IH]; intros pos x mem x' mem' Hx E; cbn [fill] in E.
  - injection E as <- <-. exact Hx.
  - ok_inv E q. destruct q as [y b]. ok_inv E s1. eapply IH; [|exact E]. eauto.
Qed.

Lemma read_tuple_inv : forall p (X : Type) (P : X -> Prop) (src : source X) e m ts x x' st,
  (forall y y' b, P y -> src y = Ok (y', b) -> P y') -> P x -> read_tuple p e m ts src x = Ok (x', st) -> P x'.
Proof.
  intros p X P src e m ts x x' st H Hx E. unfold read_tuple, fill_tuple in E. ok_inv E s0. eapply fill_inv; eauto.
Qed.

Lemma get_index_inv : forall p (X : Type) (P : X -> Prop) (d : dispatcher X) src x x' i,
  (forall y y' b, P y -> src y = Ok (y', b) -> P y') -> P x -> get_index p d src x = Ok (x', i) -> P x'.
Proof.
  intros p X P d src x x' i H Hx E. unfold get_index in E. ok_inv E q. destruct q as [x1 st]. ok_inv E v.
  destruct v; [|discriminate]. injection E as <- <-. eapply read_tuple_inv; eauto.
Qed.

Lemma get_index_frame_keeps : forall p (X : Type) (d : dispatcher (frame X)) fr fr' i,
  get_index p d ibuf_source fr = Ok (fr', i) ->
  exists n, fr' = mk_frame (fr_bufs fr) n (fr_bottom fr) (fr_world fr).
Proof.
  intros p X d fr fr' i E.
  apply (get_index_inv p (frame X) (fun f => exists n, f = mk_frame (fr_bufs fr) n (fr_bottom fr) (fr_world fr))) in E; auto.
  - intros y y' b (n & ->) Eq. unfold ibuf_source, iterator_source in Eq. ok_inv Eq v. injection Eq as <- <-.
    cbn. eauto.
  - exists (fr_iptr fr). destruct fr; reflexivity.
Qed.

Ltac go := cbn [Classes.exec Classes.eval read write declare st_object st_locals st_world Cpp.lookup Cpp.update Cpp.need bind
  member_value moved into member_type number_type number truth returned set_member store_at load_at memory_of mapped fst snd
  s_dispatcher s_is_index_loaded s_load_count s_ibuf_next s_obuf_next s_obuf_bottom s_bufs List.length
  fr_bufs fr_iptr fr_bottom fr_world String.eqb Ascii.eqb Bool.eqb negb bool_value Classes.compare andb].

Section Methods.
  Variable p : platform.
  Variable sz : nat.
  Hypothesis Hp : wf_platform p.
  Hypothesis Hsz : p_int_size p <= sz <= 8.
  Context {X : Type}.
  Variable fuel : nat.
  Variable src : source X.
  Variable dest : destination X.

  Notation eval := (eval p sz fuel (modelled p) src dest).
  Notation exec := (exec p sz fuel (modelled p) src dest).

  Definition embed (o : buffers -> nat -> members X) (L : nat -> list (string * value)) (fr : frame X) : state X :=
    mk_state (o (fr_bufs fr) (fr_bottom fr)) (L (fr_iptr fr)) (fr_world fr).

  Definition getter : source (state X) :=
    fun st => '(st1, v) <- eval (Deref (PostIncrement (Local "ibuf_ptr"))) st;; z <- number v;; Ok (st1, z).

  Definition putter : destination (state X) :=
    fun byte st =>
      '(st1, _) <- exec (AssignAt ObufBegin (PostIncrement (Member m_obuf_bottom)) (Read (Local "byte")))
                     (declare "byte" (Number (CInt 1 false) byte) st);;
      Ok (leave (st_locals st) st1).

  Lemma getter_emb : forall o L fr,
    (forall bufs n, s_bufs (o bufs n) = bufs) ->
    (forall i, Cpp.lookup "ibuf_ptr" (L i) = Some (Address InputBuffer i)) ->
    (forall i, Cpp.update "ibuf_ptr" (Address InputBuffer (S i)) (L i) = L (S i)) ->
    getter (embed o L fr) = mapped (fun q => (embed o L (fst q), snd q)) (ibuf_source fr).
  Proof.
    intros o L fr Ho Hl Hu. unfold getter. cbn [Classes.eval read moved write bind embed st_locals]. rewrite Hl.
    cbn [Cpp.need bind moved]. rewrite Hu. cbn [bind load_at memory_of]. unfold embed. cbn [st_object st_locals]. rewrite Ho.
    unfold ibuf_source, iterator_source. rewrite Nat.add_0_r.
    destruct (load (ibuf (fr_bufs fr)) (fr_iptr fr)); reflexivity.
  Qed.

  Lemma leave_declared : forall st x v (b : members X), leave (st_locals st) (mk_state b ((x, v) :: st_locals st) (st_world st))
    = mk_state b (st_locals st) (st_world st).
  Proof.
    intros st x v b. unfold leave. cbn [st_object st_locals st_world List.length].
    replace (S (List.length (st_locals st)) - List.length (st_locals st)) with 1 by lia. reflexivity.
  Qed.

  Lemma incremented_arith : forall z, arith (CInt sz false) (z + 1) = Ok (incremented sz z).
  Proof. reflexivity. Qed.
  Lemma decremented_arith : forall z, arith (CInt sz false) (z - 1) = Ok (decremented sz z).
  Proof. reflexivity. Qed.

  Lemma putter_emb : forall d l c i n L byte (fr : frame X),
    putter byte (embed (fun bufs k => mk_members d l c i n (Z.of_nat k) bufs) L fr)
    = mapped (embed (fun bufs k => mk_members d l c i n (Z.of_nat k) bufs) L) (destination_w sz byte fr).
  Proof.
    intros d l c i n L byte fr. unfold putter, destination_w. unfold embed. go.
    rewrite common_size_int, convert_same, incremented_arith by auto. go. rewrite convert_same. go.
    rewrite convert_same, Nat2Z.id. cbn [Nat.add].
    destruct (store (obuf (fr_bufs fr)) (fr_bottom fr) byte) as [m|]; go; auto.
    rewrite Z2Nat.id by (unfold incremented; apply Z.mod_pos_bound, sizes_pos).
    unfold leave. go.
    replace (S (List.length (L (fr_iptr fr))) - List.length (L (fr_iptr fr))) with 1 by lia. reflexivity.
  Qed.

  (** ** [call] *)

  Lemma same_actions : forall o L a, same_action (embed o L) (framed_action a) (within_action a).
  Proof.
    intros o L [[[e m f]|]|[e m f]]; cbn; auto; repeat split; intros args y; cbn;
      destruct (f_call f args (fr_world y)); reflexivity.
  Qed.

  Lemma action_at_map : forall (Y : Type) (g : action X -> action Y) kr ft l i,
    action_at (mk_dispatcher kr ft (map g l)) i
    = match nth_error l i with Some a => Ok (g a) | None => Fault OutOfBounds end.
  Proof. intros. unfold action_at. cbn [d_actions]. rewrite nth_error_map. destruct (nth_error l i); reflexivity. Qed.

  Lemma index_size_map : forall (Y : Type) (kr : keyring X) (g : nat * func X -> nat * func Y),
    kr_index_size (mk_keyring (kr_e kr) (kr_m kr) (map g (kr_funcs kr))) = kr_index_size kr.
  Proof. intros. unfold kr_index_size. cbn [kr_funcs]. rewrite map_length. reflexivity. Qed.

  Lemma convert_0 : convert (CInt (p_int_size p) true) (CInt sz false) 0 = 0%Z.
  Proof. apply convert_int; auto. lia. Qed.

  Lemma exec_next : forall a c st st1, exec a st = Ok (st1, Next) -> exec (a;;; c) st = exec c st1.
  Proof. intros a c st st1 E. cbn [Classes.exec]. rewrite E. reflexivity. Qed.

  Lemma exec_fault : forall a c st f, exec a st = Fault f -> exec (a;;; c) st = Fault f.
  Proof. intros a c st f E. cbn [Classes.exec]. rewrite E. reflexivity. Qed.

  Lemma exec_return : forall a c st st1 v, exec a st = Ok (st1, Returned v) -> exec (a;;; c) st = Ok (st1, Returned v).
  Proof. intros a c st st1 v E. cbn [Classes.exec]. rewrite E. reflexivity. Qed.

  Lemma exec_index : forall st,
    exec (Auto "index" (GetIndex (Deref (PostIncrement (Local "ibuf_ptr"))))) st
    = '(st1, i) <- get_index p (within_dispatcher (s_dispatcher (st_object st))) getter st;;
      Ok (declare "index" (Number (CInt (index_length (s_dispatcher (st_object st))) false) (Z.of_nat i)) st1, Next).
  Proof.
    intros st.
    change (exec (Auto "index" (GetIndex (Deref (PostIncrement (Local "ibuf_ptr"))))) st) with
      ('(st1, v) <- ('(st1, index) <- get_index p (within_dispatcher (s_dispatcher (st_object st))) getter st;;
                     Ok (st1, Number (CInt (index_length (s_dispatcher (st_object st))) false) (Z.of_nat index)));;
       Ok (declare "index" v st1, Next)).
    destruct (get_index p _ _ st) as [[st1 i]|]; reflexivity.
  Qed.

  Lemma exec_run : forall st t i, Cpp.lookup "index" (st_locals st) = Some (Number t (Z.of_nat i)) ->
    exec (RunAction (Read (Local "index")) (Deref (PostIncrement (Local "ibuf_ptr"))) "byte"
            (AssignAt ObufBegin (PostIncrement (Member m_obuf_bottom)) (Read (Local "byte")))) st
    = a <- action_at (within_dispatcher (s_dispatcher (st_object st))) i;;
      st2 <- run p a getter putter st;;
      Ok (st2, Next).
  Proof.
    intros st t i E. change (exec (RunAction ?e ?g ?x ?s) st) with
      ('(st1, v) <- eval e st;;
       j <- number v;;
       a <- action_at (within_dispatcher (s_dispatcher (st_object st1))) (Z.to_nat j);;
       st2 <- run p a getter putter st1;;
       Ok (st2, Next)).
    cbn [Classes.eval read]. rewrite E. cbn [Cpp.need bind number]. rewrite Nat2Z.id. reflexivity.
  Qed.

  Lemma get_index_getter : forall o L d fr,
    (forall bufs n, s_bufs (o bufs n) = bufs) ->
    (forall i, Cpp.lookup "ibuf_ptr" (L i) = Some (Address InputBuffer i)) ->
    (forall i, Cpp.update "ibuf_ptr" (Address InputBuffer (S i)) (L i) = L (S i)) ->
    get_index p (within_dispatcher d) getter (embed o L fr)
    = mapped (fun q => (embed o L (fst q), snd q)) (get_index p (framed_dispatcher d) ibuf_source fr).
  Proof.
    intros o L d fr H1 H2 H3. apply get_index_emb; try reflexivity.
    - intros y. apply getter_emb; auto.
    - unfold within_dispatcher, framed_dispatcher. cbn [d_keyring]. rewrite !index_size_map. reflexivity.
  Qed.

  Lemma call_exec : forall b x,
    mapped (fun q => (st_object (fst q), st_world (fst q), snd q)) (exec call_body (mk_state b [] x))
    = mapped (fun q => (fst q, snd q, Next)) (call_w p sz b x).
  Proof.
    intros [d l c i n o bufs] x. unfold call_body, call_w. cbn [s_dispatcher s_bufs].
    erewrite exec_next by (go; rewrite convert_0; go; reflexivity).
    erewrite exec_next by (go; rewrite convert_0; go; reflexivity).
    erewrite exec_next by (go; reflexivity).
    set (O := fun bufs k => mk_members d l c i 0 (Z.of_nat k) bufs).
    set (L := fun i => [("ibuf_ptr", Address InputBuffer i)]).
    change (declare "ibuf_ptr" (Address InputBuffer 0) (mk_state (mk_members d l c i 0 0 bufs) [] x))
      with (embed O L (mk_frame bufs 0 0 x)).
    pose proof (exec_index (embed O L (mk_frame bufs 0 0 x))) as E1.
    change (s_dispatcher (st_object (embed O L (mk_frame bufs 0 0 x)))) with d in E1.
    rewrite get_index_getter in E1 by reflexivity.
    destruct (get_index p (framed_dispatcher d) ibuf_source (mk_frame bufs 0 0 x)) as [[fr1 j]|f]; cbn [bind mapped fst snd] in *;
      [|rewrite (exec_fault _ _ _ f) by exact E1; reflexivity].
    erewrite exec_next by exact E1. clear E1.
    set (L' := fun i => ("index", Number (CInt (index_length d) false) (Z.of_nat j)) :: L i).
    change (declare "index" (Number (CInt (index_length d) false) (Z.of_nat j)) (embed O L fr1)) with (embed O L' fr1).
    pose proof (exec_run (embed O L' fr1) _ j eq_refl) as E1.
    change (s_dispatcher (st_object (embed O L' fr1))) with d in E1.
    unfold within_dispatcher, framed_dispatcher in *. rewrite action_at_map in *.
    destruct (nth_error (d_actions d) j) as [a|]; cbn [bind mapped fst snd] in *;
      [|rewrite (exec_fault _ _ _ OutOfBounds) by exact E1; reflexivity].
    rewrite (run_emb p (embed O L') ibuf_source getter (destination_w sz) putter) with (a1 := framed_action a) in E1.
    - destruct (run p (framed_action a) ibuf_source (destination_w sz) fr1) as [fr2|f]; cbn [bind mapped fst snd] in *;
        [|rewrite (exec_fault _ _ _ f) by exact E1; reflexivity].
      erewrite exec_next by exact E1. unfold embed, O. go. rewrite !convert_same. go. rewrite convert_0. reflexivity.
    - intros y. apply getter_emb; reflexivity.
    - intros byte y. apply putter_emb.
    - apply same_actions.
  Qed.

  Lemma call_ok : forall st, eval (Method TVoid call_body) st
    = mapped (fun q => (mk_state (fst q) (st_locals st) (snd q), Nothing)) (call_w p sz (st_object st) (st_world st)).
  Proof.
    intros st. pose proof (call_exec (st_object st) (st_world st)) as E. change (eval (Method TVoid call_body) st) with
      ('(st1, o) <- exec call_body (mk_state (st_object st) [] (st_world st));;
       v <- into p sz (st_object st1) TVoid (returned o);;
       Ok (mk_state (st_object st1) (st_locals st) (st_world st1), v)).
    destruct (exec call_body _) as [[st1 o]|f], (call_w p sz _ _) as [[b' x']|f']; cbn [mapped fst snd bind into] in *; try discriminate.
    - injection E as -> -> ->. reflexivity.
    - injection E as ->. reflexivity.
  Qed.

  (** ** [put] *)

  Definition seen (r : res (state X * outcome)) : res (members X * X * outcome) :=
    mapped (fun q => (st_object (fst q), st_world (fst q), snd q)) r.

  Lemma exec_if : forall c a a' st st1 v b, eval c st = Ok (st1, v) -> truth v = Ok b ->
    exec (If c a a') st = if b then exec a st1 else exec a' st1.
  Proof. 
    intros c a a' st st1 v b E1 E2.
    change (exec (If c a a') st) with ('(st1, v) <- eval c st;; b <- truth v;; if b then exec a st1 else exec a' st1).
    rewrite E1. cbn [bind]. rewrite E2. reflexivity.
  Qed.

  Lemma exec_call_resolved : forall st,
    seen (exec (Expr (Method TVoid call_body);;; Return (StatusLit RESOLVED_PACKET)) st)
    = mapped (fun q => (fst q, snd q, Returned (Status RESOLVED_PACKET))) (call_w p sz (st_object st) (st_world st)).
  Proof.
    intros st.
    change (exec (Expr (Method TVoid call_body);;; Return (StatusLit RESOLVED_PACKET)) st) with
      ('(st1, o) <- ('(st1, _) <- eval (Method TVoid call_body) st;; Ok (st1, Next));;
       match o with Next => exec (Return (StatusLit RESOLVED_PACKET)) st1 | Returned v => Ok (st1, Returned v) end).
    rewrite call_ok. destruct (call_w p sz _ _) as [[b' x']|f]; reflexivity.
  Qed.

  Lemma truth_bool : forall b, truth (bool_value b) = Ok b.
  Proof. intros []; reflexivity. Qed.

  Lemma d_size_range : forall d : dispatcher X, (Z.of_nat (d_size d) < space (index_length d))%Z.
  Proof.
    intros d. unfold d_size, kr_size, index_length. rewrite space_pow2. unfold bits.
    pose proof (Z.mod_pos_bound (Z.of_nat (List.length (kr_funcs (d_keyring d)))) (2 ^ (8 * Z.of_nat (kr_index_size (d_keyring d))))
      ltac:(apply Z.pow_pos_nonneg; lia)). lia.
  Qed.

  Lemma put_exec : forall byte b x,
    seen (exec put_body (mk_state b [("byte", Number (CInt 1 false) byte)] x))
    = mapped (fun q => (fst (fst q), snd (fst q), Returned (Status (snd q)))) (put_w p sz byte b x).
  Proof.
    intros byte [d l c i n o bufs] x. unfold put_body, put_w.
    cbn [s_dispatcher s_is_index_loaded s_load_count s_ibuf_next s_obuf_next s_obuf_bottom s_bufs].
    assert (E : exec (AssignAt IbufBegin (PostIncrement (Member m_ibuf_next)) (Read (Local "byte")))
                  (mk_state (mk_members d l c i n o bufs) [("byte", Number (CInt 1 false) byte)] x)
                = m <- store (ibuf bufs) (Z.to_nat i) byte;;
                  Ok (mk_state (mk_members d l c (incremented sz i) n o (set_ibuf m bufs)) [("byte", Number (CInt 1 false) byte)] x, Next)).
    { go. rewrite common_size_int by auto. rewrite convert_same, incremented_arith. go. rewrite convert_same. go.
      rewrite convert_same. cbn [Nat.add]. destruct (store (ibuf bufs) (Z.to_nat i) byte); reflexivity. }
    destruct (store (ibuf bufs) (Z.to_nat i) byte) as [m|f]; cbn [bind mapped] in *;
      [|rewrite (exec_fault _ _ _ f) by exact E; reflexivity].
    erewrite exec_next by exact E. clear E. cbv zeta.
    set (bufs1 := set_ibuf m bufs). set (i1 := incremented sz i). set (c1 := decremented sz c).
    set (args := [("byte", Number (CInt 1 false) byte)]).
    assert (E : eval (Compare Greater (PreDecrement (Member m_load_count)) (IntLit 0))
                  (mk_state (mk_members d l c i1 n o bufs1) args x)
                = Ok (mk_state (mk_members d l c1 i1 n o bufs1) args x, bool_value (0 <? c1)%Z)).
    { go. rewrite common_size_int by auto. rewrite convert_same, decremented_arith. go. rewrite !convert_same. go.
      rewrite common_size_int by auto. rewrite convert_0, convert_same. reflexivity. }
    pose proof (exec_if _ (Return (StatusLit LOADING_PACKET)) Skip _ _ _ _ E (truth_bool _)) as E1. clear E.
    destruct (0 <? c1)%Z.
    { erewrite exec_return by exact E1. reflexivity. }
    erewrite exec_next by exact E1. clear E1.
    erewrite exec_if; [|reflexivity|apply truth_bool]. cbn [s_is_index_loaded st_object].
    destruct l; cbn iota.
    { rewrite exec_call_resolved. cbn [st_object st_world]. destruct (call_w p sz _ x) as [[b' x']|f]; reflexivity. }
    erewrite exec_next by (go; reflexivity).
    set (O := fun bufs (k : nat) => mk_members d false c1 i1 n o bufs).
    set (L := fun i => ("ibuf_ptr", Address InputBuffer i) :: args).
    change (declare "ibuf_ptr" (Address InputBuffer 0) (mk_state (mk_members d false c1 i1 n o bufs1) args x))
      with (embed O L (mk_frame bufs1 0 0 x)).
    pose proof (exec_index (embed O L (mk_frame bufs1 0 0 x))) as E1.
    change (s_dispatcher (st_object (embed O L (mk_frame bufs1 0 0 x)))) with d in E1.
    rewrite get_index_getter in E1 by reflexivity.
    destruct (get_index p (framed_dispatcher d) ibuf_source (mk_frame bufs1 0 0 x)) as [[fr1 j]|f] eqn:Ej;
      cbn [bind mapped fst snd] in *; [|rewrite (exec_fault _ _ _ f) by exact E1; reflexivity].
    erewrite exec_next by exact E1. clear E1.
    destruct (get_index_frame_keeps _ _ _ _ _ _ Ej) as (q & ->). cbn [fr_bufs fr_bottom fr_world].
    apply get_index_range in Ej. unfold framed_dispatcher in Ej. cbn [d_keyring] in Ej. rewrite index_size_map in Ej.
    fold (index_length d) in Ej.
    set (L' := ("index", Number (CInt (index_length d) false) (Z.of_nat j)) :: L q).
    change (declare "index" (Number (CInt (index_length d) false) (Z.of_nat j)) (embed O L (mk_frame bufs1 q 0 x)))
      with (mk_state (mk_members d false c1 i1 n o bufs1) L' x).
    assert (E : eval (Compare Less (Read (Local "index")) DispatcherSize) (mk_state (mk_members d false c1 i1 n o bufs1) L' x)
                = Ok (mk_state (mk_members d false c1 i1 n o bufs1) L' x, bool_value (j <? d_size d))).
    { unfold L'. go. pose proof (index_length_range X d). pose proof (d_size_range d).
      rewrite !(convert_index p sz) by (auto; lia). unfold bool_value.
      replace (Z.of_nat j <? Z.of_nat (d_size d))%Z with (j <? d_size d) by (destruct (Nat.ltb_spec j (d_size d)); lia).
      reflexivity. }
    erewrite exec_if; [|exact E|apply truth_bool]. clear E.
    destruct (j <? d_size d); cbn iota.
    - change (eval (InputSize ?e) ?st) with
        ('(st1, v) <- eval e st;;
         i <- number v;;
         a <- action_at (s_dispatcher (st_object st1)) (Z.to_nat i);;
         n <- input_size_w sz a;;
         Ok (st1, Number (CInt sz false) n)).
      assert (E : exec (Assign (Member m_load_count) (InputSize (Read (Local "index"))))
                    (mk_state (mk_members d false c1 i1 n o bufs1) L' x)
                  = a <- action_at d j;; k <- input_size_w sz a;;
                    Ok (mk_state (mk_members d false k i1 n o bufs1) L' x, Next)).
      { unfold L'. go. rewrite Nat2Z.id. destruct (action_at d j) as [a|]; go; auto. destruct (input_size_w sz a) as [k|]; go; auto.
        rewrite convert_same. reflexivity. }
      destruct (action_at d j) as [a|f]; cbn [bind mapped] in *; [|rewrite (exec_fault _ _ _ f) by exact E; reflexivity].
      destruct (input_size_w sz a) as [k|f]; cbn [bind mapped] in *; [|rewrite (exec_fault _ _ _ f) by exact E; reflexivity].
      erewrite exec_next by exact E. clear E.
      erewrite exec_next by (go; rewrite convert_same; reflexivity). change (negb (1 =? 0)%Z) with true.
      erewrite exec_if with (b := (k =? 0)%Z).
      2:{ go. rewrite common_size_int by auto. rewrite convert_0, convert_same. reflexivity. }
      2:{ apply truth_bool. }
      destruct (k =? 0)%Z; cbn iota.
      + rewrite exec_call_resolved. cbn [st_object st_world set_member]. change (negb (1 =? 0)%Z) with true.
        destruct (call_w p sz _ x) as [[b' x']|f]; reflexivity.
      + reflexivity.
    - unfold seen. go. rewrite convert_same, convert_0. reflexivity.
  Qed.

  Lemma put_method : forall e st st0 byte, eval e st = Ok (st0, Number (CInt 1 false) byte) ->
    eval (Method1 TStatus TByte "byte" put_body e) st
    = mapped (fun q => (mk_state (fst (fst q)) (st_locals st0) (snd (fst q)), Status (snd q)))
        (put_w p sz byte (st_object st0) (st_world st0)).
  Proof.
    intros e st st0 byte E. pose proof (put_exec byte (st_object st0) (st_world st0)) as E1.
    change (eval (Method1 TStatus TByte "byte" put_body e) st) with
      ('(st0, w) <- eval e st;;
       w' <- into p sz (st_object st0) TByte w;;
       '(st1, o) <- exec put_body (mk_state (st_object st0) [("byte", w')] (st_world st0));;
       v <- into p sz (st_object st1) TStatus (returned o);;
       Ok (mk_state (st_object st1) (st_locals st0) (st_world st1), v)).
    rewrite E. cbn [bind into number_type]. rewrite convert_same. cbn [bind].
    destruct (exec put_body _) as [[st1 o]|f], (put_w p sz _ _ _) as [[[b' x'] s]|f'];
      unfold seen in E1; cbn [mapped fst snd bind into] in *; try discriminate.
    - injection E1 as -> -> ->. reflexivity.
    - injection E1 as ->. reflexivity.
  Qed.

  (** ** [is_loaded], [get], [write_to] *)

  Lemma method_eq : forall T body st, eval (Method T body) st
    = '(st1, o) <- exec body (mk_state (st_object st) [] (st_world st));;
      v <- into p sz (st_object st1) T (returned o);;
      Ok (mk_state (st_object st1) (st_locals st) (st_world st1), v).
  Proof. reflexivity. Qed.

  Lemma is_loaded_exec : forall b x, exec is_loaded_body (mk_state b [] x) = Ok (mk_state b [] x, Returned (bool_value (is_loaded_w b))).
  Proof. intros b x. unfold is_loaded_body, is_loaded_w. go. rewrite common_size, !convert_same by auto. reflexivity. Qed.

  Lemma is_loaded_ok : forall st, eval (Method TBool is_loaded_body) st = Ok (st, bool_value (is_loaded_w (st_object st))).
  Proof.
    intros st. rewrite method_eq, is_loaded_exec. unfold bool_value. go. rewrite convert_same. destruct st; reflexivity.
  Qed.

  Lemma get_exec : forall b x, exec get_body (mk_state b [] x)
    = mapped (fun q => (mk_state (fst q) [] x, Returned (Number (CInt 1 false) (snd q)))) (get_w sz b).
  Proof.
    intros b x. unfold get_body, get_w.
    change (exec (Return (Cond ?c ?a ?a')) ?st) with
      ('(st1, v) <- ('(st1, v) <- eval c st;; b <- truth v;; if b then eval a st1 else eval a' st1);; Ok (st1, Returned v)).
    rewrite is_loaded_ok. cbn [bind]. rewrite truth_bool. cbn [bind st_object].
    destruct (is_loaded_w b); [|reflexivity]. destruct b as [d l c i n o bufs]. go.
    rewrite common_size_int, convert_same, incremented_arith by auto. go. rewrite convert_same. go.
    cbn [Nat.add]. destruct (load (obuf bufs) (Z.to_nat n)); reflexivity.
  Qed.

  Lemma get_ok : forall st, eval (Method TByte get_body) st
    = mapped (fun q => (mk_state (fst q) (st_locals st) (st_world st), Number (CInt 1 false) (snd q))) (get_w sz (st_object st)).
  Proof.
    intros st. rewrite method_eq, get_exec. destruct (get_w sz (st_object st)) as [[b' z]|f]; go; auto.
  Qed.

  Definition turns (c : expr) (body : stmt) : nat -> state X -> res (state X * outcome) :=
    fix loop (n : nat) (st : state X) : res (state X * outcome) :=
      '(st1, v) <- eval c st;;
      b <- truth v;;
      if b then
        match n with
        | O => Fault OutOfFuel
        | S n' =>
            '(st2, o) <- exec body st1;;
            match o with
            | Next => loop n' st2
            | Returned v => Ok (st2, Returned v)
            end
        end
      else Ok (st1, Next).

  Lemma turns_eq : forall c body n st, turns c body n st
    = '(st1, v) <- eval c st;;
      b <- truth v;;
      if b then
        match n with
        | O => Fault OutOfFuel
        | S n' =>
            '(st2, o) <- exec body st1;;
            match o with
            | Next => turns c body n' st2
            | Returned v => Ok (st2, Returned v)
            end
        end
      else Ok (st1, Next).
  Proof. intros c body [|n] st; reflexivity. Qed.

  Lemma while_eq : forall c body st, exec (While c body) st = turns c body fuel st.
  Proof. reflexivity. Qed.

  Lemma write_turns : forall n st,
    turns (Method TBool is_loaded_body) (CallDest (Method TByte get_body)) n st
    = mapped (fun q => (mk_state (fst q) (st_locals st) (snd q), Next)) (write_loop_w sz n dest (st_object st) (st_world st)).
  Proof.
    induction n as [|n IH]; intros st; rewrite turns_eq; cbn [write_loop_w]; rewrite is_loaded_ok; cbn [bind]; rewrite truth_bool; cbn [bind];
      (destruct (is_loaded_w (st_object st)); [|destruct st; reflexivity]).
    - reflexivity.
    - change (exec (CallDest ?e) st) with
        ('(st1, v) <- eval e st;;
         byte <- number v;;
         x <- dest byte (st_world st1);;
         Ok (mk_state (st_object st1) (st_locals st1) x, Next)).
      rewrite get_ok. destruct (get_w sz (st_object st)) as [[b' byte]|f]; go; auto.
      destruct (dest byte (st_world st)) as [x'|f]; go; auto. rewrite IH. reflexivity.
  Qed.

  Lemma write_to_exec : forall b x, exec write_to_body (mk_state b [] x)
    = mapped (fun q => (mk_state (fst q) [] (snd q), Next)) (write_loop_w sz fuel dest b x).
  Proof. intros b x. unfold write_to_body. rewrite while_eq, write_turns. reflexivity. Qed.

  (** ** [read_from] *)

  Lemma put_src_ok : forall st, eval put_src st
    = '(x1, byte) <- src (st_world st);;
      mapped (fun q => (mk_state (fst (fst q)) (st_locals st) (snd (fst q)), Status (snd q))) (put_w p sz byte (st_object st) x1).
  Proof.
    intros st. unfold put_src. destruct (src (st_world st)) as [[x1 byte]|f] eqn:E; cbn [bind].
    - rewrite (put_method CallSrc st (mk_state (st_object st) (st_locals st) x1) byte).
      + reflexivity.
      + cbn [Classes.eval]. rewrite E. reflexivity.
    - change (eval (Method1 TStatus TByte "byte" put_body CallSrc) st) with
        ('(st0, w) <- ('(x, byte) <- src (st_world st);;
                       Ok (mk_state (st_object st) (st_locals st) x, Number (CInt 1 false) byte));;
         w' <- into p sz (st_object st0) TByte w;;
         '(st1, o) <- exec put_body (mk_state (st_object st0) [("byte", w')] (st_world st0));;
         v <- into p sz (st_object st1) TStatus (returned o);;
         Ok (mk_state (st_object st1) (st_locals st0) (st_world st1), v)).
      rewrite E. reflexivity.
  Qed.

  Lemma assign_put : forall b x s, exec (Assign (Local "status") put_src) (mk_state b [("status", Status s)] x)
    = '(x1, byte) <- src x;;
      mapped (fun q => (mk_state (fst (fst q)) [("status", Status (snd q))] (snd (fst q)), Next)) (put_w p sz byte b x1).
  Proof.
    intros b x s. change (exec (Assign ?l put_src) ?st) with ('(st1, v) <- eval put_src st;; st2 <- write p sz l v st1;; Ok (st2, Next)).
    rewrite put_src_ok. cbn [st_world st_object st_locals]. destruct (src x) as [[x1 byte]|f]; go; auto.
    destruct (put_w p sz byte b x1) as [[[b' x'] s']|f]; go; reflexivity.
  Qed.

  Lemma index_turns : forall n b x s,
    turns (And (Not (Read (Member m_is_index_loaded))) (Compare Equal (Read (Local "status")) (StatusLit LOADING_PACKET)))
      (Assign (Local "status") put_src) n (mk_state b [("status", Status s)] x)
    = mapped (fun q => (mk_state (fst (fst q)) [("status", Status (snd q))] (snd (fst q)), Next)) (read_index_w p sz n src b x s).
  Proof.
    assert (C : forall b x s,
      eval (And (Not (Read (Member m_is_index_loaded))) (Compare Equal (Read (Local "status")) (StatusLit LOADING_PACKET)))
        (mk_state b [("status", Status s)] x)
      = Ok (mk_state b [("status", Status s)] x, bool_value (negb (s_is_index_loaded b) && is_loading s))).
    { intros [d [|] c i n o bufs] x [| |]; reflexivity. }
    induction n as [|n IH]; intros b x s; rewrite turns_eq; cbn [read_index_w]; rewrite C; cbn [bind]; rewrite truth_bool; cbn [bind];
      (destruct (negb (s_is_index_loaded b) && is_loading s); [|reflexivity]).
    - reflexivity.
    - rewrite assign_put. destruct (src x) as [[x1 byte]|f]; cbn [bind]; auto.
      destruct (put_w p sz byte b x1) as [[[b' x'] s']|f]; cbn [bind mapped fst snd]; auto.
  Qed.

  Lemma payload_turns : forall n b x s,
    turns (Read (Member m_is_index_loaded)) (Assign (Local "status") put_src) n (mk_state b [("status", Status s)] x)
    = mapped (fun q => (mk_state (fst (fst q)) [("status", Status (snd q))] (snd (fst q)), Next)) (read_payload_w p sz n src b x s).
  Proof.
    assert (C : forall b x s, eval (Read (Member m_is_index_loaded)) (mk_state b [("status", Status s)] x)
      = Ok (mk_state b [("status", Status s)] x, bool_value (s_is_index_loaded b))) by reflexivity.
    induction n as [|n IH]; intros b x s; rewrite turns_eq; cbn [read_payload_w]; rewrite C; cbn [bind]; rewrite truth_bool; cbn [bind];
      (destruct (s_is_index_loaded b); [|reflexivity]).
    - reflexivity.
    - rewrite assign_put. destruct (src x) as [[x1 byte]|f]; cbn [bind]; auto.
      destruct (put_w p sz byte b x1) as [[[b' x'] s']|f]; cbn [bind mapped fst snd]; auto.
  Qed.

  Lemma read_from_exec : forall b x, seen (exec read_from_body (mk_state b [] x))
    = '(b1, x1, s1) <- read_index_w p sz fuel src b x LOADING_PACKET;;
      mapped (fun q => (fst (fst q), snd (fst q), Returned (Status (snd q)))) (read_payload_w p sz fuel src b1 x1 s1).
  Proof.
    intros b x. unfold read_from_body. erewrite exec_next by (go; reflexivity).
    pose proof (index_turns fuel b x LOADING_PACKET) as E. rewrite <- while_eq in E.
    destruct (read_index_w p sz fuel src b x LOADING_PACKET) as [[[b1 x1] s1]|f]; cbn [bind mapped fst snd] in *;
      [|rewrite (exec_fault _ _ _ f) by exact E; reflexivity].
    erewrite exec_next by exact E. clear E.
    pose proof (payload_turns fuel b1 x1 s1) as E. rewrite <- while_eq in E.
    destruct (read_payload_w p sz fuel src b1 x1 s1) as [[[b2 x2] s2]|f]; cbn [bind mapped fst snd] in *;
      [|rewrite (exec_fault _ _ _ f) by exact E; reflexivity].
    erewrite exec_next by exact E. reflexivity.
  Qed.

  (** ** [operator()] *)

  Lemma process_exec : forall b x, seen (exec process_body (mk_state b [] x))
    = '(b1, x1, s1) <- read_index_w p sz fuel src b x LOADING_PACKET;;
      '(b2, x2, s2) <- read_payload_w p sz fuel src b1 x1 s1;;
      match s2 with
      | RESOLVED_PACKET =>
          mapped (fun q => (fst q, snd q, Returned (Status s2))) (write_loop_w sz fuel dest b2 x2)
      | _ => Ok (b2, x2, Returned (Status s2))
      end.
  Proof.
    intros b x. unfold process_body. pose proof (read_from_exec b x) as R.
    assert (E : exec (Auto "status" (Method TStatus read_from_body)) (mk_state b [] x)
                = '(st1, o) <- exec read_from_body (mk_state b [] x);;
                  v <- into p sz (st_object st1) TStatus (returned o);;
                  Ok (mk_state (st_object st1) [("status", v)] (st_world st1), Next)).
    { change (exec (Auto ?y ?e) ?st) with ('(st1, v) <- eval e st;; Ok (declare y v st1, Next)).
      rewrite method_eq. cbn [st_object st_world]. destruct (exec read_from_body (mk_state b [] x)) as [[st1 o]|f]; auto.
      cbn [bind]. destruct (into p sz (st_object st1) TStatus (returned o)); reflexivity. }
    destruct (read_index_w p sz fuel src b x LOADING_PACKET) as [[[b1 x1] s1]|f]; cbn [bind] in *.
    2:{ destruct (exec read_from_body (mk_state b [] x)) as [[st1 o]|f']; unfold seen in R; cbn [mapped] in R; [discriminate|].
        injection R as ->. rewrite (exec_fault _ _ _ f) by exact E. reflexivity. }
    destruct (read_payload_w p sz fuel src b1 x1 s1) as [[[b2 x2] s2]|f]; cbn [bind mapped fst snd] in *.
    2:{ destruct (exec read_from_body (mk_state b [] x)) as [[st1 o]|f']; unfold seen in R; cbn [mapped] in R; [discriminate|].
        injection R as ->. rewrite (exec_fault _ _ _ f) by exact E. reflexivity. }
    destruct (exec read_from_body (mk_state b [] x)) as [[st1 o]|f']; unfold seen in R; cbn [mapped fst snd] in R; [|discriminate].
    injection R as R1 R2 R3. cbn [bind] in E. rewrite R1, R2, R3 in E. cbn [bind returned into] in E.
    erewrite exec_next by exact E. clear E R1 R2 R3 st1 o.
    pose proof (write_to_exec b2 x2) as W.
    assert (V : eval (Method TVoid write_to_body) (mk_state b2 [("status", Status s2)] x2)
                = mapped (fun q => (mk_state (fst q) [("status", Status s2)] (snd q), Nothing)) (write_loop_w sz fuel dest b2 x2)).
    { rewrite method_eq. cbn [st_object st_world]. rewrite W. destruct (write_loop_w sz fuel dest b2 x2) as [[b3 x3]|f]; reflexivity. }
    assert (C : eval (Compare Equal (Read (Local "status")) (StatusLit RESOLVED_PACKET)) (mk_state b2 [("status", Status s2)] x2)
                = Ok (mk_state b2 [("status", Status s2)] x2,
                      bool_value match s2 with RESOLVED_PACKET => true | _ => false end)) by (destruct s2; reflexivity).
    pose proof (exec_if _ (Expr (Method TVoid write_to_body)) Skip _ _ _ _ C (truth_bool _)) as E.
    change (exec (Expr ?e) ?st) with ('(st1, _) <- eval e st;; Ok (st1, Next)) in E. rewrite V in E.
    destruct s2; cbn iota in E.
    - erewrite exec_next by exact E. reflexivity.
    - erewrite exec_next by exact E. reflexivity.
    - destruct (write_loop_w sz fuel dest b2 x2) as [[b3 x3]|f]; cbn [bind mapped fst snd] in *.
      + erewrite exec_next by exact E. reflexivity.
      + rewrite (exec_fault _ _ _ f) by exact E. reflexivity.
  Qed.

  (** ** [dispatcher::operator()] *)

  Lemma dispatch_exec : forall b x, seen (exec dispatch_body (mk_state b [] x))
    = mapped (fun q => (b, fst q, Returned (Number (CInt (index_length (s_dispatcher b)) false) (Z.of_nat (snd q)))))
        (dispatch p (s_dispatcher b) src dest x).
  Proof.
    intros b x. unfold dispatch_body, dispatch. set (d := s_dispatcher b).
    set (G := (fun st => '(st1, v) <- eval CallSrc st;; z <- number v;; Ok (st1, z)) : source (state X)).
    set (P := (fun byte st => '(st1, _) <- exec (CallDest (Read (Local "byte"))) (declare "byte" (Number (CInt 1 false) byte) st);;
                              Ok (leave (st_locals st) st1)) : destination (state X)).
    assert (HG : forall L y, G (mk_state b L y) = mapped (fun q => (mk_state b L (fst q), snd q)) (src y)).
    { intros L y. unfold G. cbn [Classes.eval st_world st_object st_locals]. destruct (src y) as [[y' z]|]; reflexivity. }
    assert (HP : forall L byte y, P byte (mk_state b L y) = mapped (mk_state b L) (dest byte y)).
    { intros L byte y. unfold P. go. destruct (dest byte y) as [y'|]; go; auto. unfold leave. go.
      replace (S (List.length L) - List.length L) with 1 by lia. reflexivity. }
    assert (E : exec (Auto "index" (GetIndex CallSrc)) (mk_state b [] x)
                = '(st1, i) <- get_index p (within_dispatcher d) G (mk_state b [] x);;
                  Ok (declare "index" (Number (CInt (index_length d) false) (Z.of_nat i)) st1, Next)).
    { change (exec (Auto "index" (GetIndex CallSrc)) (mk_state b [] x)) with
        ('(st1, v) <- ('(st1, index) <- get_index p (within_dispatcher d) G (mk_state b [] x);;
                       Ok (st1, Number (CInt (index_length d) false) (Z.of_nat index)));;
         Ok (declare "index" v st1, Next)).
      destruct (get_index p (within_dispatcher d) G (mk_state b [] x)) as [[st1 i]|]; reflexivity. }
    rewrite (get_index_emb p (mk_state b []) src G (HG []) d (within_dispatcher d)) in E; try reflexivity.
    2:{ unfold within_dispatcher. cbn [d_keyring]. apply index_size_map. }
    destruct (get_index p d src x) as [[x1 i]|f] eqn:Ei; cbn [bind mapped fst snd] in *;
      [|rewrite (exec_fault _ _ _ f) by exact E; reflexivity].
    erewrite exec_next by exact E. clear E. apply get_index_range in Ei. fold (index_length d) in Ei.
    set (L := [("index", Number (CInt (index_length d) false) (Z.of_nat i))]).
    change (declare "index" (Number (CInt (index_length d) false) (Z.of_nat i)) (mk_state b [] x1)) with (mk_state b L x1).
    assert (E : eval (Compare Less (Read (Local "index")) DispatcherSize) (mk_state b L x1)
                = Ok (mk_state b L x1, bool_value (i <? d_size d))).
    { unfold L. go. fold d. pose proof (index_length_range X d). pose proof (d_size_range d).
      rewrite !(convert_index p sz) by (auto; lia). unfold bool_value.
      replace (Z.of_nat i <? Z.of_nat (d_size d))%Z with (i <? d_size d) by (destruct (Nat.ltb_spec i (d_size d)); lia).
      reflexivity. }
    pose proof (exec_if _ (RunAction (Read (Local "index")) CallSrc "byte" (CallDest (Read (Local "byte")))) Skip
      _ _ _ _ E (truth_bool _)) as E1. clear E.
    destruct (i <? d_size d).
    - change (exec (RunAction ?e CallSrc "byte" ?s) (mk_state b L x1)) with
        (a <- action_at (within_dispatcher d) (Z.to_nat (Z.of_nat i));;
         st2 <- run p a G P (mk_state b L x1);;
         Ok (st2, Next)) in E1.
      rewrite Nat2Z.id in E1. unfold within_dispatcher in E1. rewrite action_at_map in E1.
      unfold action_at. destruct (nth_error (d_actions d) i) as [a|]; cbn [bind mapped] in *;
        [|rewrite (exec_fault _ _ _ OutOfBounds) by exact E1; reflexivity].
      rewrite (run_emb p (mk_state b L) src G dest P (HG L) (HP L) a) in E1.
      2:{ destruct a as [[[e m f]|]|[e m f]]; cbn; auto; repeat split; intros args y; cbn; destruct (f_call f args y); reflexivity. }
      destruct (run p a src dest x1) as [x2|f]; cbn [bind mapped fst snd] in *;
        [|rewrite (exec_fault _ _ _ f) by exact E1; reflexivity].
      erewrite exec_next by exact E1. reflexivity.
    - erewrite exec_next by exact E1. reflexivity.
  Qed.
End Methods.

(** ** As many turns as needed *)

Section Turns.
  Variable p : platform.
  Variable sz : nat.
  Context {X : Type}.

  Lemma read_index_more : forall (src : source X) n n' b x s r, n <= n' -> read_index_w p sz n src b x s = r ->
    r <> Fault OutOfFuel -> read_index_w p sz n' src b x s = r.
  Proof.
    intros src. induction n as [|n IH]; intros n' b x s r Hn E Hr.
    - destruct n' as [|n']; cbn [read_index_w] in *; auto. destruct (negb (s_is_index_loaded b) && is_loading s); congruence.
    - destruct n' as [|n']; [lia|]. cbn [read_index_w] in *. destruct (negb (s_is_index_loaded b) && is_loading s); auto.
      destruct (src x) as [[x1 byte]|]; cbn [bind] in *; auto.
      destruct (put_w p sz byte b x1) as [[[b' x2] s']|]; cbn [bind] in *; auto. apply IH with (n' := n') in E; auto. lia.
  Qed.

  Lemma read_payload_more : forall (src : source X) n n' b x s r, n <= n' -> read_payload_w p sz n src b x s = r ->
    r <> Fault OutOfFuel -> read_payload_w p sz n' src b x s = r.
  Proof.
    intros src. induction n as [|n IH]; intros n' b x s r Hn E Hr.
    - destruct n' as [|n']; cbn [read_payload_w] in *; auto. destruct (s_is_index_loaded b); congruence.
    - destruct n' as [|n']; [lia|]. cbn [read_payload_w] in *. destruct (s_is_index_loaded b); auto.
      destruct (src x) as [[x1 byte]|]; cbn [bind] in *; auto.
      destruct (put_w p sz byte b x1) as [[[b' x2] s']|]; cbn [bind] in *; auto. apply IH with (n' := n') in E; auto. lia.
  Qed.

  Lemma write_loop_more : forall (dest : destination X) n n' b x r, n <= n' -> write_loop_w sz n dest b x = r ->
    r <> Fault OutOfFuel -> write_loop_w sz n' dest b x = r.
  Proof.
    intros dest. induction n as [|n IH]; intros n' b x r Hn E Hr.
    - destruct n' as [|n']; cbn [write_loop_w] in *; auto. destruct (is_loaded_w b); congruence.
    - destruct n' as [|n']; [lia|]. cbn [write_loop_w] in *. destruct (is_loaded_w b); auto.
      destruct (get_w sz b) as [[b' byte]|]; cbn [bind] in *; auto.
      destruct (dest byte x) as [x'|]; cbn [bind] in *; auto. apply IH with (n' := n') in E; auto. lia.
  Qed.
End Turns.

(** ** The property *)

(** [put], [get] and [is_loaded], run statement by statement, do what [put_w],
    [get_w] and [is_loaded_w] do, whatever the members are. *)
Theorem C100_put : forall p sz (X : Type) fuel src dest byte (b : members X) x,
  wf_platform p -> p_int_size p <= sz <= 8 ->
  run_method p sz fuel (modelled p) TStatus put_body [("byte", Number (CInt 1 false) byte)] src dest b x
  = '(b', x', s) <- put_w p sz byte b x;; Ok (b', x', Status s).
Proof.
  intros p sz X fuel src dest byte b x Hp Hs. unfold run_method.
  pose proof (put_exec p sz Hp Hs fuel src dest byte b x) as E. unfold seen in E.
  destruct (exec p sz fuel (modelled p) src dest put_body _) as [[st o]|f], (put_w p sz byte b x) as [[[b' x'] s]|f'];
    cbn [mapped bind fst snd] in *; try discriminate.
  - injection E as -> -> ->. reflexivity.
  - injection E as ->. reflexivity.
Qed.

Theorem C100_get : forall p sz (X : Type) fuel src dest (b : members X) x,
  wf_platform p -> p_int_size p <= sz <= 8 ->
  run_method p sz fuel (modelled p) TByte get_body [] src dest b x
  = ('(b', byte) <- get_w sz b;; Ok (b', x, Number (CInt 1 false) byte))
  /\ run_method p sz fuel (modelled p) TBool is_loaded_body [] src dest b x
     = Ok (b, x, Number CBool (if is_loaded_w b then 1%Z else 0%Z)).
Proof.
  intros p sz X fuel src dest b x Hp Hs. unfold run_method. rewrite get_exec, is_loaded_exec by auto. split.
  - destruct (get_w sz b) as [[b' byte]|]; reflexivity.
  - destruct (is_loaded_w b); reflexivity.
Qed.

(** [read_from], [write_to] and [operator()], the loops being given enough turns. *)
Theorem C100_read_from : forall p sz (X : Type) src dest (b : members X) x r,
  wf_platform p -> p_int_size p <= sz <= 8 -> read_from_w p sz src b x = r -> r <> Fault OutOfFuel ->
  exists n, forall fuel, n <= fuel ->
    run_method p sz fuel (modelled p) TStatus read_from_body [] src dest b x
    = '(b', x', s) <- r;; Ok (b', x', Status s).
Proof.
  intros p sz X src dest b x r Hp Hs E Hr. unfold read_from_w in E.
  exists (Nat.max (S (Z.to_nat (s_load_count b)))
            match read_index_w p sz (S (Z.to_nat (s_load_count b))) src b x LOADING_PACKET with
            | Ok (b1, _, _) => S (Z.to_nat (s_load_count b1))
            | Fault _ => 0
            end).
  intros fuel Hf. unfold run_method. pose proof (read_from_exec p sz Hp Hs fuel src dest b x) as R.
  destruct (read_index_w p sz (S (Z.to_nat (s_load_count b))) src b x LOADING_PACKET) as [[[b1 x1] s1]|f] eqn:E1;
    cbn [bind] in E.
  - rewrite (fun H => read_index_more p sz src _ fuel _ _ _ _ H E1) in R by (lia || discriminate || congruence). cbn [bind] in R.
    rewrite (fun H => read_payload_more p sz src _ fuel _ _ _ _ H E Hr) in R by lia. unfold seen in R.
    destruct (exec p sz fuel (modelled p) src dest read_from_body _) as [[st o]|f], r as [[[b' x'] s]|f'];
      cbn [mapped bind fst snd] in *; try discriminate.
    + injection R as -> -> ->. reflexivity.
    + injection R as ->. reflexivity.
  - subst r. rewrite (fun H => read_index_more p sz src _ fuel _ _ _ _ H E1) in R by (lia || solve [auto]). cbn [bind] in *. unfold seen in R.
    destruct (exec p sz fuel (modelled p) src dest read_from_body _) as [[st o]|f']; cbn [mapped bind] in *; [discriminate|].
    injection R as ->. reflexivity.
Qed.

Theorem C100_write_to : forall p sz (X : Type) src dest (b : members X) x r,
  wf_platform p -> p_int_size p <= sz <= 8 -> write_to_w sz dest b x = r -> r <> Fault OutOfFuel ->
  exists n, forall fuel, n <= fuel ->
    run_method p sz fuel (modelled p) TVoid write_to_body [] src dest b x = '(b', x') <- r;; Ok (b', x', Nothing).
Proof.
  intros p sz X src dest b x r Hp Hs E Hr. unfold write_to_w in E. eexists. intros fuel Hf. unfold run_method.
  rewrite write_to_exec by auto. rewrite (write_loop_more sz dest _ fuel _ _ _ Hf E Hr).
  destruct r as [[b' x']|]; reflexivity.
Qed.

Theorem C100_process : forall p sz (X : Type) src dest (b : members X) x r,
  wf_platform p -> p_int_size p <= sz <= 8 -> process_w p sz src dest b x = r -> r <> Fault OutOfFuel ->
  exists n, forall fuel, n <= fuel ->
    run_method p sz fuel (modelled p) TStatus process_body [] src dest b x
    = '(b', x', s) <- r;; Ok (b', x', Status s).
Proof.
  intros p sz X src dest b x r Hp Hs E Hr. unfold process_w, read_from_w in E.
  assert (M : forall (r0 : res (members X * X * outcome)) fuel,
    seen (exec p sz fuel (modelled p) src dest process_body (mk_state b [] x)) = r0 ->
    run_method p sz fuel (modelled p) TStatus process_body [] src dest b x
    = '(b', x', o) <- r0;; v <- into p sz b' TStatus (returned o);; Ok (b', x', v)).
  { intros r0 fuel <-. unfold run_method, seen. destruct (exec p sz fuel (modelled p) src dest process_body _) as [[st o]|f]; reflexivity. }
  destruct (read_index_w p sz (S (Z.to_nat (s_load_count b))) src b x LOADING_PACKET) as [[[b1 x1] s1]|f] eqn:E1;
    cbn [bind] in E.
  2:{ subst r. exists (S (Z.to_nat (s_load_count b))). intros fuel Hf. erewrite M; [|reflexivity].
      rewrite process_exec by auto.
      rewrite (fun H => read_index_more p sz src _ fuel _ _ _ _ H E1) by (lia || solve [auto]). reflexivity. }
  destruct (read_payload_w p sz (S (Z.to_nat (s_load_count b1))) src b1 x1 s1) as [[[b2 x2] s2]|f] eqn:E2; cbn [bind] in E.
  2:{ subst r. exists (S (Z.to_nat (s_load_count b)) + S (Z.to_nat (s_load_count b1))). intros fuel Hf. erewrite M; [|reflexivity].
      rewrite process_exec by auto.
      rewrite (fun H => read_index_more p sz src _ fuel _ _ _ _ H E1) by (lia || discriminate || congruence). cbn [bind].
      rewrite (fun H => read_payload_more p sz src _ fuel _ _ _ _ H E2) by (lia || solve [auto]). reflexivity. }
  exists (S (Z.to_nat (s_load_count b)) + S (Z.to_nat (s_load_count b1)) + S (List.length (obuf (s_bufs b2)))).
  intros fuel Hf. erewrite M; [|reflexivity]. rewrite process_exec by auto.
  rewrite (fun H => read_index_more p sz src _ fuel _ _ _ _ H E1) by (lia || discriminate || congruence). cbn [bind].
  rewrite (fun H => read_payload_more p sz src _ fuel _ _ _ _ H E2) by (lia || discriminate || congruence). cbn [bind].
  destruct s2; try (subst r; reflexivity). unfold write_to_w in E.
  destruct (write_loop_w sz (S (List.length (obuf (s_bufs b2)))) dest b2 x2) as [[b3 x3]|f] eqn:E3; cbn [bind] in E; subst r.
  - rewrite (fun H => write_loop_more sz dest _ fuel _ _ _ H E3) by (lia || discriminate || congruence). reflexivity.
  - rewrite (fun H => write_loop_more sz dest _ fuel _ _ _ H E3) by (lia || (intros F; apply Hr; injection F as ->; reflexivity)).
    reflexivity.
Qed.

(** [operator()] of the plain dispatcher. *)
Theorem C100_dispatch : forall p sz (X : Type) fuel src dest (b : members X) x,
  wf_platform p -> p_int_size p <= sz <= 8 ->
  run_method p sz fuel (modelled p) TIndex dispatch_body [] src dest b x
  = '(x', i) <- dispatch p (s_dispatcher b) src dest x;;
    Ok (b, x', Number (CInt (kr_index_size (d_keyring (s_dispatcher b))) false) (Z.of_nat i)).
Proof.
  intros p sz X fuel src dest b x Hp Hs. unfold run_method.
  pose proof (dispatch_exec p sz Hp Hs fuel src dest b x) as E. unfold seen in E.
  destruct (exec p sz fuel (modelled p) src dest dispatch_body _) as [[st o]|f], (dispatch p (s_dispatcher b) src dest x) as [[x' i]|f'];
    cbn [mapped bind fst snd] in *; try discriminate.
  - injection E as -> -> ->. cbn [returned into number_type bind]. rewrite convert_same. reflexivity.
  - injection E as ->. reflexivity.
Qed.

Lemma step_source_ok : forall p sz (X : Type) (o : op X) b x r,
  wf_platform p -> p_int_size p <= sz <= 8 -> step_w p sz o b x = r -> r <> Fault OutOfFuel ->
  exists n, forall fuel, n <= fuel -> step_source p sz fuel (modelled p) o b x = r.
Proof.
  intros p sz X o b x r Hp Hs E Hr. destruct o; cbn [step_w] in E; try (exists 0; intros fuel _; exact E).
  - exists 0. intros fuel _. cbn [step_source]. rewrite C100_put by auto. rewrite <- E.
    destruct (put_w p sz byte b x) as [[[b' x'] s]|]; reflexivity.
  - exists 0. intros fuel _. cbn [step_source]. rewrite (proj1 (C100_get p sz X fuel _ _ b x Hp Hs)). rewrite <- E.
    destruct (get_w sz b) as [[b' byte]|]; reflexivity.
  - exists 0. intros fuel _. cbn [step_source]. rewrite (proj2 (C100_get p sz X fuel _ _ b x Hp Hs)). rewrite <- E.
    destruct (is_loaded_w b); reflexivity.
  - destruct (C100_read_from p sz X src no_dest b x _ Hp Hs eq_refl) as (n & H).
    { intros F. rewrite F in E. cbn in E. congruence. }
    exists n. intros fuel Hf. cbn [step_source]. rewrite H by auto. rewrite <- E.
    destruct (read_from_w p sz src b x) as [[[b' x'] s]|]; reflexivity.
  - destruct (C100_write_to p sz X no_src dest b x _ Hp Hs eq_refl) as (n & H).
    { intros F. rewrite F in E. cbn in E. congruence. }
    exists n. intros fuel Hf. cbn [step_source]. rewrite H by auto. rewrite <- E.
    destruct (write_to_w sz dest b x) as [[b' x']|]; reflexivity.
  - destruct (C100_process p sz X src dest b x _ Hp Hs eq_refl) as (n & H).
    { intros F. rewrite F in E. cbn in E. congruence. }
    exists n. intros fuel Hf. cbn [step_source]. rewrite H by auto. rewrite <- E.
    destruct (process_w p sz src dest b x) as [[[b' x'] s]|]; reflexivity.
Qed.

Lemma run_source_ok : forall p sz (X : Type) (ops : list (op X)) b x r,
  wf_platform p -> p_int_size p <= sz <= 8 -> run_w p sz ops b x = r -> r <> Fault OutOfFuel ->
  exists n, forall fuel, n <= fuel -> run_source p sz fuel (modelled p) ops b x = r.
Proof.
  intros p sz X ops. induction ops as [|o ops IH]; intros b x r Hp Hs E Hr; cbn [run_w run_source] in *.
  - exists 0. auto.
  - destruct (step_source_ok p sz X o b x _ Hp Hs eq_refl) as (n1 & H1).
    { intros F. rewrite F in E. cbn in E. congruence. }
    destruct (step_w p sz o b x) as [[[b1 x1] v]|f]; cbn [bind] in E.
    + destruct (IH b1 x1 _ Hp Hs eq_refl) as (n2 & H2).
      { intros F. rewrite F in E. cbn in E. congruence. }
      exists (Nat.max n1 n2). intros fuel Hf. cbn [run_source]. rewrite H1 by lia. cbn [bind]. rewrite H2 by lia. exact E.
    + exists n1. intros fuel Hf. cbn [run_source]. rewrite H1 by lia. exact E.
Qed.

(** Every history of a buffered dispatcher: what the statements of the source do is
    what the model of Buffered.v, with natural numbers and functions, does. *)
Theorem C100_history : forall p sz (X : Type) dbl (kr : keyring X) ft g g' b ops x,
  keyring_ok p kr -> make_buffered dbl kr ft g g' = Some b ->
  wf_platform p -> p_int_size p <= sz <= 8 ->
  (Z.of_nat (List.length (ibuf (b_bufs b))) < 2 ^ (8 * Z.of_nat sz))%Z ->
  Forall (fun s => (Z.of_nat (wire_sizes (sig_params s)) < 2 ^ (8 * Z.of_nat sz))%Z) (kr_signatures kr) ->
  run_ops p ops b x <> Fault OutOfFuel ->
  exists n, forall fuel, n <= fuel ->
    run_source p sz fuel (modelled p) ops (init_members (make_dispatcher kr ft) (b_bufs b)) x
    = match run_ops p ops b x with
      | Ok (b', x', vs) =>
          Ok (mk_members (b_dispatcher b') (b_is_index_loaded b') (Z.of_nat (b_load_count b')) (Z.of_nat (b_ibuf_next b'))
                (Z.of_nat (b_obuf_next b')) (Z.of_nat (b_obuf_bottom b')) (b_bufs b'), x', vs)
      | Fault f => Fault f
      end.
Proof.
  intros p sz X dbl kr ft g g' b ops x Hk Hb Hp Hs Hi Hw Hr.
  rewrite <- (C98_counters p sz X dbl kr ft g g' b ops x Hk Hb Hi Hw).
  apply run_source_ok; auto. rewrite (C98_counters p sz X dbl kr ft g g' b ops x Hk Hb Hi Hw).
  destruct (run_ops p ops b x) as [[[b' x'] vs]|f]; [discriminate|].
  intros F. apply Hr. injection F as ->. reflexivity.
Qed.

(** A getter which gives zeros: the index of [ex_add] and its arguments. *)
Definition ex_loops : list (op log) :=
  ReadFrom (fun x => Ok (x, 0%Z)) :: WriteTo (fun byte x => Ok ((9, [VInt byte]) :: x))
  :: Process (fun x => Ok (x, 0%Z)) (fun byte x => Ok ((8, [VInt byte]) :: x)) :: ex_history.

Example C100_example : exists b,
  keyring_ok pc_native ex_keyring /\ make_buffered true ex_keyring ANY [9; 9; 9]%Z [] = Some b
  /\ wf_platform pc_native /\ p_int_size pc_native <= 8 <= 8
  /\ (Z.of_nat (List.length (ibuf (b_bufs b))) < 2 ^ (8 * Z.of_nat 8))%Z
  /\ Forall (fun s => (Z.of_nat (wire_sizes (sig_params s)) < 2 ^ (8 * Z.of_nat 8))%Z) (kr_signatures ex_keyring)
  /\ match run_source pc_native 8 9 (modelled pc_native) ex_loops (init_members (make_dispatcher ex_keyring ANY) (b_bufs b)) [] with
     | Ok (m, x, vs) =>
         (s_load_count m, s_ibuf_next m, s_obuf_next m, s_obuf_bottom m, List.length x, List.length vs)
         = (1, 0, 0, 0, 14%nat, 25%nat)%Z
         /\ match run_ops pc_native ex_loops b [] with Ok (_, x', vs') => (x', vs') = (x, vs) | Fault _ => False end
     | Fault _ => False
     end.
Proof.
  eexists. split; [exact ex_keyring_ok|]. split; [reflexivity|]. split; [exact pc_native_wf|]. split; [cbn; lia|].
  split; [reflexivity|]. split.
  - unfold ex_keyring, kr_signatures; cbn [kr_funcs map snd]. list_cases; vm_compute; reflexivity.
  - vm_compute. split; reflexivity.
Qed.

(** Loops which are not given any turn do not end. *)
Example C100_example_turns : exists b, make_buffered true ex_keyring ANY [9; 9; 9]%Z [] = Some b
  /\ run_source pc_native 8 0 (modelled pc_native) ex_loops (init_members (make_dispatcher ex_keyring ANY) (b_bufs b)) [] = Fault OutOfFuel.
Proof. eexists. split; [reflexivity|]. vm_compute. reflexivity. Qed.

(** A plain dispatcher which is sent 1, the index of [ex_notify], and then 7, which is
    not an index. *)
Example C100_example_dispatch :
  match run_method pc_native 8 0 (modelled pc_native) TIndex dispatch_body [] (fun x => Ok (x, 1%Z)) no_dest
          (init_members (make_dispatcher ex_keyring ANY) (Single [])) [] with
  | Ok (_, x, v) => (x, v) = ([(1, [])], Number (CInt 1 false) 1)
  | Fault _ => False
  end
  /\ match run_method pc_native 8 0 (modelled pc_native) TIndex dispatch_body [] (fun x => Ok (x, 7%Z)) no_dest
            (init_members (make_dispatcher ex_keyring ANY) (Single [])) [] with
    | Ok (_, x, v) => (x, v) = ([], Number (CInt 1 false) 7)
    | Fault _ => False
    end.
Proof. vm_compute. split; reflexivity. Qed.

Print Assumptions C100_put.
Print Assumptions C100_get.
Print Assumptions C100_read_from.
Print Assumptions C100_write_to.
Print Assumptions C100_process.
Print Assumptions C100_dispatch.
Print Assumptions C100_history.
