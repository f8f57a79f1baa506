(** Property C101: how many accesses to its members a buffered dispatcher makes for
    each call, and how many times it calls a callback. *)

From Coq Require Import List ZArith Lia Bool Arith.
From Verif Require Import Base CInt Spec IntModel Conditions MemFacts TypeLevel Serial TupleModel
  TypeLevelProofs IntProofs SignedProofs SerialProofs CodecFacts Bounds TupleProofs SpecRpc Rpc RpcProofs
  Hosts Closed PropertiesTypes PropertiesRpc Buffered SpecBuffered BufferedProofs PropertiesBuffered
  Threads ThreadFacts ThreadProofs PropertiesThreads.
Import ListNotations.
Open Scope nat_scope.

(** ** What is expected *)

Section Expected.
  Context {X : Type}.
  Variable fm : format.

  (** The byte and the two counters are updated for every byte.  The index is read when it
      is complete, and again when the request is.  The arguments are read once, each byte of
      the result is written once (and the position with it), and the counters are set for
      the next request. *)
  Definition put_cost (byte : Z) (a : machine X) : nat :=
    let bs := mc_in a ++ [byte] in
    let w := fm_w fm in
    match examine fm (mc_table a) bs with
    | Incomplete => if length bs =? w then 10 + w else 5
    | Invalid => 8 + w
    | Request f payload =>
        (if length bs =? w then 10 + w else 6)
        + 7 + w + length payload + 3 * wire_size_ret (ret f)
    end.

  Definition op_cost (o : op X) (a : machine X) : nat :=
    match o with
    | Put byte => put_cost byte a
    | Get => if mc_loaded a then 5 else 2
    | IsLoaded => 2
    | _ => 1
    end.

  (** A callback is only called with the last byte of its request. *)
  Definition op_calls (o : op X) (a : machine X) : nat :=
    match o with
    | Put byte => match examine fm (mc_table a) (mc_in a ++ [byte]) with Request _ _ => 1 | _ => 0 end
    | _ => 0
    end.

  (** Several calls. *)
  Fixpoint total (cost : op X -> machine X -> nat) (ops : list (op X)) (a : machine X) (x : X) : nat :=
    match ops with
    | [] => 0
    | o :: ops' =>
        cost o a + match mc_step fm o a x with
                   | Ok (a', x', _) => total cost ops' a' x'
                   | Fault _ => 0
                   end
    end.
End Expected.

(** The calls of callbacks among accesses. *)
Definition calls_of (t : list access) : nat :=
  length (filter (fun a => match fst a with PWorld => true | _ => false end) t).

(** ** Proofs *)

Lemma calls_of_app : forall t u, calls_of (t ++ u) = calls_of t + calls_of u.
Proof. intros t u. unfold calls_of. rewrite filter_app, app_length. reflexivity. Qed.

Section Spent.
  Context {X : Type}.
  Notation shared := (shared X).
  Notation prog := (prog X).

  (** If the program ends normally, it has made [n] accesses and called [c] callbacks. *)
  Definition spent {A : Type} (q : prog A) (s : shared) (n c : nat) : Prop :=
    forall t a s', alone q s = (t, Ok a, s') -> length t = n /\ calls_of t = c.

  Lemma spent_done : forall (A : Type) (a : A) s, spent (Done a) s 0 0.
  Proof. intros A a s t b s' H. injection H as <- _ _. split; reflexivity. Qed.

  Lemma spent_stop : forall (A : Type) f s n c, spent (Stop f : prog A) s n c.
  Proof. intros A f s n c t b s' H. discriminate. Qed.

  Lemma spent_local : forall (A : Type) (r : res A) s, spent (local r) s 0 0.
  Proof. intros A [a|f] s; [apply spent_done|apply spent_stop]. Qed.

  Lemma spent_load : forall (A : Type) l (k : cell l -> prog A) s n c, l <> PWorld ->
    (forall v, look l s = Some v -> spent (k v) s n c) -> spent (Load l k) s (S n) c.
  Proof.
    intros A l k s n c Hl H t a s' E. cbn [alone] in E. destruct (look l s) as [v|] eqn:L; [|discriminate].
    specialize (H v eq_refl). destruct (alone (k v) s) as [[t1 r1] s1] eqn:E1. injection E as <- -> ->.
    destruct (H _ _ _ E1) as (H1 & H2). cbn [length]. split; [lia|]. unfold calls_of in *. cbn [filter fst].
    destruct l; auto. contradiction.
  Qed.

  Lemma spent_store : forall (A : Type) l v (k : prog A) s n c, l <> PWorld ->
    (forall s', change l v s = Some s' -> spent k s' n c) -> spent (Store l v k) s (S n) c.
  Proof.
    intros A l v k s n c Hl H t a s' E. cbn [alone] in E. destruct (change l v s) as [s1|] eqn:L; [|discriminate].
    specialize (H s1 eq_refl). destruct (alone k s1) as [[t1 r1] s2] eqn:E1. injection E as <- -> ->.
    destruct (H _ _ _ E1) as (H1 & H2). cbn [length]. split; [lia|]. unfold calls_of in *. cbn [filter fst].
    destruct l; auto. contradiction.
  Qed.

  Lemma spent_call : forall (A : Type) f args (k : val -> prog A) s n c,
    (forall v x, spent (k v) (fst s, x) n c) -> spent (Call f args k) s (S n) (S c).
  Proof.
    intros A f args k s n c H t a s' E. cbn [alone] in E. destruct (f_call f args (snd s)) as [x v].
    destruct (alone (k v) (fst s, x)) as [[t1 r1] s2] eqn:E1. injection E as <- -> ->.
    destruct (H _ _ _ _ _ E1) as (H1 & H2). cbn [length]. split; [lia|]. unfold calls_of in *. cbn [filter fst length]. lia.
  Qed.

  Lemma spent_seq : forall (A B : Type) (q : prog A) (k : A -> prog B) s n c n' c',
    spent q s n c -> (forall t a s1, alone q s = (t, Ok a, s1) -> spent (k a) s1 n' c') ->
    spent (seq q k) s (n + n') (c + c').
  Proof.
    intros A B q k s n c n' c' H1 H2 t b s' E. rewrite alone_seq in E.
    destruct (alone q s) as [[t1 r1] s1] eqn:E1. destruct r1 as [a|f]; [|discriminate].
    destruct (alone (k a) s1) as [[t2 r2] s2] eqn:E2. injection E as <- -> ->.
    destruct (H1 _ _ _ E1) as (G1 & G2). destruct (H2 _ _ _ eq_refl _ _ _ E2) as (G3 & G4).
    rewrite app_length, calls_of_app. lia.
  Qed.

  Lemma spent_eq : forall (A : Type) (q : prog A) s n c n' c', spent q s n c -> n = n' -> c = c' -> spent q s n' c'.
  Proof. intros A q s n c n' c' H <- <-. exact H. Qed.
End Spent.

Section Counting.
  Context {X : Type}.
  Variables (p : platform) (ord : order) (kr : keyring X) (dbl : bool).
  Notation shared := (shared X).
  Let w := kr_index_size kr.

  Lemma spent_store_in : forall byte (s : shared), spent (store_in ord byte) s 3 0.
  Proof.
    intros byte s. unfold store_in. apply spent_load; [discriminate|]. intros v _.
    destruct (byte_stored_first ord); (apply spent_store; [discriminate|]; intros s1 _;
      apply spent_store; [discriminate|]; intros s2 _; apply spent_done).
  Qed.

  Lemma spent_store_out : forall byte (s : shared), spent (store_out ord dbl byte) s 3 0.
  Proof.
    intros byte s. unfold store_out. apply spent_load; [discriminate|]. intros v _.
    destruct (byte_stored_first ord); (apply spent_store; [discriminate|]; intros s1 _;
      apply spent_store; [discriminate|]; intros s2 _; apply spent_done).
  Qed.

  Lemma spent_fetch : forall n i (s : shared), spent (fetch_p n i) s n 0.
  Proof.
    induction n as [|n IH]; intros i s; cbn [fetch_p].
    - apply spent_done.
    - apply spent_load; [discriminate|]. intros v _. replace n with (n + 0) by lia.
      apply (spent_seq _ _ _ _ _ n 0 0 0); [replace (n + 0) with n by lia; apply IH|]. intros. apply spent_done.
  Qed.

  Lemma spent_index : forall s : shared, spent (index_p p kr) s w 0.
  Proof.
    intros s. unfold index_p. apply (spent_eq _ _ _ (w + 0) (0 + 0)); try lia.
    apply spent_seq; [apply spent_fetch|]. intros. apply spent_local.
  Qed.

  Lemma spent_emit : forall bs (s : shared), spent (emit_p ord dbl bs) s (3 * length bs) 0.
  Proof.
    induction bs as [|c bs IH]; intros s; cbn [emit_p].
    - apply spent_done.
    - apply (spent_eq _ _ _ (3 + 3 * length bs) (0 + 0)); cbn [length]; try lia.
      apply spent_seq; [apply spent_store_out|]. intros. apply IH.
  Qed.

  (** What the run of a callback accesses, the callback included. *)
  Definition func_cost (f : func X) : nat :=
    tuple_size (sig_params (f_sig f)) + 1
    + match sig_ret (f_sig f) with None => 0 | Some t => 3 * tuple_size [t] end.

  Definition func_of (a : action X) : option (func X) :=
    match a with
    | Storage None => None
    | Storage (Some c) | NoStorage c => Some (m_func c)
    end.

  Lemma spent_run : forall a f (s : shared), func_of a = Some f -> spent (run_p p ord kr dbl a) s (func_cost f) 1.
  Proof.
    intros a f s Hf.
    assert (G : forall c : model X, spent (run_p p ord kr dbl (NoStorage c)) s (func_cost (m_func c)) 1).
    { intros c. cbn [run_p]. unfold func_cost. set (ts := sig_params (f_sig (m_func c))).
      set (n := match sig_ret (f_sig (m_func c)) with None => 0 | Some t => 3 * tuple_size [t] end).
      apply (spent_eq _ _ _ (tuple_size ts + (0 + S n)) (0 + (0 + 1))); try lia.
      apply spent_seq; [apply spent_fetch|]. intros t1 bs s1 _.
      apply spent_seq; [apply spent_local|]. intros t2 args s2 _.
      apply spent_call. intros v x. unfold n. destruct (sig_ret (f_sig (m_func c))) as [t|]; [|apply spent_done].
      apply (spent_eq _ _ _ (0 + 3 * tuple_size [t]) (0 + 0)); try lia.
      apply spent_seq; [apply spent_local|]. intros t3 out s3 E.
      assert (L : length out = tuple_size [t]).
      { destruct (encode_result p (m_e c) (m_m c) t v) as [o|] eqn:Eo; cbn [local alone] in E; [|discriminate].
        assert (o = out) as <- by congruence. unfold encode_result in Eo. ok_inv Eo st. unfold content in Eo.
        apply load_range_length in Eo. rewrite Eo. unfold v_end, tuple_at. cbn [v_begin v_types]. lia. }
      rewrite <- L. apply spent_emit. }
    destruct a as [[c|]|c]; cbn [func_of] in Hf; try discriminate; assert (f = m_func c) as -> by congruence.
    - change (run_p p ord kr dbl (Storage (Some c))) with (run_p p ord kr dbl (NoStorage c)). apply G.
    - apply G.
  Qed.

  (** The index a program reads is the one of the dispatcher. *)
  Lemma index_alone : forall (b : buffered X) x bt y v i t r s', d_keyring (b_dispatcher b) = kr ->
    get_index p (framed_dispatcher (b_dispatcher b)) ibuf_source (mk_frame (b_bufs b) 0 bt y) = Ok (v, i) ->
    alone (index_p p kr) (b, x) = (t, Ok r, s') -> r = i /\ s' = (b, x).
  Proof.
    intros b x bt y v i t r s' Hd G E. destruct (index_does p kr b x bt y Hd) as (D & _). rewrite G in D.
    cbn [does] in D. rewrite E in D. split; congruence.
  Qed.

  Lemma spent_call_p : forall (b : buffered X) x v i a f, d_keyring (b_dispatcher b) = kr ->
    get_index p (framed_dispatcher (b_dispatcher b)) ibuf_source (mk_frame (b_bufs b) 0 0 x) = Ok (v, i) ->
    nth_error (d_actions (b_dispatcher b)) i = Some a -> func_of a = Some f ->
    spent (call_p p ord kr dbl) (b, x) (6 + w + func_cost f) 1.
  Proof.
    intros [d il lc inx onx ob bufs] x v i a f Hd G E F. cbn [b_dispatcher b_bufs] in *. unfold call_p.
    apply (spent_eq _ _ _ (S (S (w + S (func_cost f + 3)))) (0 + (1 + 0))); try lia.
    apply spent_store; [discriminate|]. intros s1 C1. apply spent_store; [discriminate|]. intros s2 C2.
    cbn [change] in C1. injection C1 as <-. cbn [change] in C2. injection C2 as <-.
    apply spent_seq; [apply spent_index|]. intros t r s3 E3.
    destruct (index_alone (mk_buffered _ _ _ _ _ _ _) x 0 x v i t r s3 Hd G E3) as (-> & ->).
    apply spent_load; [discriminate|]. intros a' L. cbn [look b_dispatcher] in L.
    assert (a' = a) as -> by congruence.
    apply spent_seq; [apply spent_run; exact F|]. intros t4 u s4 _.
    apply spent_store; [discriminate|]. intros s5 _. apply spent_store; [discriminate|]. intros s6 _.
    apply spent_store; [discriminate|]. intros s7 _. apply spent_done.
  Qed.

  Lemma store_in_alone : forall byte d il lc inx onx ob bufs (x : X) t s',
    alone (store_in ord byte) (mk_buffered d il lc inx onx ob bufs, x) = (t, Ok tt, s') ->
    exists m, store (ibuf bufs) inx byte = Ok m /\ s' = (mk_buffered d il lc (S inx) onx ob (set_ibuf m bufs), x).
  Proof.
    intros byte d il lc inx onx ob bufs x t s' E. unfold store_in in E.
    cbn [alone] in E. change (look PIbufNext (mk_buffered d il lc inx onx ob bufs, x)) with (Some inx) in E.
    destruct (byte_stored_first ord); cbn [alone] in E.
    - rewrite change_in in E. destruct (store (ibuf bufs) inx byte) as [m|f]; [|discriminate].
      cbn [alone change] in E. injection E as _ <-. eauto.
    - change (change PIbufNext (S inx) (mk_buffered d il lc inx onx ob bufs, x))
        with (Some (mk_buffered d il lc (S inx) onx ob bufs, x)) in E.
      cbn [alone] in E. rewrite change_in in E. destruct (store (ibuf bufs) inx byte) as [m|f]; [|discriminate].
      cbn [alone] in E. injection E as _ <-. eauto.
  Qed.

  (** [put], by what the counters say. *)
  Lemma spent_put_more : forall byte (b : buffered X) x, 2 <= b_load_count b ->
    spent (put_p p ord kr dbl byte) (b, x) 5 0.
  Proof.
    intros byte [d il lc inx onx ob bufs] x H. cbn [b_load_count] in H. unfold put_p.
    apply (spent_eq _ _ _ (3 + 2) (0 + 0)); try lia.
    apply spent_seq; [apply spent_store_in|]. intros t [] s1 E1.
    destruct (store_in_alone _ _ _ _ _ _ _ _ _ _ _ E1) as (m & Em & ->).
    apply spent_load; [discriminate|]. intros c L. cbn [look b_load_count] in L. assert (c = lc) as -> by congruence.
    destruct lc as [|[|lc]]; try lia. apply spent_store; [discriminate|]. intros s2 _. cbn [Nat.ltb Nat.leb]. apply spent_done.
  Qed.

  Lemma spent_put_last : forall byte (b : buffered X) x m v i, b_load_count b = 1 -> d_keyring (b_dispatcher b) = kr ->
    store (ibuf (b_bufs b)) (b_ibuf_next b) byte = Ok m ->
    get_index p (framed_dispatcher (b_dispatcher b)) ibuf_source (mk_frame (set_ibuf m (b_bufs b)) 0 0 x) = Ok (v, i) ->
    (b_is_index_loaded b = true -> forall a f, nth_error (d_actions (b_dispatcher b)) i = Some a -> func_of a = Some f ->
       spent (put_p p ord kr dbl byte) (b, x) (12 + w + func_cost f) 1)
    /\ (b_is_index_loaded b = false -> i < kr_size kr -> forall a f n, nth_error (d_actions (b_dispatcher b)) i = Some a ->
        func_of a = Some f -> input_size a = Ok n ->
        spent (put_p p ord kr dbl byte) (b, x)
          (if n =? 0 then 16 + 2 * w + func_cost f else 10 + w) (if n =? 0 then 1 else 0))
    /\ (b_is_index_loaded b = false -> kr_size kr <= i -> spent (put_p p ord kr dbl byte) (b, x) (8 + w) 0).
  Proof.
    intros byte [d il lc inx onx ob bufs] x m v i Hlc Hd Em G.
    cbn [b_load_count b_dispatcher b_bufs b_ibuf_next b_is_index_loaded] in *. subst lc.
    assert (PRE : forall n c, spent (Load PIsIndexLoaded (fun loaded =>
          if loaded : bool then call_p p ord kr dbl
          else
            seq (index_p p kr) (fun index =>
            if index <? kr_size kr then
              Load (PAction index) (fun a =>
              seq (local (input_size a)) (fun n =>
              Store PLoadCount n (Store PIsIndexLoaded true (
              Load PLoadCount (fun n' =>
              if n' =? 0 then call_p p ord kr dbl else Done LOADING_PACKET)))))
            else
              Store PLoadCount (kr_index_size kr) (Store PIbufNext 0 (Done DROPPED_PACKET)))))
          (mk_buffered d il 0 (S inx) onx ob (set_ibuf m bufs), x) n c ->
        spent (put_p p ord kr dbl byte) (mk_buffered d il 1 inx onx ob bufs, x) (5 + n) c).
    { intros n c H. unfold put_p. apply (spent_eq _ _ _ (3 + S (S n)) (0 + c)); try lia.
      apply spent_seq; [apply spent_store_in|]. intros t [] s1 E1.
      destruct (store_in_alone _ _ _ _ _ _ _ _ _ _ _ E1) as (m' & Em' & ->). assert (m' = m) as -> by congruence.
      apply spent_load; [discriminate|]. intros c' L. cbn [look b_load_count] in L. assert (c' = 1) as -> by congruence.
      apply spent_store; [discriminate|]. intros s2 C. cbn [change] in C. injection C as <-. exact H. }
    split; [|split].
    - intros -> a f Ea Ef. apply (spent_eq _ _ _ (5 + S (6 + w + func_cost f)) 1); try lia. apply PRE.
      apply spent_load; [discriminate|]. intros l L. cbn [look b_is_index_loaded] in L. assert (l = true) as -> by congruence.
      eapply spent_call_p; eauto.
    - intros -> Hi a f n Ea Ef En.
      set (n1 := if n =? 0 then 6 + w + func_cost f else 0). set (c1 := if n =? 0 then 1 else 0).
      apply (spent_eq _ _ _ (5 + S (w + S (0 + S (S (S n1))))) (0 + (0 + c1))); try (unfold n1; destruct (n =? 0); lia).
      apply PRE. apply spent_load; [discriminate|]. intros l L. cbn [look b_is_index_loaded] in L. assert (l = false) as -> by congruence.
      apply spent_seq; [apply spent_index|]. intros t r s3 E3.
      destruct (index_alone (mk_buffered _ _ _ _ _ _ _) x 0 x v i t r s3 Hd G E3) as (-> & ->).
      destruct (Nat.ltb_spec i (kr_size kr)); [|lia].
      apply spent_load; [discriminate|]. intros a' La. cbn [look b_dispatcher] in La. assert (a' = a) as -> by congruence.
      apply spent_seq; [apply spent_local|]. intros t4 n' s4 E4. rewrite En in E4. cbn [local alone] in E4.
      injection E4 as _ <- <-. apply spent_store; [discriminate|]. intros s5 C5. cbn [change] in C5. injection C5 as <-.
      apply spent_store; [discriminate|]. intros s6 C6. cbn [change] in C6. injection C6 as <-.
      apply spent_load; [discriminate|]. intros n' Ln. cbn [look b_load_count] in Ln. assert (n' = n) as -> by congruence.
      unfold n1, c1. destruct (n =? 0); [|apply spent_done]. eapply spent_call_p; eauto.
    - intros -> Hi. apply (spent_eq _ _ _ (5 + S (w + 2)) (0 + 0)); try lia.
      apply PRE. apply spent_load; [discriminate|]. intros l L. cbn [look b_is_index_loaded] in L. assert (l = false) as -> by congruence.
      apply spent_seq; [apply spent_index|]. intros t r s3 E3.
      destruct (index_alone (mk_buffered _ _ _ _ _ _ _) x 0 x v i t r s3 Hd G E3) as (-> & ->).
      destruct (Nat.ltb_spec i (kr_size kr)); [lia|].
      apply spent_store; [discriminate|]. intros s5 _. apply spent_store; [discriminate|]. intros s6 _. apply spent_done.
  Qed.

  Lemma spent_is_loaded : forall s : shared, spent (is_loaded_p ord) s 2 0.
  Proof.
    intros s. unfold is_loaded_p. destruct (next_read_first ord); (apply spent_load; [discriminate|]; intros; 
      apply spent_load; [discriminate|]; intros; apply spent_done).
  Qed.

  Lemma spent_get : forall (b : buffered X) x, spent (get_p ord dbl) (b, x) (if is_loaded b then 5 else 2) 0.
  Proof.
    intros b x. unfold get_p. apply (spent_eq _ _ _ (2 + (if is_loaded b then 3 else 0)) (0 + 0)); try (destruct (is_loaded b); lia).
    apply spent_seq; [apply spent_is_loaded|]. intros t l s1 E.
    destruct (is_loaded_does ord b x) as (t' & D & _). rewrite E in D. assert (l = is_loaded b) as -> by congruence.
    destruct (is_loaded b); [|apply spent_done]. apply spent_load; [discriminate|]. intros n _.
    destruct (byte_read_first ord).
    - apply spent_load; [discriminate|]. intros. apply spent_store; [discriminate|]. intros. apply spent_done.
    - apply spent_store; [discriminate|]. intros. apply spent_load; [discriminate|]. intros. apply spent_done.
  Qed.
End Counting.

Lemma func_cost_wire : forall (X : Type) p e m (f : func X), sig_ok p e m (f_sig f) ->
  func_cost f = wire_sizes (params f) + 1 + 3 * wire_size_ret (ret f).
Proof.
  intros X p e m f (H1 & H2). unfold func_cost, params, ret.
  rewrite tuple_size_wire by (eapply tys_layout; eauto). f_equal. unfold wire_size_ret.
  destruct (sig_ret (f_sig f)) as [t|]; [|reflexivity].
  rewrite tuple_size_wire by (eapply tys_layout; eauto). unfold wire_sizes. cbn. lia.
Qed.

Section Costs.
  Context {X : Type}.
  Variables (p : platform) (ord : order) (kr : keyring X) (ft : action_features) (dbl : bool).
  Hypothesis Hp : wf_platform p.
  Hypothesis Hk : keyring_ok p kr.
  Hypothesis Hs : well_sized dbl kr ft.
  Let fm := format_of kr.

  Lemma put_spent : forall byte b a x, reached p dbl kr ft b a x -> legitimate p dbl kr ft (Put byte) a x ->
    spent (put_p p ord kr dbl byte) (b, x) (put_cost fm byte a) (op_calls fm (Put byte) a).
  Proof.
    intros byte b a x H L. pose proof (reached_typed p kr ft dbl Hp Hk Hs b a x H) as (T1 & T2 & T3 & T4).
    destruct (reached_represents p dbl kr ft Hp Hk Hs b a x H) as (ni & no & Hroom & Hfr & R).
    pose proof R as (Ht & Hni & Hno & Hdbl & Hnext & Hin & Hout & Hbot & Hso & Hbytes & Hprog).
    assert (Hbyte : is_byte byte) by apply L.
    unfold put_cost, op_calls. set (bs := mc_in a ++ [byte]) in *.
    assert (Hlbs : length bs = S (length (mc_in a))) by (unfold bs; rewrite app_length; cbn; lia).
    assert (Hw : fm_w fm = kr_index_size kr) by reflexivity.
    destruct (index_size X kr (proj1 Hk)) as (Hw1 & _ & Hsz).
    assert (Htl : length (mc_table a) = length (kr_funcs kr)) by (eapply table_length; exact Ht).
    (* not the last byte *)
    destruct (Nat.le_gt_cases 2 (b_load_count b)) as [Hc|Hc].
    { assert (Ex : examine fm (mc_table a) bs = Incomplete /\ length bs <> fm_w fm).
      { unfold progress in Hprog. fold fm in Hprog. destruct (b_is_index_loaded b).
        - destruct Hprog as (f & P1 & P2 & P3 & P4). split; [|lia]. unfold examine.
          destruct (Nat.ltb_spec (length bs) (fm_w fm)); auto.
          assert (Ed : designated fm (mc_table a) bs = designated fm (mc_table a) (mc_in a)).
          { unfold bs, fm. apply (designated_app kr ni Hroom). exact P2. }
          rewrite Ed, P1. destruct (Nat.ltb_spec (length bs) (fm_w fm + wire_sizes (params f))); auto. lia.
        - destruct Hprog as (P1 & P2). split; [|lia]. unfold examine. destruct (Nat.ltb_spec (length bs) (fm_w fm)); auto. lia. }
      destruct Ex as (-> & Ex). destruct (Nat.eqb_spec (length bs) (fm_w fm)); [contradiction|].
      apply spent_put_more. exact Hc. }
    assert (Hc1 : b_load_count b = 1).
    { unfold progress in Hprog. destruct (b_is_index_loaded b).
      - destruct Hprog as (f & P1 & P2 & P3 & P4). lia.
      - destruct Hprog. lia. }
    destruct (Nat.lt_ge_cases (length (mc_in a)) (length (ibuf (b_bufs b)))) as [Hl|Hl].
    2:{ (* no room: does not end normally *)
        pose proof (put_does p ord kr dbl byte b x T1 T3) as D.
        assert (E0 : put p byte b x = Fault OutOfBounds).
        { destruct b as [d il lc inx onx ob bufs]. unfold put. cbn [b_bufs b_ibuf_next] in *. rewrite Hnext, store_oob by exact Hl. reflexivity. }
        rewrite E0 in D. destruct D as (t & f & s & D). intros t' a' s' E. rewrite E in D. discriminate. }
    set (m := splice (ibuf (b_bufs b)) (length (mc_in a)) [byte]).
    assert (Em : store (ibuf (b_bufs b)) (b_ibuf_next b) byte = Ok m) by (rewrite Hnext; apply store_ok; exact Hl).
    assert (Hl1 : length m = ni) by (unfold m; rewrite splice_length; cbn; lia).
    assert (Hin1 : slice (ibuf (set_ibuf m (b_bufs b))) 0 (length bs) = bs).
    { rewrite ibuf_set_ibuf, Hlbs. replace (S (length (mc_in a))) with (length (mc_in a) + 1) by lia. unfold m.
      rewrite slice_app by (fold m; lia). unfold bs. cbn [Nat.add]. f_equal.
      - transitivity (slice (ibuf (b_bufs b)) 0 (length (mc_in a))); auto.
        apply slice_splice_disjoint; cbn; lia.
      - apply (slice_splice_same _ _ [byte]). cbn. lia. }
    assert (Hge : kr_index_size kr <= length bs).
    { unfold progress in Hprog. destruct (b_is_index_loaded b).
      - destruct Hprog as (f & P1 & P2 & P3 & P4). lia.
      - destruct Hprog as (P1 & P2). lia. }
    assert (G : get_index p (framed_dispatcher (b_dispatcher b)) ibuf_source (mk_frame (set_ibuf m (b_bufs b)) 0 0 x)
        = Ok (mk_frame (set_ibuf m (b_bufs b)) (kr_index_size kr) 0 x, index_of fm bs)).
    { rewrite (get_index_frame p kr ft ni Hp Hk Hroom (b_dispatcher b) (mc_table a) _ _ _ bs); auto.
      - rewrite ibuf_set_ibuf, Hl1. lia.
      - apply Forall_app. auto. }
    destruct (spent_put_last p ord kr dbl byte b x m _ _ Hc1 T1 Em G) as (S1 & S2 & S3).
    assert (FA : forall f, designated fm (mc_table a) bs = Some f ->
        nth_error (d_actions (b_dispatcher b)) (index_of fm bs) = Some (make_action ft (kr_e kr) (kr_m kr) f)
        /\ func_of (make_action ft (kr_e kr) (kr_m kr) f) = Some f
        /\ input_size (make_action ft (kr_e kr) (kr_m kr) f) = Ok (wire_sizes (params f))
        /\ func_cost f = wire_sizes (params f) + 1 + 3 * wire_size_ret (ret f)).
    { intros f Ef. change (nth_error (mc_table a) (index_of fm bs) = Some f) in Ef.
      destruct (input_size_ok p kr ft ni no Hk Hfr _ _ _ _ Ht Ef) as (I1 & I2).
      destruct (table_sig p kr ft ni no Hk Hfr _ _ _ _ Ht Ef) as (I3 & _).
      split; [|split; [|split; [exact I2|eapply func_cost_wire; eauto]]].
      - destruct Ht as (_ & _ & Ha & _). rewrite Ha, nth_error_map, Ef. reflexivity.
      - destruct ft; reflexivity. }
    unfold examine. destruct (Nat.ltb_spec (length bs) (fm_w fm)); [lia|].
    unfold progress in Hprog. fold fm in Hprog. destruct (b_is_index_loaded b).
    - (* the last byte of the arguments *)
      destruct Hprog as (f & P1 & P2 & P3 & P4).
      assert (Ed : designated fm (mc_table a) bs = Some f).
      { rewrite <- P1. unfold bs, fm. apply (designated_app kr ni Hroom). exact P2. }
      rewrite Ed. destruct (FA f Ed) as (F1 & F2 & F3 & F4).
      destruct (Nat.ltb_spec (length bs) (fm_w fm + wire_sizes (params f))); [lia|].
      destruct (Nat.eqb_spec (length bs) (fm_w fm)); [lia|].
      eapply spent_eq; [eapply (S1 eq_refl); eauto| |reflexivity]. rewrite F4, skipn_length. lia.
    - (* the last byte of the index *)
      destruct Hprog as (P1 & P2). assert (Hlw : length bs = fm_w fm) by lia.
      rewrite Hlw, Nat.eqb_refl. destruct (designated fm (mc_table a) bs) as [f|] eqn:Ed.
      + destruct (FA f eq_refl) as (F1 & F2 & F3 & F4).
        assert (Hi : index_of fm bs < kr_size kr).
        { rewrite Hsz, <- Htl. change (nth_error (mc_table a) (index_of fm bs) = Some f) in Ed.
          apply nth_error_Some. congruence. }
        specialize (S2 eq_refl Hi _ _ _ F1 F2 F3).
        destruct (Nat.ltb_spec (fm_w fm) (fm_w fm + wire_sizes (params f))) as [Hz|Hz].
        * destruct (Nat.eqb_spec (wire_sizes (params f)) 0); [lia|]. rewrite Hw. exact S2.
        * destruct (Nat.eqb_spec (wire_sizes (params f)) 0) as [Hz0|]; [|lia]. eapply spent_eq; [exact S2| |reflexivity].
          rewrite F4, skipn_length, Hlw, Hz0. lia.
      + assert (Hi : kr_size kr <= index_of fm bs).
        { rewrite Hsz, <- Htl. change (nth_error (mc_table a) (index_of fm bs) = None) in Ed.
          apply nth_error_None. exact Ed. }
        rewrite Hw. exact (S3 eq_refl Hi).
  Qed.

  Lemma op_spent : forall o b a x, plain o -> reached p dbl kr ft b a x -> legitimate p dbl kr ft o a x ->
    exists t v b' x' a', mc_step fm o a x = Ok (a', x', v) /\ step p o b x = Ok (b', x', v)
      /\ reached p dbl kr ft b' a' x'
      /\ alone (op_p p ord kr ft dbl o) (b, x) = (t, Ok v, (b', x'))
      /\ length t = op_cost fm o a /\ calls_of t = op_calls fm o a.
  Proof.
    intros o b a x Hpl H L.
    assert (M : exists a' x' v, mc_step fm o a x = Ok (a', x', v)).
    { destruct o; try destruct Hpl; cbn [mc_step].
      - destruct (mc_put fm byte a x) as [[a' x'] s]. eauto.
      - destruct (mc_get a) as [a' c]. eauto.
      - eauto.
      - eauto. }
    destruct M as (a' & x' & v & M).
    destruct (reached_step p dbl kr ft Hp Hk Hs o b a x a' x' v H L M) as (b' & E & R').
    pose proof (reached_typed p kr ft dbl Hp Hk Hs b a x H) as T.
    pose proof (op_alone p ord kr ft dbl Hk o b x T (legitimate_compiles p kr ft dbl o a x Hpl L)) as A.
    rewrite E in A. destruct A as (t & A). exists t, v, b', x', a'. do 4 (split; [assumption|]).
    assert (D : forall (B : Type) (q : prog X B) (k : B -> obs) n c, spent q (b, x) n c ->
        alone (seq q (fun u => Done (k u))) (b, x) = (t, Ok v, (b', x')) -> length t = n /\ calls_of t = c).
    { intros B q k n c S0 A0. assert (S1 : spent (seq q (fun u => Done (k u))) (b, x) (n + 0) (c + 0))
        by (apply spent_seq; [exact S0|]; intros; apply spent_done).
      rewrite !Nat.add_0_r in S1. exact (S1 _ _ _ A0). }
    destruct o; try destruct Hpl; cbn [op_p op_cost] in A |- *.
    - eapply D; [|exact A]. apply put_spent; assumption.
    - eapply D; [|exact A]. destruct (reached_represents p dbl kr ft Hp Hk Hs b a x H) as (ni & no & Hroom & _ & R).
      assert (IL : is_loaded b = mc_loaded a) by (eapply is_loaded_ok; eauto). rewrite <- IL. eapply spent_get; eauto.
    - eapply D; [|exact A]. apply spent_is_loaded.
    - eapply D; [|exact A]. unfold replace_p. apply spent_store; [discriminate|]. intros. apply spent_done.
  Qed.

  Lemma ops_spent : forall ops b a x, Forall plain ops -> reached p dbl kr ft b a x ->
    along fm (legitimate p dbl kr ft) ops a x ->
    exists t vs b' x' a', mc_run fm ops a x = Ok (a', x', vs) /\ run_ops p ops b x = Ok (b', x', vs)
      /\ reached p dbl kr ft b' a' x'
      /\ alone (ops_p p ord kr ft dbl ops) (b, x) = (t, Ok vs, (b', x'))
      /\ length t = total fm (op_cost fm) ops a x /\ calls_of t = total fm (op_calls fm) ops a x.
  Proof.
    induction ops as [|o ops IH]; intros b a x Hpl H L; cbn [mc_run run_ops ops_p total].
    - exists [], [], b, x, a. do 2 (split; [reflexivity|]). split; [exact H|]. repeat split.
    - inversion Hpl as [|o' ops' Ho Hops]; subst. destruct L as (L1 & L2).
      destruct (op_spent o b a x Ho H L1) as (t & v & b1 & x1 & a1 & M & E & R & A & C1 & C2).
      rewrite M, E. cbn [bind].
      destruct (IH b1 a1 x1 Hops R (L2 _ _ _ M)) as (t' & vs & b2 & x2 & a2 & M' & E' & R' & A' & C1' & C2').
      rewrite M', E'. cbn [bind]. exists (t ++ t'), (v :: vs), b2, x2, a2. do 3 (split; [auto|]). split.
      + rewrite alone_seq, A, alone_seq, A'. cbn [alone]. rewrite app_nil_r. reflexivity.
      + rewrite app_length, calls_of_app. lia.
  Qed.
End Costs.

(** * C101 *)

(** A call of [put], [get], [is_loaded] or [replace], in any state a dispatcher reaches: how
    many times it reads or writes a member (a counter, a byte of a buffer, an action), the
    call of the callback being counted as one; and whether a callback is called. *)
Theorem C101_call : forall (X : Type) p ord dbl (kr : keyring X) ft b a x o,
  wf_platform p -> keyring_ok p kr -> well_sized dbl kr ft -> reached p dbl kr ft b a x ->
  plain o -> legitimate p dbl kr ft o a x ->
  exists t v b' x', step p o b x = Ok (b', x', v)
    /\ alone (op_p p ord kr ft dbl o) (b, x) = (t, Ok v, (b', x'))
    /\ length t = op_cost (format_of kr) o a
    /\ calls_of t = op_calls (format_of kr) o a.
Proof.
  intros X p ord dbl kr ft b a x o Hp Hk Hs H Hpl L.
  destruct (op_spent p ord kr ft dbl Hp Hk Hs o b a x Hpl H L) as (t & v & b' & x' & a' & _ & E & _ & A & C).
  exists t, v, b', x'. auto.
Qed.

(** Several calls: the sum. *)
Theorem C101_history : forall (X : Type) p ord dbl (kr : keyring X) ft b a x ops,
  wf_platform p -> keyring_ok p kr -> well_sized dbl kr ft -> reached p dbl kr ft b a x ->
  Forall plain ops -> along (format_of kr) (legitimate p dbl kr ft) ops a x ->
  exists t vs b' x', run_ops p ops b x = Ok (b', x', vs)
    /\ alone (ops_p p ord kr ft dbl ops) (b, x) = (t, Ok vs, (b', x'))
    /\ length t = total (format_of kr) (op_cost (format_of kr)) ops a x
    /\ calls_of t = total (format_of kr) (op_calls (format_of kr)) ops a x.
Proof.
  intros X p ord dbl kr ft b a x ops Hp Hk Hs H Hpl L.
  destruct (ops_spent p ord kr ft dbl Hp Hk Hs ops b a x Hpl H L) as (t & v & b' & x' & a' & _ & E & _ & A & C).
  exists t, v, b', x'. auto.
Qed.

(** The most a call can cost is known when the program is compiled: it depends neither on
    what was received before nor on how long the dispatcher has been running. *)
Theorem C101_bound : forall (X : Type) p ord dbl (kr : keyring X) ft b a x o,
  wf_platform p -> keyring_ok p kr -> well_sized dbl kr ft -> reached p dbl kr ft b a x ->
  plain o -> legitimate p dbl kr ft o a x ->
  exists t v b' x', step p o b x = Ok (b', x', v)
    /\ alone (op_p p ord kr ft dbl o) (b, x) = (t, Ok v, (b', x'))
    /\ length t <= 17 + 2 * kr_index_size kr
         + list_max (map (fun s => wire_sizes (sig_params s) + 3 * wire_size_ret (sig_ret s)) (kr_signatures kr))
    /\ calls_of t <= 1
    /\ (calls_of t = 1 <-> v = OStatus RESOLVED_PACKET).
Proof.
  intros X p ord dbl kr ft b a x o Hp Hk Hs H Hpl L.
  destruct (op_spent p ord kr ft dbl Hp Hk Hs o b a x Hpl H L) as (t & v & b' & x' & a' & M & E & _ & A & C1 & C2).
  exists t, v, b', x'. split; [exact E|]. split; [exact A|]. rewrite C1, C2.
  destruct (reached_represents p dbl kr ft Hp Hk Hs b a x H) as (ni & no & Hroom & Hfr & R).
  pose proof R as (Ht & _ & _ & _ & _ & _ & _ & _ & _ & _ & Hprog).
  set (fm := format_of kr) in *. assert (Hw : fm_w fm = kr_index_size kr) by reflexivity.
  destruct o; try destruct Hpl; cbn [op_cost op_calls mc_step] in M |- *.
  - unfold put_cost. unfold mc_put, received in M. set (bs := mc_in a ++ [byte]) in *.
    assert (Hlbs : length bs = S (length (mc_in a))) by (unfold bs; rewrite app_length; cbn; lia).
    destruct (examine fm (mc_table a) bs) as [| |f payload] eqn:Ex.
    + injection M as _ _ <-. destruct (length bs =? fm_w fm); (split; [lia|]); (split; [lia|]); split; discriminate.
    + injection M as _ _ <-. split; [lia|]. split; [lia|]. split; discriminate.
    + destruct (serve fm f payload x) as [x1 out]. injection M as _ _ <-. split; [|split; [lia|]; split; reflexivity].
      unfold examine in Ex. destruct (Nat.ltb_spec (length bs) (fm_w fm)); [discriminate|].
      destruct (designated fm (mc_table a) bs) as [g|] eqn:Ed; [|discriminate].
      destruct (Nat.ltb_spec (length bs) (fm_w fm + wire_sizes (params g))) as [|Hge]; [discriminate|].
      injection Ex as -> <-. 
      assert (Hle : length bs <= fm_w fm + wire_sizes (params f)).
      { unfold progress in Hprog. fold fm in Hprog. destruct (b_is_index_loaded b).
        - destruct Hprog as (g & P1 & P2 & P3 & P4).
          assert (Ed2 : designated fm (mc_table a) bs = designated fm (mc_table a) (mc_in a)).
          { unfold bs, fm. apply (designated_app kr ni Hroom). exact P2. }
          assert (g = f) as -> by congruence. lia.
        - lia. }
      assert (Hin : wire_sizes (params f) + 3 * wire_size_ret (ret f)
                 <= list_max (map (fun s => wire_sizes (sig_params s) + 3 * wire_size_ret (sig_ret s)) (kr_signatures kr))).
      { assert (I : In (f_sig f) (kr_signatures kr)).
        { destruct Ht as (_ & _ & _ & <-). apply in_map. eapply nth_error_In. exact Ed. }
        pose proof (proj1 (list_max_le (map (fun s => wire_sizes (sig_params s) + 3 * wire_size_ret (sig_ret s)) (kr_signatures kr)) _) (le_n _)) as F.
        rewrite Forall_forall in F. apply F. apply in_map_iff. exists (f_sig f). split; [reflexivity|exact I]. }
      rewrite skipn_length. destruct (Nat.eqb_spec (length bs) (fm_w fm)); lia.
  - destruct (mc_get a) as [a1 c]. injection M as _ _ <-. destruct (mc_loaded a); (split; [lia|]; split; [lia|]; split; discriminate).
  - injection M as _ _ <-. split; [lia|]. split; [lia|]. split; discriminate.
  - injection M as _ _ <-. split; [lia|]. split; [lia|]. split; discriminate.
Qed.

(** A whole request, byte after byte, between two requests. *)
Theorem C101_request : forall (X : Type) p ord dbl (kr : keyring X) ft b a x bs f payload,
  wf_platform p -> keyring_ok p kr -> well_sized dbl kr ft -> reached p dbl kr ft b a x ->
  mc_in a = [] -> along (format_of kr) (legitimate p dbl kr ft) (map Put bs) a x ->
  examine (format_of kr) (mc_table a) bs = Request f payload ->
  length bs = kr_index_size kr + wire_sizes (sig_params (f_sig f)) ->
  exists t vs b' x', run_ops p (map Put bs) b x = Ok (b', x', vs)
    /\ alone (ops_p p ord kr ft dbl (map Put bs)) (b, x) = (t, Ok vs, (b', x'))
    /\ length t = 12 + 7 * kr_index_size kr + 6 * wire_sizes (sig_params (f_sig f))
         + (if wire_sizes (sig_params (f_sig f)) =? 0 then 0 else 1) + 3 * wire_size_ret (sig_ret (f_sig f))
    /\ calls_of t = 1.
Proof.
  intros X p ord dbl kr ft b a x bs f payload Hp Hk Hs H Ha L Ex Hl.
  assert (Hpl : Forall (@plain X) (map Put bs)) by (apply Forall_forall; intros o Ho; apply in_map_iff in Ho; destruct Ho as (c & <- & _); exact I).
  destruct (ops_spent p ord kr ft dbl Hp Hk Hs _ b a x Hpl H L) as (t & vs & b' & x' & a' & _ & E & _ & A & C1 & C2).
  exists t, vs, b', x'. split; [exact E|]. split; [exact A|]. rewrite C1, C2. clear E A C1 C2 L H Hpl t vs b' x' a'.
  destruct (index_size X kr (proj1 Hk)) as (Hw1 & _ & _).
  set (fm := format_of kr) in *. assert (Hw : fm_w fm = kr_index_size kr) by reflexivity. rewrite <- Hw in *.
  fold (params f) in *. fold (ret f). set (P := wire_sizes (params f)) in *.
  (* what remains to receive *)
  assert (Dt : exists table, mc_table a = table) by eauto. destruct Dt as (table & Dt). rewrite Dt in Ex.
  assert (Df : forall pre post, bs = pre ++ post -> fm_w fm <= length pre -> designated fm table pre = Some f).
  { intros pre post -> Hpre. unfold examine in Ex. destruct (length (pre ++ post) <? fm_w fm); [discriminate|].
    assert (D : designated fm table (pre ++ post) = designated fm table pre).
    { unfold designated. rewrite firstn_app. replace (fm_w fm - length pre) with 0 by lia. cbn [firstn]. rewrite app_nil_r. reflexivity. }
    rewrite D in Ex. destruct (designated fm table pre) as [g|]; [|discriminate].
    destruct (length (pre ++ post) <? fm_w fm + wire_sizes (params g)); [discriminate|]. congruence. }
  assert (G : forall post pre a1, bs = pre ++ post -> mc_in a1 = pre -> mc_table a1 = table -> post <> [] ->
    total fm (op_cost fm) (map Put post) a1 x
      = 5 * length post + 7 + fm_w fm + P + 3 * wire_size_ret (ret f)
        + (if length pre <? fm_w fm then 5 + fm_w fm else 0) + (if P =? 0 then 0 else 1)
    /\ total fm (op_calls fm) (map Put post) a1 x = 1).
  { induction post as [|c post IH]; intros pre a1 Hbs Hin Htab Hne; [contradiction|]. clear Hne.
    cbn [map total op_cost op_calls mc_step]. unfold put_cost, mc_put, received. rewrite Hin, Htab.
    assert (Hbs' : bs = (pre ++ [c]) ++ post) by (rewrite <- app_assoc; exact Hbs).
    assert (Hlen : length (pre ++ [c]) = S (length pre)) by (rewrite app_length; cbn; lia).
    assert (Hpost : length bs = S (length pre) + length post) by (rewrite Hbs', app_length; lia).
    destruct post as [|c' post].
    - (* the last byte *)
      rewrite app_nil_r in Hbs'. rewrite <- Hbs', Ex. cbn [map total length] in *.
      destruct (serve fm f payload x) as [x1 out]. rewrite Nat.add_0_r. split; [|reflexivity].
      assert (payload = skipn (fm_w fm) bs) as ->.
      { unfold examine in Ex. destruct (length bs <? fm_w fm); [discriminate|]. destruct (designated fm table bs) as [g|]; [|discriminate].
        destruct (length bs <? fm_w fm + wire_sizes (params g)); [discriminate|]. congruence. }
      rewrite skipn_length.
      destruct (Nat.ltb_spec (length pre) (fm_w fm)); destruct (Nat.eqb_spec (length bs) (fm_w fm)); destruct (Nat.eqb_spec P 0); lia.
    - (* not the last *)
      assert (Exi : examine fm table (pre ++ [c]) = Incomplete).
      { unfold examine. rewrite Hlen. destruct (Nat.ltb_spec (S (length pre)) (fm_w fm)); [reflexivity|].
        rewrite (Df _ _ Hbs') by lia. destruct (Nat.ltb_spec (S (length pre)) (fm_w fm + wire_sizes (params f))); [reflexivity|].
        fold P in H0. cbn [length] in Hpost. lia. }
      rewrite Exi.
      destruct (IH (pre ++ [c]) (mk_machine (pre ++ [c]) (mc_out a1) table) Hbs' eq_refl eq_refl) as (I1 & I2); [discriminate|].
      rewrite I1, I2. split; [|reflexivity]. rewrite Hlen. cbn [length] in *.
      destruct (Nat.eqb_spec (S (length pre)) (fm_w fm)); destruct (Nat.ltb_spec (length pre) (fm_w fm));
        destruct (Nat.ltb_spec (S (length pre)) (fm_w fm)); destruct (Nat.eqb_spec P 0); lia. }
  destruct (G bs [] a eq_refl Ha Dt) as (G1 & G2).
  { intros ->. cbn [length] in Hl. lia. }
  split; [|exact G2]. rewrite G1, Hl. cbn [length]. destruct (Nat.ltb_spec 0 (fm_w fm)); [|lia]. destruct (P =? 0); lia.
Qed.

(** A request of four bytes for [int32_t add(int8_t, int16_t)], an index which designates
    nothing and the four bytes of the response. *)
Example C101_example : exists b,
  let ops := map Put [0; 255; 254; 5; 77]%Z ++ [IsLoaded; Get; Get; Get; Get; Get; Replace 1 (ByFunctor ex_notify)] in
  make_buffered true ex_keyring ANY [] [] = Some b
  /\ reached pc_native true ex_keyring ANY b (fresh ex_keyring) []
  /\ Forall plain ops
  /\ along (format_of ex_keyring) (legitimate pc_native true ex_keyring ANY) ops (fresh ex_keyring) []
  /\ examine (format_of ex_keyring) (mc_table (fresh ex_keyring)) [0; 255; 254; 5]%Z = Request ex_add [255; 254; 5]%Z
  /\ map (fun ord =>
       match alone (ops_p pc_native ord ex_keyring ANY true ops) (b, []) with
       | (t, Ok _, _) => Some (length t, calls_of t)
       | _ => None
       end) [mk_order true true true; mk_order false false false]
     = repeat (Some ((11 + 5 + 5 + 29) + 9 + 2 + 4 * 5 + 2 + 1, 1)) 2
  /\ total (format_of ex_keyring) (op_cost (format_of ex_keyring)) ops (fresh ex_keyring) []
     = (11 + 5 + 5 + 29) + 9 + 2 + 4 * 5 + 2 + 1
  /\ 12 + 7 * 1 + 6 * 3 + 1 + 3 * 4 = 11 + 5 + 5 + 29.
Proof.
  eexists. cbv zeta. split; [reflexivity|]. split.
  { exists [], []. eexists. exists [], [], []. split; [reflexivity|]. repeat split. }
  split; [repeat constructor|]. split; [cbn [map app]; legit; split; reflexivity|]. split; [reflexivity|].
  split; [vm_compute; reflexivity|]. split; vm_compute; reflexivity.
Qed.

Print Assumptions C101_call.
Print Assumptions C101_history.
Print Assumptions C101_bound.
Print Assumptions C101_request.
