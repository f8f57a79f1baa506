(** Property C95: a buffered dispatcher which two threads use. *)

From Coq Require Import List ZArith Lia Bool Arith.
From Verif Require Import Base CInt Spec IntModel Conditions MemFacts TypeLevel Serial TupleModel
  TypeLevelProofs IntProofs SignedProofs SerialProofs CodecFacts Bounds TupleProofs SpecRpc Rpc RpcProofs
  Hosts Closed PropertiesTypes PropertiesRpc Buffered SpecBuffered BufferedProofs PropertiesBuffered
  Threads ThreadFacts ThreadProofs.
Import ListNotations.
Open Scope nat_scope.

(** ** Setting *)

(** The calls a thread makes: [put], [get], [is_loaded], [replace]. *)
Definition plain {X : Type} (o : op X) : Prop :=
  match o with Put _ | Get | IsLoaded | Replace _ _ => True | _ => False end.

Section Setting.
  Context {X : Type}.
  Variables (p : platform) (ord : order) (kr : keyring X) (ft : action_features) (dbl : bool).

  (** One call, and what it returns. *)
  Definition op_p (o : op X) : prog X obs :=
    match o with
    | Put byte => seq (put_p p ord kr dbl byte) (fun s => Done (OStatus s))
    | Get => seq (get_p ord dbl) (fun b => Done (OByte b))
    | IsLoaded => seq (is_loaded_p ord) (fun b => Done (OBool b))
    | Replace i r => seq (replace_p kr ft i r) (fun _ => Done ONone)
    | _ => Stop TypeMismatch
    end.

  (** The calls of a thread one after the other. *)
  Fixpoint ops_p (ops : list (op X)) : prog X (list obs) :=
    match ops with
    | [] => Done []
    | o :: ops' => seq (op_p o) (fun v => seq (ops_p ops') (fun vs => Done (v :: vs)))
    end.
End Setting.

(** What a call uses, seen from outside: the request being received, the response
    being sent, one of the actions. *)
Inductive resource : Type := RIn | ROut | RAction (i : nat).

Section Uses.
  Context {X : Type}.
  Variable fm : format.

  (** The index at the beginning of a request. *)
  Definition index_of (bs : list Z) : nat := Z.to_nat (wire_value (fm_e fm) (firstn (fm_w fm) bs)).

  (** The resources a call uses; [true]: it changes it. *)
  Definition uses_op (o : op X) (a : machine X) : list (resource * bool) :=
    match o with
    | Put byte =>
        let bs := mc_in a ++ [byte] in
        (RIn, true) ::
        match examine fm (mc_table a) bs with
        | Request _ _ => [(RAction (index_of bs), false); (ROut, true)]
        | Incomplete => if length bs =? fm_w fm then [(RAction (index_of bs), false)] else []
        | Invalid => []
        end
    | Get => [(ROut, mc_loaded a)]
    | IsLoaded => [(ROut, false)]
    | Replace i _ => [(RAction i, true)]
    | _ => []
    end.

  (** Those of several calls. *)
  Fixpoint uses (ops : list (op X)) (a : machine X) (x : X) : list (resource * bool) :=
    match ops with
    | [] => []
    | o :: ops' =>
        uses_op o a ++
        match mc_step fm o a x with
        | Ok (a', x', _) => uses ops' a' x'
        | Fault _ => []
        end
    end.
End Uses.

(** A resource both use and one of them changes. *)
Definition conflict (u v : list (resource * bool)) : Prop :=
  exists r w w', In (r, w) u /\ In (r, w') v /\ (w = true \/ w' = true).

(** ** Proofs *)

(** The resource a place belongs to, when there are two buffers. *)
Definition resource_of (l : place) : resource :=
  match l with
  | PIsIndexLoaded | PLoadCount | PIbufNext | PWorld => RIn
  | PByte 0 _ => RIn
  | PByte _ _ | PObufNext | PObufBottom => ROut
  | PAction i => RAction i
  end.

(** A place which everything that uses a resource accesses. *)
Definition witness (r : resource) : place :=
  match r with RIn => PIbufNext | ROut => PObufNext | RAction i => PAction i end.

Definition covered (t : list access) (u : list (resource * bool)) : Prop :=
  (forall r w, In (r, w) u -> In (witness r, w) t)
  /\ (forall l w, In (l, w) t -> exists w', In (resource_of l, w') u /\ (w = true -> w' = true)).

Lemma covered_app : forall t t' u u', covered t u -> covered t' u' -> covered (t ++ t') (u ++ u').
Proof.
  intros t t' u u' (H1 & H2) (H3 & H4). split.
  - intros r w H. apply in_app_or in H. apply in_or_app. destruct H; auto.
  - intros l w H. apply in_app_or in H. destruct H as [H|H].
    + destruct (H2 l w H) as (w' & A & B). exists w'. split; auto. apply in_or_app. auto.
    + destruct (H4 l w H) as (w' & A & B). exists w'. split; auto. apply in_or_app. auto.
Qed.

Lemma resource_of_witness : forall r, resource_of (witness r) = r.
Proof. intros []; reflexivity. Qed.

Lemma covered_clash : forall t t' u u', covered t u -> covered t' u' -> (clashes t t' <-> conflict u u').
Proof.
  intros t t' u u' (H1 & H2) (H3 & H4). split.
  - intros ((l & w) & (l' & w') & A & B & (C & D)). cbn [fst snd] in *. subst l'.
    destruct (H2 l w A) as (v & V1 & V2). destruct (H4 l w' B) as (v' & V1' & V2').
    exists (resource_of l), v, v'. split; auto. split; auto. destruct D as [D|D]; auto.
  - intros (r & w & w' & A & B & C). exists (witness r, w), (witness r, w'). split; auto. split; auto.
    split; auto.
Qed.

(** What the type of the dispatcher tells is not changed. *)
Definition typed {X : Type} (kr : keyring X) (ft : action_features) (dbl : bool) (b : buffered X) : Prop :=
  d_keyring (b_dispatcher b) = kr /\ d_features (b_dispatcher b) = ft /\ is_double (b_bufs b) = dbl
  /\ length (d_actions (b_dispatcher b)) = length (kr_funcs kr).

Lemma typed_change : forall (X : Type) (kr : keyring X) ft dbl l v s s', change l v s = Some s' ->
  typed kr ft dbl (fst s) -> typed kr ft dbl (fst s').
Proof.
  intros X kr ft dbl l v [b x] s' H. destruct b as [[k f acts] il lc inx onx ob bufs]. unfold typed, change in *.
  cbn [d_actions d_keyring d_features b_dispatcher b_bufs fst] in *. 
  destruct l; try (injection H as <-; cbn; auto).
  - destruct array as [|[|array]]; destruct bufs as [m|m o]; try discriminate; unfold stored in H;
        match type of H with context [?j <? length ?m] => destruct (Nat.ltb_spec j (length m)) end; try discriminate;
        injection H as <-; cbn; auto.
  - destruct (Nat.ltb_spec i (length acts)); try discriminate. injection H as <-. cbn. rewrite set_nth_length. auto.
Qed.

Lemma typed_alone : forall (X A : Type) (kr : keyring X) ft dbl (q : prog X A) s t r s', alone q s = (t, r, s') ->
  typed kr ft dbl (fst s) -> typed kr ft dbl (fst s').
Proof.
  intros X A kr ft dbl q. induction q as [a|f|l k IH|l v k IH|f args k IH]; intros s t r s' H T; cbn [alone] in H.
  - injection H as _ _ <-. exact T.
  - injection H as _ _ <-. exact T.
  - destruct (look l s) as [v|].
    + destruct (alone (k v) s) as [[t1 r1] s1] eqn:E. injection H as _ _ <-. eapply IH; eauto.
    + injection H as _ _ <-. exact T.
  - destruct (change l v s) as [s1|] eqn:C.
    + destruct (alone k s1) as [[t1 r1] s2] eqn:E. injection H as _ _ <-. eapply IH; eauto. eapply typed_change; eauto.
    + injection H as _ _ <-. exact T.
  - destruct (f_call f args (snd s)) as [x v]. destruct (alone (k v) (fst s, x)) as [[t1 r1] s1] eqn:E.
    injection H as _ _ <-. eapply IH; eauto.
Qed.

Section Proofs.
  Context {X : Type}.
  Variables (p : platform) (ord : order) (kr : keyring X) (ft : action_features) (dbl : bool).
  Hypothesis Hp : wf_platform p.
  Hypothesis Hk : keyring_ok p kr.
  Let fm := format_of kr.

  (** Known from the program text. *)
  Definition compiles (o : op X) : Prop :=
    plain o /\ match o with Replace i r => replaceable ft (kr_signatures kr) i r | _ => True end.

  Lemma replace_typed : forall b i r, typed kr ft dbl b -> replaceable ft (kr_signatures kr) i r ->
    exists b', replace_buffered b i r = Some (Ok b').
  Proof.
    intros b i r (T1 & T2 & _ & T4) (R1 & R2). unfold replace_buffered, replace. rewrite T1, T2, at17_nth_error, R1.
    assert (Hi : i < length (kr_funcs kr)).
    { assert (nth_error (kr_signatures kr) i <> None) as H by congruence. apply nth_error_Some in H.
      unfold kr_signatures in H. rewrite map_length in H. exact H. }
    destruct (index_size X kr (proj1 Hk)) as (_ & _ & Hs).
    unfold d_size. rewrite T1, Hs. destruct (Nat.ltb_spec i (length (kr_funcs kr))); [|lia].
    destruct r as [f|f]; cbn [replacing] in R1; rewrite sig_eqb_refl; cbn [andb].
    - unfold assign_action. rewrite T4. destruct (Nat.ltb_spec i (length (kr_funcs kr))); [|lia]. eauto.
    - rewrite R2. unfold assign_action. rewrite T4. destruct (Nat.ltb_spec i (length (kr_funcs kr))); [|lia]. eauto.
  Qed.

  (** A call alone. *)
  Lemma op_alone : forall o b x, typed kr ft dbl b -> compiles o ->
    match step p o b x with
    | Ok (b', x', v) => exists t, alone (op_p p ord kr ft dbl o) (b, x) = (t, Ok v, (b', x'))
    | Fault _ => exists t f s, alone (op_p p ord kr ft dbl o) (b, x) = (t, Fault f, s)
    end.
  Proof.
    intros o b x T (Hpl & Hc). pose proof T as (T1 & T2 & T3 & T4). destruct o; try destruct Hpl; cbn [step op_p].
    - pose proof (put_does p ord kr dbl byte b x T1 T3) as H.
      destruct (put p byte b x) as [[[b' x'] s]|f]; cbn [bind].
      + destruct H as (t & H & _). exists t. rewrite alone_seq, H. cbn [alone]. rewrite app_nil_r. reflexivity.
      + destruct H as (t & g & s & H). exists t, g, s. rewrite alone_seq, H. reflexivity.
    - pose proof (get_does ord dbl b x T3) as H.
      destruct (get_byte b) as [[b' v]|f]; cbn [bind].
      + destruct H as (t & H & _). exists t. rewrite alone_seq, H. cbn [alone]. rewrite app_nil_r. reflexivity.
      + destruct H as (t & g & s & H). exists t, g, s. rewrite alone_seq, H. reflexivity.
    - destruct (is_loaded_does ord b x) as (t & H & _). exists t. rewrite alone_seq, H. cbn [alone]. rewrite app_nil_r. reflexivity.
    - destruct (replace_typed b i r T Hc) as (b' & E). rewrite E. cbn [bind].
      eexists. rewrite alone_seq, (replace_does kr ft b x i r b' T1 T2 E). cbn [alone app]. reflexivity.
  Qed.

  Lemma ops_alone : forall ops b x, typed kr ft dbl b -> Forall compiles ops ->
    match run_ops p ops b x with
    | Ok (b', x', vs) => exists t, alone (ops_p p ord kr ft dbl ops) (b, x) = (t, Ok vs, (b', x'))
    | Fault _ => exists t f s, alone (ops_p p ord kr ft dbl ops) (b, x) = (t, Fault f, s)
    end.
  Proof.
    induction ops as [|o ops IH]; intros b x T Hc; cbn [run_ops ops_p].
    - exists []. reflexivity.
    - inversion Hc as [|o' ops' Ho Hops]; subst. pose proof (op_alone o b x T Ho) as H.
      destruct (step p o b x) as [[[b1 x1] v]|f]; cbn [bind].
      + destruct H as (t & H). assert (T1 : typed kr ft dbl b1) by exact (typed_alone _ _ kr ft dbl _ _ _ _ _ H T).
        specialize (IH b1 x1 T1 Hops). destruct (run_ops p ops b1 x1) as [[[b2 x2] vs]|f]; cbn [bind].
        * destruct IH as (t' & IH). exists (t ++ t'). rewrite alone_seq, H, alone_seq, IH. cbn [alone]. rewrite app_nil_r. reflexivity.
        * destruct IH as (t' & g & s & IH). do 3 eexists. rewrite alone_seq, H, alone_seq, IH. reflexivity.
      + destruct H as (t & g & s & H). do 3 eexists. rewrite alone_seq, H. reflexivity.
  Qed.

  Lemma ops_alone_ok : forall ops b x t vs b' x', typed kr ft dbl b -> Forall compiles ops ->
    alone (ops_p p ord kr ft dbl ops) (b, x) = (t, Ok vs, (b', x')) -> run_ops p ops b x = Ok (b', x', vs).
  Proof.
    intros ops b x t vs b' x' T Hc H. pose proof (ops_alone ops b x T Hc) as G.
    destruct (run_ops p ops b x) as [[[b2 x2] vs2]|f].
    - destruct G as (t' & G). rewrite H in G. injection G as _ -> -> ->. reflexivity.
    - destruct G as (t' & g & s & G). rewrite H in G. discriminate.
  Qed.

  Hypothesis Hs : well_sized dbl kr ft.

  Lemma reached_typed : forall b a x, reached p dbl kr ft b a x -> typed kr ft dbl b.
  Proof.
    intros b a x H. destruct (reached_represents p dbl kr ft Hp Hk Hs b a x H) as (ni & no & _ & _ & R).
    destruct R as ((R1 & R2 & R3 & R4) & _ & _ & R5 & _). split; auto. split; auto. split; auto.
    rewrite R3, map_length, <- (map_length f_sig), R4. apply map_length.
  Qed.

  Lemma legitimate_compiles : forall o a x, plain o -> legitimate p dbl kr ft o a x -> compiles o.
  Proof. intros o a x H (L & _). split; auto. destruct o; auto. Qed.

  (** The accesses of a [put] and what it completes. *)
  Lemma put_covers : forall byte b a x, reached p dbl kr ft b a x -> legitimate p dbl kr ft (Put byte) a x ->
    exists t b' x' s, put p byte b x = Ok (b', x', s) /\ alone (put_p p ord kr dbl byte) (b, x) = (t, Ok s, (b', x'))
      /\ (s = RESOLVED_PACKET <-> exists f payload, examine fm (mc_table a) (mc_in a ++ [byte]) = Request f payload)
      /\ In (PIbufNext, true) t
      /\ (s = RESOLVED_PACKET -> In (PObufNext, true) t)
      /\ exists act, Forall (put_access dbl (s = RESOLVED_PACKET) (length (mc_in a)) act) t
      /\ (forall i, In (RAction i, false) (uses_op fm (Put byte) a) -> In (PAction i, false) t)
      /\ (forall i, act i -> In (RAction i, false) (uses_op fm (Put byte) a)).
  Proof.
    intros byte b a x H L. pose proof (reached_typed b a x H) as (T1 & T2 & T3 & T4).
    destruct (mc_put fm byte a x) as [[a' x'] s] eqn:EM.
    destruct (reached_step p dbl kr ft Hp Hk Hs (Put byte) b a x a' x' (OStatus s) H L) as (b' & E & _).
    { cbn [mc_step]. fold fm. rewrite EM. reflexivity. }
    cbn [step] in E. ok_inv E r. destruct r as [[b2 x2] s2]. injection E as -> -> ->.
    pose proof (put_does p ord kr dbl byte b x T1 T3) as D. rewrite E0 in D.
    destruct D as (t & D1 & (_ & D2) & D3 & m & D4 & D5).
    destruct (reached_represents p dbl kr ft Hp Hk Hs b a x H) as (ni & no & Hroom & Hfr & R).
    pose proof R as (Ht & Hni & Hno & Hdbl & Hnext & Hin & Hout & Hbot & Hso & Hbytes & Hprog).
    assert (Hbyte : is_byte byte) by apply L.
    set (bs := mc_in a ++ [byte]) in *.
    assert (Hlbs : length bs = S (length (mc_in a))) by (unfold bs; rewrite app_length; cbn; lia).
    assert (ES : s = match examine fm (mc_table a) bs with
                     | Incomplete => LOADING_PACKET | Invalid => DROPPED_PACKET | Request _ _ => RESOLVED_PACKET end).
    { unfold mc_put, received in EM. fold bs in EM. destruct (examine fm (mc_table a) bs); try congruence.
      destruct (serve fm f payload x); congruence. }
    exists t, b', x', s. split; auto. split; auto. split.
    { rewrite ES. destruct (examine fm (mc_table a) bs); split; try discriminate; eauto; intros (f' & pl & Q); discriminate. }
    split; auto. split; auto. rewrite Hnext in D5. cbn [uses_op]. fold bs.
    assert (Hw : fm_w fm = kr_index_size kr) by reflexivity.
    destruct D5 as [(Hc & D5)|(Hc & w & i & D5 & D6 & D7)].
    - exists (fun _ => False). split; auto. split; [|intros i []].
      assert (Ex : examine fm (mc_table a) bs = Incomplete /\ length bs <> fm_w fm).
      { unfold progress in Hprog. fold fm in Hprog. destruct (b_is_index_loaded b).
        - destruct Hprog as (f & P1 & P2 & P3 & P4). split; [|lia]. unfold examine.
          destruct (Nat.ltb_spec (length bs) (fm_w fm)); auto.
          assert (Ed : designated fm (mc_table a) bs = designated fm (mc_table a) (mc_in a)).
          { unfold bs, fm. apply (designated_app kr ni Hroom). exact P2. }
          rewrite Ed, P1. destruct (Nat.ltb_spec (length bs) (fm_w fm + wire_sizes (params f))); auto. lia.
        - destruct Hprog as (P1 & P2). split; [|lia]. unfold examine. destruct (Nat.ltb_spec (length bs) (fm_w fm)); auto. lia. }
      destruct Ex as (-> & Ex). destruct (Nat.eqb_spec (length bs) (fm_w fm)); [contradiction|].
      intros i [Hi|[]]. discriminate.
    - assert (Hm : m = splice (ibuf (b_bufs b)) (length (mc_in a)) [byte] /\ length bs <= ni).
      { destruct (Nat.lt_ge_cases (length (mc_in a)) (length (ibuf (b_bufs b)))) as [Hl|Hl].
        - rewrite Hnext, store_ok in D4 by exact Hl. split; [congruence|]. rewrite Hlbs, <- Hni. exact Hl.
        - rewrite Hnext, store_oob in D4 by exact Hl. discriminate. }
      destruct Hm as (Hm & Hfree).
      assert (Hl1 : length (splice (ibuf (b_bufs b)) (length (mc_in a)) [byte]) = ni) by (rewrite splice_length; cbn; lia).
      assert (Hin1 : slice (ibuf (set_ibuf m (b_bufs b))) 0 (length bs) = bs).
      { rewrite ibuf_set_ibuf, Hm, Hlbs. replace (S (length (mc_in a))) with (length (mc_in a) + 1) by lia.
        rewrite slice_app by lia. unfold bs. cbn [Nat.add]. f_equal.
        - transitivity (slice (ibuf (b_bufs b)) 0 (length (mc_in a))); auto.
          apply slice_splice_disjoint; cbn; lia.
        - apply (slice_splice_same _ _ [byte]). cbn. lia. }
      assert (Hge : kr_index_size kr <= length bs).
      { unfold progress in Hprog. destruct (b_is_index_loaded b).
        - destruct Hprog as (f & P1 & P2 & P3 & P4). lia.
        - destruct Hprog as (P1 & P2). lia. }
      rewrite (get_index_frame p kr ft ni Hp Hk Hroom (b_dispatcher b) (mc_table a) _ _ _ bs) in D5; auto.
      2:{ rewrite ibuf_set_ibuf, Hm, Hl1. exact Hfree. }
      2:{ apply Forall_app. auto. }
      injection D5 as _ <-. fold (index_of fm bs) in *.
      change (Z.to_nat (wire_value (kr_e kr) (firstn (kr_index_size kr) bs))) with (index_of fm bs) in *.
      exists (fun j => s <> DROPPED_PACKET /\ j = index_of fm bs). split; auto.
      assert (Ex : examine fm (mc_table a) bs = Incomplete -> length bs = fm_w fm).
      { unfold examine. destruct (Nat.ltb_spec (length bs) (fm_w fm)); [lia|].
        unfold progress in Hprog. fold fm in Hprog. destruct (b_is_index_loaded b).
        - destruct Hprog as (f & P1 & P2 & P3 & P4).
          assert (Ed : designated fm (mc_table a) bs = designated fm (mc_table a) (mc_in a)).
          { unfold bs, fm. apply (designated_app kr ni Hroom). exact P2. }
          rewrite Ed, P1. destruct (Nat.ltb_spec (length bs) (fm_w fm + wire_sizes (params f))); [lia|discriminate].
        - destruct Hprog as (P1 & P2). intros _. lia. }
      destruct (examine fm (mc_table a) bs) as [| |f payload].
      + rewrite (Ex eq_refl), Nat.eqb_refl. split.
        * intros i [Hi|[Hi|[]]]; [discriminate|]. injection Hi as <-. apply D6. rewrite ES. discriminate.
        * intros i (_ & ->). right. left. reflexivity.
      + split.
        * intros i [Hi|[]]. discriminate.
        * intros i (Hi & _). contradiction.
      + split.
        * intros i [Hi|[Hi|[Hi|[]]]]; try discriminate. injection Hi as <-. apply D6. rewrite ES. discriminate.
        * intros i (_ & ->). right. left. reflexivity.
  Qed.
End Proofs.

(** ** Two buffers *)

Section TwoBuffers.
  Context {X : Type}.
  Variables (p : platform) (ord : order) (kr : keyring X) (ft : action_features).
  Hypothesis Hp : wf_platform p.
  Hypothesis Hk : keyring_ok p kr.
  Hypothesis Hs : well_sized true kr ft.
  Let fm := format_of kr.

  Lemma op_covers : forall o b a x, plain o -> reached p true kr ft b a x -> legitimate p true kr ft o a x ->
    exists t v b' x' a', mc_step fm o a x = Ok (a', x', v) /\ step p o b x = Ok (b', x', v)
      /\ reached p true kr ft b' a' x'
      /\ alone (op_p p ord kr ft true o) (b, x) = (t, Ok v, (b', x'))
      /\ covered t (uses_op fm o a).
  Proof.
    intros o b a x Hpl H L.
    assert (M : exists a' x' v, mc_step fm o a x = Ok (a', x', v)).
    { destruct o; try destruct Hpl; cbn [mc_step].
      - destruct (mc_put fm byte a x) as [[a' x'] s]. eauto.
      - destruct (mc_get a) as [a' c]. eauto.
      - eauto.
      - eauto. }
    destruct M as (a' & x' & v & M).
    destruct (reached_step p true kr ft Hp Hk Hs o b a x a' x' v H L M) as (b' & E & R').
    pose proof (reached_typed p kr ft true Hp Hk Hs b a x H) as T.
    pose proof (op_alone p ord kr ft true Hk o b x T (legitimate_compiles p kr ft true o a x Hpl L)) as A.
    rewrite E in A. destruct A as (t & A). exists t, v, b', x', a'. do 4 (split; [assumption|]).
    pose proof T as (T1 & T2 & T3 & T4).
    destruct o; try destruct Hpl; cbn [op_p] in A.
    - destruct (put_covers p ord kr ft true Hp Hk Hs byte b a x H L)
        as (t1 & b1 & x1 & s & P1 & P2 & P3 & P4 & P5 & act & P6 & P7 & P8).
      rewrite alone_seq, P2 in A. cbn [alone] in A. rewrite app_nil_r in A. injection A as <- _ _ _. fold fm in P7, P8, P3. split.
      + intros r w Hr. destruct r.
        * assert (w = true) as ->; [|exact P4]. cbn [uses_op] in Hr. destruct Hr as [Hr|Hr]; [congruence|].
          destruct (examine fm (mc_table a) (mc_in a ++ [byte])).
          -- destruct (length (mc_in a ++ [byte]) =? fm_w fm); [|destruct Hr]. destruct Hr as [Hr|[]]. discriminate.
          -- destruct Hr.
          -- destruct Hr as [Hr|[Hr|[]]]; discriminate.
        * assert (w = true /\ s = RESOLVED_PACKET) as (-> & Es); [|exact (P5 Es)]. cbn [uses_op] in Hr.
          destruct Hr as [Hr|Hr]; [congruence|]. rewrite P3.
          destruct (examine fm (mc_table a) (mc_in a ++ [byte])).
          -- destruct (length (mc_in a ++ [byte]) =? fm_w fm); [|destruct Hr]. destruct Hr as [Hr|[]]. discriminate.
          -- destruct Hr.
          -- destruct Hr as [Hr|[Hr|[]]]; [discriminate|]. injection Hr as <-. eauto.
        * assert (w = false) as ->; [|exact (P7 i Hr)]. cbn [uses_op] in Hr. destruct Hr as [Hr|Hr]; [congruence|].
          destruct (examine fm (mc_table a) (mc_in a ++ [byte])).
          -- destruct (length (mc_in a ++ [byte]) =? fm_w fm); [|destruct Hr]. destruct Hr as [Hr|[]]. congruence.
          -- destruct Hr.
          -- destruct Hr as [Hr|[Hr|[]]]; congruence.
      + intros l w Hl. rewrite Forall_forall in P6. specialize (P6 _ Hl).
        assert (RI : exists w', In (RIn, w') (uses_op fm (Put byte) a) /\ (w = true -> w' = true)).
        { exists true. split; auto. left. reflexivity. }
        assert (RO : s = RESOLVED_PACKET -> exists w', In (ROut, w') (uses_op fm (Put byte) a) /\ (w = true -> w' = true)).
        { intros Es. exists true. split; auto. apply P3 in Es. destruct Es as (f & pl & Es). cbn [uses_op]. rewrite Es.
          right. right. left. reflexivity. }
        unfold put_access in P6. cbn [fst snd] in P6. destruct l; cbn [resource_of]; auto.
        * destruct w.
          -- destruct P6 as [(-> & _)|(-> & P6)]; auto.
          -- subst array. auto.
        * destruct P6 as (-> & P6). exists false. split; [auto|discriminate].
    - pose proof (get_does ord true b x T3) as G. cbn [step] in E. ok_inv E r. destruct r as [b1 c]. injection E as -> <- <-.
      destruct G as (t1 & G1 & G2 & G3 & G4). rewrite alone_seq, G1 in A. cbn [alone] in A.
      rewrite app_nil_r in A. injection A as <-.
      destruct (reached_represents p true kr ft Hp Hk Hs b a x H) as (ni & no & Hroom & _ & R).
      assert (IL : is_loaded b = mc_loaded a) by (eapply is_loaded_ok; eauto). rewrite IL in G3.
      assert (G5 : Forall (fun a0 => a0 = (PObufNext, false) \/ a0 = (PObufBottom, false)
        \/ (mc_loaded a = true /\ (a0 = (PObufNext, true) \/ a0 = (PByte 1 (b_obuf_next b), false)))) t1).
      { eapply Forall_impl; [|exact G4]. intros a0. cbv beta. rewrite IL. auto. }
      clear G4. rename G5 into G4. cbn [uses_op]. split.
      + intros r w [Hr|[]]. injection Hr as <- <-. cbn [witness]. destruct (mc_loaded a); [apply G3|]; auto.
      + intros l w Hl. rewrite Forall_forall in G4. specialize (G4 _ Hl). exists (mc_loaded a).
        destruct G4 as [G4|[G4|(G4 & [G5|G5])]]; [injection G4 as -> ->|injection G4 as -> ->|injection G5 as -> ->|injection G5 as -> ->];
          (split; [left; reflexivity|congruence]).
    - cbn [step] in E. injection E as <- <- <-. destruct (is_loaded_does ord b x) as (t1 & G1 & G2 & G3).
      rewrite alone_seq, G1 in A. cbn [alone] in A. rewrite app_nil_r in A. injection A as <-. cbn [uses_op]. split.
      + intros r w [Hr|[]]. injection Hr as <- <-. exact G2.
      + intros l w Hl. rewrite Forall_forall in G3. specialize (G3 _ Hl). exists false.
        destruct G3 as [G3|G3]; injection G3 as -> ->; (split; [left; reflexivity|auto]).
    - cbn [step] in E. destruct (replace_buffered b i r) as [[b1|]|] eqn:ER; try discriminate.
      rewrite alone_seq, (replace_does kr ft b x i r b1 T1 T2 ER) in A. cbn [alone app] in A. injection A as <- _ _ _.
      cbn [uses_op]. split.
      + intros r' w [Hr|[]]. injection Hr as <- <-. left. reflexivity.
      + intros l w [Hl|[]]. injection Hl as <- <-. exists true. split; auto. left. reflexivity.
  Qed.

  Lemma ops_covers : forall ops b a x, Forall plain ops -> reached p true kr ft b a x ->
    along fm (legitimate p true kr ft) ops a x ->
    exists t vs b' x' a', mc_run fm ops a x = Ok (a', x', vs) /\ run_ops p ops b x = Ok (b', x', vs)
      /\ reached p true kr ft b' a' x'
      /\ alone (ops_p p ord kr ft true ops) (b, x) = (t, Ok vs, (b', x'))
      /\ covered t (uses fm ops a x).
  Proof.
    induction ops as [|o ops IH]; intros b a x Hpl H L; cbn [mc_run run_ops ops_p uses].
    - exists [], [], b, x, a. do 2 (split; [reflexivity|]). split; [exact H|]. split; [reflexivity|]. split; [intros r w []|intros l w []].
    - inversion Hpl as [|o' ops' Ho Hops]; subst. destruct L as (L1 & L2).
      destruct (op_covers o b a x Ho H L1) as (t & v & b1 & x1 & a1 & M & E & R & A & C).
      rewrite M, E. cbn [bind].
      destruct (IH b1 a1 x1 Hops R (L2 _ _ _ M)) as (t' & vs & b2 & x2 & a2 & M' & E' & R' & A' & C').
      rewrite M', E'. cbn [bind]. exists (t ++ t'), (v :: vs), b2, x2, a2. do 3 (split; [auto|]). split.
      + rewrite alone_seq, A, alone_seq, A'. cbn [alone]. rewrite app_nil_r. reflexivity.
      + apply covered_app; auto.
  Qed.

  Lemma along_compiles : forall ops a x, Forall plain ops -> along fm (legitimate p true kr ft) ops a x ->
    Forall (compiles kr ft) ops.
  Proof.
    induction ops as [|o ops IH]; intros a x Hpl L; constructor; inversion Hpl as [|o' ops' Ho Hops]; subst; destruct L as (L1 & L2).
    - apply (legitimate_compiles p kr ft true o a x); auto.
    - assert (M : exists a' x' v, mc_step fm o a x = Ok (a', x', v)).
      { destruct o; try destruct Ho; cbn [mc_step].
        - destruct (mc_put fm byte a x) as [[a' x'] s]. eauto.
        - destruct (mc_get a) as [a' c]. eauto.
        - eauto.
        - eauto. }
      destruct M as (a' & x' & v & M). eapply IH; eauto.
  Qed.
End TwoBuffers.

(** * C95 *)

(** Two threads use a dispatcher which has two buffers, in any state it reaches.  There
    is a data race (one of the threads is about to write what the other is about to
    access) in some order of their accesses iff they both use the request being
    received, the response being sent, or an action, and one of them changes it. *)
Theorem C95_race_iff : forall (X : Type) p ord (kr : keyring X) ft b a x ops1 ops2,
  wf_platform p -> keyring_ok p kr -> well_sized true kr ft -> reached p true kr ft b a x ->
  Forall plain ops1 -> Forall plain ops2 ->
  along (format_of kr) (legitimate p true kr ft) ops1 a x ->
  along (format_of kr) (legitimate p true kr ft) ops2 a x ->
  race (ops_p p ord kr ft true ops1) (ops_p p ord kr ft true ops2) (b, x)
  <-> conflict (uses (format_of kr) ops1 a x) (uses (format_of kr) ops2 a x).
Proof.
  intros X p ord kr ft b a x ops1 ops2 Hp Hk Hs H P1 P2 L1 L2.
  destruct (ops_covers p ord kr ft Hp Hk Hs ops1 b a x P1 H L1) as (t1 & vs1 & b1 & x1 & a1 & _ & _ & _ & A1 & C1).
  destruct (ops_covers p ord kr ft Hp Hk Hs ops2 b a x P2 H L2) as (t2 & vs2 & b2 & x2 & a2 & _ & _ & _ & A2 & C2).
  rewrite race_iff. unfold trace. rewrite A1, A2. cbn [fst]. apply covered_clash; auto.
Qed.

(** When there is none, whatever the order of the accesses, each thread sees what it
    would see if it were alone, and the dispatcher is left as if one of the threads had
    made all its calls before the other, whichever of the two. *)
Theorem C95_no_race : forall (X : Type) p ord (kr : keyring X) ft b a x ops1 ops2,
  wf_platform p -> keyring_ok p kr -> well_sized true kr ft -> reached p true kr ft b a x ->
  Forall plain ops1 -> Forall plain ops2 ->
  along (format_of kr) (legitimate p true kr ft) ops1 a x ->
  along (format_of kr) (legitimate p true kr ft) ops2 a x ->
  ~ conflict (uses (format_of kr) ops1 a x) (uses (format_of kr) ops2 a x) ->
  exists vs1 vs2 a1 x1 a2 x2 b' x',
    mc_run (format_of kr) ops1 a x = Ok (a1, x1, vs1) /\ mc_run (format_of kr) ops2 a x = Ok (a2, x2, vs2)
    /\ run_ops p (ops1 ++ ops2) b x = Ok (b', x', vs1 ++ vs2)
    /\ run_ops p (ops2 ++ ops1) b x = Ok (b', x', vs2 ++ vs1)
    /\ (forall d, evolves (ops_p p ord kr ft true ops1, ops_p p ord kr ft true ops2, (b, x)) d ->
          evolves d (Done vs1, Done vs2, (b', x')))
    /\ (forall q r s, evolves (ops_p p ord kr ft true ops1, ops_p p ord kr ft true ops2, (b, x)) (q, r, s) ->
          next q = None -> next r = None -> q = Done vs1 /\ r = Done vs2 /\ s = (b', x')).
Proof.
  intros X p ord kr ft b a x ops1 ops2 Hp Hk Hs H P1 P2 L1 L2 N.
  rewrite <- (C95_race_iff X p ord kr ft b a x ops1 ops2) in N by auto.
  destruct (ops_covers p ord kr ft Hp Hk Hs ops1 b a x P1 H L1) as (t1 & vs1 & b1 & x1 & a1 & M1 & R1 & _ & A1 & C1).
  destruct (ops_covers p ord kr ft Hp Hk Hs ops2 b a x P2 H L2) as (t2 & vs2 & b2 & x2 & a2 & M2 & R2 & _ & A2 & C2).
  pose proof (reached_typed p kr ft true Hp Hk Hs b a x H) as T.
  pose proof (along_compiles p kr ft ops1 a x P1 L1) as K1.
  pose proof (along_compiles p kr ft ops2 a x P2 L2) as K2.
  destruct (alone (ops_p p ord kr ft true ops2) (b1, x1)) as [[u w] [b' x']] eqn:A3.
  destruct (no_race_serial _ _ _ _ _ _ _ _ _ _ _ N A1 A3) as (S1 & s1' & S2 & S3).
  rewrite A2 in S2. injection S2 as <- <- <-. cbn [local] in S1.
  assert (T1 : typed kr ft true b1) by exact (typed_alone _ _ kr ft true _ _ _ _ _ A1 T).
  assert (T2 : typed kr ft true b2) by exact (typed_alone _ _ kr ft true _ _ _ _ _ A2 T).
  exists vs1, vs2, a1, x1, a2, x2, b', x'. split; auto. split; auto. split; [|split; [|split]].
  - rewrite run_ops_app, R1. cbn [bind].
    rewrite (ops_alone_ok p ord kr ft true Hk ops2 b1 x1 _ _ _ _ T1 K2 A3). reflexivity.
  - rewrite run_ops_app, R2. cbn [bind].
    rewrite (ops_alone_ok p ord kr ft true Hk ops1 b2 x2 _ _ _ _ T2 K1 S3). reflexivity.
  - exact S1.
  - intros q r s E Nq Nr. specialize (S1 _ E).
    assert (G : forall d : two X (list obs) (list obs), evolves (q, r, s) d -> d = (q, r, s)).
    { intros d Hd. induction Hd as [|d d' _ IH Hm]; auto. subst d. exfalso.
      inversion Hm as [q0 q' r0 s0 s' Ha|q0 r0 r' s0 s' Ha]; subst.
      - destruct q; cbn in Ha, Nq; try discriminate.
      - destruct r; cbn in Ha, Nr; try discriminate. }
    specialize (G _ S1). injection G as <- <- <-. auto.
Qed.

(** The same for one call in each thread. *)
Theorem C95_pairs : forall (X : Type) p ord (kr : keyring X) ft b a x,
  wf_platform p -> keyring_ok p kr -> well_sized true kr ft -> reached p true kr ft b a x ->
  let fm := format_of kr in
  let ok := legitimate p true kr ft in
  let races o o' := race (ops_p p ord kr ft true [o]) (ops_p p ord kr ft true [o']) (b, x) in
  let completes byte := exists f payload, examine fm (mc_table a) (mc_in a ++ [byte]) = Request f payload in
  (forall byte byte', ok (Put byte) a x -> ok (Put byte') a x -> races (Put byte) (Put byte'))
  /\ (forall byte, ok (Put byte) a x -> (races (Put byte) Get <-> completes byte))
  /\ (forall byte, ok (Put byte) a x -> (races (Put byte) IsLoaded <-> completes byte))
  /\ (races Get Get <-> mc_out a <> [])
  /\ (races Get IsLoaded <-> mc_out a <> [])
  /\ ~ races IsLoaded IsLoaded
  /\ (forall byte i r, ok (Put byte) a x -> ok (Replace i r) a x ->
        (races (Put byte) (Replace i r) <->
         index_of fm (mc_in a ++ [byte]) = i
         /\ (completes byte \/ length (mc_in a) + 1 = fm_w fm)))
  /\ (forall i r j r', ok (Replace i r) a x -> ok (Replace j r') a x -> (races (Replace i r) (Replace j r') <-> i = j))
  /\ (forall i r, ok (Replace i r) a x -> ~ races (Replace i r) Get /\ ~ races (Replace i r) IsLoaded).
Proof.
  intros X p ord kr ft b a x Hp Hk Hs H fm ok races completes.
  assert (K : ok Get a x /\ ok IsLoaded a x).
  { split; (split; [exact I|left; reflexivity]). }
  destruct K as (KG & KL).
  assert (G : forall o o', plain o -> plain o' -> ok o a x -> ok o' a x ->
    (races o o' <-> conflict (uses_op fm o a) (uses_op fm o' a))).
  { intros o o' P P' L L'. unfold races.
    assert (One : forall o, plain o -> exists a' x' v, mc_step (format_of kr) o a x = Ok (a', x', v)).
    { intros o0 P0. destruct o0; try destruct P0; cbn [mc_step].
      - destruct (mc_put (format_of kr) byte a x) as [[a' x'] s]. eauto.
      - destruct (mc_get a) as [a' c]. eauto.
      - eauto.
      - eauto. }
    rewrite (C95_race_iff X p ord kr ft b a x [o] [o'] Hp Hk Hs H); auto.
    - cbn [uses]. destruct (One o P) as (a1 & x1 & v & ->). destruct (One o' P') as (a2 & x2 & v' & ->).
      rewrite !app_nil_r. reflexivity.
    - cbn [along]. auto.
    - cbn [along]. auto. }
  assert (Out : forall byte w, In (ROut, w) (uses_op fm (Put byte) a) <-> w = true /\ completes byte).
  { intros byte w. cbn [uses_op]. unfold completes. split.
    - intros [Hi|Hi]; [discriminate|]. destruct (examine fm (mc_table a) (mc_in a ++ [byte])).
      + destruct (_ =? _); [|destruct Hi]. destruct Hi as [Hi|[]]. discriminate.
      + destruct Hi.
      + destruct Hi as [Hi|[Hi|[]]]; [discriminate|]. injection Hi as <-. eauto.
    - intros (-> & f & pl & ->). right. right. left. reflexivity. }
  assert (Put_out : forall byte o, plain o -> ok (Put byte) a x -> ok o a x ->
    (exists w, uses_op fm o a = [(ROut, w)]) -> (races (Put byte) o <-> completes byte)).
  { intros byte o P L L' (w & U). rewrite G; cbn [plain]; auto. rewrite U. split.
    - intros (r & v & v' & A & [B|[]] & C). injection B as <- <-. apply Out in A. apply A.
    - intros C. exists ROut, true, w. split; [apply Out; auto|]. split; [left; reflexivity|auto]. }
  assert (Loaded : mc_loaded a = true <-> mc_out a <> []).
  { unfold mc_loaded. destruct (mc_out a); split; intros; congruence. }
  split; [|split; [|split; [|split; [|split; [|split; [|split; [|split]]]]]]].
  - intros byte byte' L L'. apply G; cbn [plain]; auto. exists RIn, true, true. cbn [uses_op].
    split; [left; reflexivity|]. split; [left; reflexivity|auto].
  - intros byte L. apply Put_out; cbn [plain]; auto. cbn [uses_op]. eauto.
  - intros byte L. apply Put_out; cbn [plain]; auto. cbn [uses_op]. eauto.
  - rewrite G by (cbn [plain]; auto). cbn [uses_op]. rewrite <- Loaded. split.
    + intros (r & w & w' & [A|[]] & [B|[]] & C). injection A as <- <-. injection B as <-. destruct C; auto.
    + intros E. rewrite E. exists ROut, true, true. cbn. auto.
  - rewrite G by (cbn [plain]; auto). cbn [uses_op]. rewrite <- Loaded. split.
    + intros (r & w & w' & [A|[]] & [B|[]] & C). injection A as <- <-. injection B as <-. destruct C; [auto|discriminate].
    + intros E. rewrite E. exists ROut, true, false. cbn. auto.
  - rewrite G by (cbn [plain]; auto). cbn [uses_op].
    intros (r & w & w' & [A|[]] & [B|[]] & C). injection A as <- <-. injection B as <-. destruct C; discriminate.
  - intros byte i r L L'. rewrite G by (cbn [plain]; auto).
    assert (Act : (exists w, In (RAction i, w) (uses_op fm (Put byte) a)) <->
       index_of fm (mc_in a ++ [byte]) = i
         /\ (completes byte \/ examine fm (mc_table a) (mc_in a ++ [byte]) = Incomplete /\ length (mc_in a) + 1 = fm_w fm)).
    { cbn [uses_op]. unfold completes. replace (length (mc_in a) + 1) with (length (mc_in a ++ [byte])) by (rewrite app_length; reflexivity).
      split.
      - intros (w & [Hi|Hi]); [discriminate|]. destruct (examine fm (mc_table a) (mc_in a ++ [byte])).
        + destruct (Nat.eqb_spec (length (mc_in a ++ [byte])) (fm_w fm)); [|destruct Hi]. destruct Hi as [Hi|[]].
          injection Hi as <- _. auto.
        + destruct Hi.
        + destruct Hi as [Hi|[Hi|[]]]; [|discriminate]. injection Hi as <- _. eauto.
      - intros (<- & [(f & pl & ->)|(-> & E)]).
        + exists false. right. left. reflexivity.
        + rewrite E, Nat.eqb_refl. exists false. right. left. reflexivity. }
    assert (Valid : index_of fm (mc_in a ++ [byte]) = i -> length (mc_in a) + 1 = fm_w fm ->
       completes byte \/ examine fm (mc_table a) (mc_in a ++ [byte]) = Incomplete).
    { intros E1 E2. unfold completes, examine.
      assert (E3 : length (mc_in a ++ [byte]) = fm_w fm) by (rewrite app_length; exact E2).
      rewrite E3, Nat.ltb_irrefl. unfold designated. fold (index_of fm (mc_in a ++ [byte])). rewrite E1.
      destruct (nth_error (mc_table a) i) as [f|] eqn:En.
      - destruct (fm_w fm <? fm_w fm + wire_sizes (params f)); eauto.
      - exfalso. destruct L' as ((R1 & _) & _). 
        destruct (reached_represents p true kr ft Hp Hk Hs b a x H) as (ni & no & _ & _ & ((_ & _ & _ & T) & _)).
        assert (nth_error (kr_signatures kr) i <> None) as N by congruence. apply nth_error_Some in N.
        apply nth_error_None in En. rewrite <- T, map_length in N. lia. }
    split.
    + intros (r' & w & w' & A & [B|[]] & C). injection B as <- <-.
      assert (E : exists w, In (RAction i, w) (uses_op fm (Put byte) a)) by eauto. apply Act in E.
      destruct E as (E1 & [E2|(E2 & E3)]); auto.
    + intros (E1 & E2).
      assert (E : exists w, In (RAction i, w) (uses_op fm (Put byte) a)).
      { apply Act. split; auto. destruct E2 as [E2|E2]; auto. destruct (Valid E1 E2) as [V|V]; auto. }
      destruct E as (w & E). exists (RAction i), w, true. split; auto. split; [left; reflexivity|auto].
  - intros i r j r' L L'. rewrite G by (cbn [plain]; auto). cbn [uses_op]. split.
    + intros (r0 & w & w' & [A|[]] & [B|[]] & C). congruence.
    + intros <-. exists (RAction i), true, true. cbn. auto.
  - intros i r L. split; rewrite G by (cbn [plain]; auto); cbn [uses_op];
      intros (r0 & w & w' & [A|[]] & [B|[]] & C); congruence.
Qed.

(** One buffer, in any state: a thread which receives and a thread which sends race iff
    the byte completes a request or the byte received takes the place of the byte
    sent. *)
Theorem C95_single_buffer : forall (X : Type) p ord (kr : keyring X) (b : buffered X) x byte b' x' s b2 c,
  d_keyring (b_dispatcher b) = kr -> is_double (b_bufs b) = false ->
  put p byte b x = Ok (b', x', s) -> get_byte b = Ok (b2, c) ->
  race (put_p p ord kr false byte) (get_p ord false) (b, x)
  <-> s = RESOLVED_PACKET \/ (is_loaded b = true /\ b_obuf_next b = b_ibuf_next b).
Proof.
  intros X p ord kr b x byte b' x' s b2 c Hd Hb EP EG. rewrite race_iff. unfold trace.
  pose proof (put_does p ord kr false byte b x Hd Hb) as P. rewrite EP in P.
  destruct P as (t & -> & (P1 & P2) & P3 & m & _ & P5).
  pose proof (get_does ord false b x Hb) as G. rewrite EG in G. destruct G as (u & -> & G1 & G2 & G3). cbn [fst].
  rewrite Forall_forall in G3.
  assert (PA : forall a, In a t -> exists act, put_access false (s = RESOLVED_PACKET) (b_ibuf_next b) act a).
  { intros a Ha. destruct P5 as [(_ & F)|(_ & w & i & _ & _ & F)]; rewrite Forall_forall in F; eauto. }
  split.
  - intros ((l & w) & (l' & w') & A & B & (E & C)). cbn [fst snd] in *. subst l'.
    destruct (PA _ A) as (act & PB). specialize (G3 _ B). unfold put_access in PB. cbn [fst snd] in PB.
    destruct G3 as [E|[E|(L & [E|E])]]; injection E as -> ->; auto.
    destruct C as [->|C]; [|discriminate]. cbn [out_array] in PB. destruct PB as [(_ & <-)|(_ & PB)]; auto.
  - intros [->|(L & E)].
    + exists (PObufNext, true), (PObufNext, false). split; auto. split; auto. split; auto.
    + destruct (G2 L) as (_ & G4). exists (PByte 0 (b_ibuf_next b), true), (PByte (out_array false) (b_obuf_next b), false).
      split; auto. split; auto. split; [cbn; congruence|auto].
Qed.

(** ** Examples *)

(** The accesses in a given order: [true] for the first thread. *)
Fixpoint play {X A B : Type} (sch : list bool) (c : two X A B) : two X A B :=
  match sch with
  | [] => c
  | first :: sch' =>
      let '(q, r, s) := c in
      if first : bool then
        match advance q s with Some (q', s') => play sch' (q', r, s') | None => play sch' c end
      else
        match advance r s with Some (r', s') => play sch' (q, r', s') | None => play sch' c end
  end.

Lemma play_evolves : forall (X A B : Type) sch (c : two X A B), evolves c (play sch c).
Proof.
  intros X A B. induction sch as [|l sch IH]; intros [[q r] s]; cbn [play]; [constructor|].
  destruct l.
  - destruct (advance q s) as [[q' s']|] eqn:E; [|apply IH].
    eapply evolves_trans; [|apply IH]. econstructor; [constructor|]. constructor. exact E.
  - destruct (advance r s) as [[r' s']|] eqn:E; [|apply IH].
    eapply evolves_trans; [|apply IH]. econstructor; [constructor|]. constructor. exact E.
Qed.

(** All the response has been sent. *)
Lemma ex_sent : exists b,
  reached pc_native true ex_keyring ANY b (mk_machine [] [] (map snd (kr_funcs ex_keyring))) [(0, [VInt (-2); VInt 5])]
  /\ b = mk_buffered (make_dispatcher ex_keyring ANY) false 1 0 4 4 (Double [0; 255; 254; 5; 0]%Z [0; 0; 0; 3]%Z).
Proof.
  eexists. split; [|reflexivity].
  exists [], []. eexists. exists ([Put 0; Put 255; Put 254; Put 5; Get; Get; Get; Get]%Z), []. eexists.
  split; [reflexivity|]. split; [legit|]. split; vm_compute; reflexivity.
Qed.

(** Having two buffers is not enough to receive in a thread and to send in another:
    while nothing is to be sent, a thread which asks for a byte leaves the output buffer
    because the other one receives a request.  In one thread neither order does. *)
Theorem C95_duplex_refuted : forall ord, exists (kr : keyring log) ft b a x q s,
  keyring_ok pc_native kr /\ well_sized true kr ft /\ reached pc_native true kr ft b a x
  /\ mc_out a = []
  /\ evolves (ops_p pc_native ord kr ft true [Put 1%Z], ops_p pc_native ord kr ft true [Get], (b, x)) (q, Stop OutOfBounds, s)
  /\ (exists b2 x2, run_ops pc_native [Put 1; Get]%Z b x = Ok (b2, x2, [OStatus RESOLVED_PACKET; OByte 0]))
  /\ (exists b2 x2, run_ops pc_native [Get; Put 1]%Z b x = Ok (b2, x2, [OByte 0; OStatus RESOLVED_PACKET])).
Proof.
  intros ord. destruct ex_sent as (b & H & ->).
  set (sch := repeat true 12 ++ repeat false 5).
  set (b := mk_buffered (make_dispatcher ex_keyring ANY) false 1 0 4 4 (Double [0; 255; 254; 5; 0]%Z [0; 0; 0; 3]%Z)) in *.
  set (x := [(0, [VInt (-2); VInt 5])]) in *.
  set (c := (ops_p pc_native ord ex_keyring ANY true [Put 1%Z], ops_p pc_native ord ex_keyring ANY true [Get], (b, x))).
  assert (E : match play sch c with (_, Stop OutOfBounds, _) => True | _ => False end).
  { unfold c. destruct ord as [[|] [|] [|]]; vm_compute; exact I. }
  pose proof (play_evolves _ _ _ sch c) as G. destruct (play sch c) as [[q r] s].
  destruct r as [| [] | | | ]; try contradiction.
  exists ex_keyring, ANY. eexists. eexists. eexists. exists q, s.
  split; [exact ex_keyring_ok|]. split; [exact (proj1 ex_well_sized)|]. split; [exact H|]. split; [reflexivity|].
  split; [exact G|]. clear. split.
  - assert (E : match run_ops pc_native [Put 1; Get]%Z b x with Ok (_, _, v) => v = [OStatus RESOLVED_PACKET; OByte 0] | Fault _ => False end)
      by (vm_compute; reflexivity).
    destruct (run_ops pc_native [Put 1; Get]%Z b x) as [[[b2 x2] v]|]; [|destruct E]. subst v. eauto.
  - assert (E : match run_ops pc_native [Get; Put 1]%Z b x with Ok (_, _, v) => v = [OByte 0; OStatus RESOLVED_PACKET] | Fault _ => False end)
      by (vm_compute; reflexivity).
    destruct (run_ops pc_native [Get; Put 1]%Z b x) as [[[b2 x2] v]|]; [|destruct E]. subst v. eauto.
Qed.

(** A response is sent in a thread while the other one receives, drops an index, starts
    another request and replaces the action of a third callback: no race.  With the last
    byte of the request there is one. *)
Example C95_example : exists b,
  let a := mk_machine [] [0; 0; 0; 3]%Z (map snd (kr_funcs ex_keyring)) in
  let x := [(0, [VInt (-2); VInt 5])] in
  let ops1 := [Put 77; Put 0; Put 255; Put 254; Replace 1 (ByFunctor ex_notify)]%Z in
  let ops1' := [Put 77; Put 0; Put 255; Put 254; Put 5]%Z in
  let ops2 := [IsLoaded; Get; Get; IsLoaded; Get; Get; IsLoaded; Get] in
  let ok ops := along (format_of ex_keyring) (legitimate pc_native true ex_keyring ANY) ops a x in
  reached pc_native true ex_keyring ANY b a x
  /\ Forall plain ops1 /\ Forall plain ops1' /\ Forall plain ops2 /\ ok ops1 /\ ok ops1' /\ ok ops2
  /\ uses (format_of ex_keyring) ops1 a x
     = [(RIn, true); (RIn, true); (RAction 0, false); (RIn, true); (RIn, true); (RAction 1, true)]
  /\ uses (format_of ex_keyring) ops2 a x
     = [(ROut, false); (ROut, true); (ROut, true); (ROut, false); (ROut, true); (ROut, true); (ROut, false); (ROut, false)]
  /\ ~ conflict (uses (format_of ex_keyring) ops1 a x) (uses (format_of ex_keyring) ops2 a x)
  /\ conflict (uses (format_of ex_keyring) ops1' a x) (uses (format_of ex_keyring) ops2 a x).
Proof.
  assert (G : exists b, reached pc_native true ex_keyring ANY b
    (mk_machine [] [0; 0; 0; 3]%Z (map snd (kr_funcs ex_keyring))) [(0, [VInt (-2); VInt 5])]).
  { eexists. exists [], []. eexists. exists ([Put 0; Put 255; Put 254; Put 5]%Z), []. eexists.
    split; [reflexivity|]. split; [legit|]. split; vm_compute; reflexivity. }
  destruct G as (b & H). exists b. cbv zeta. split; [exact H|]. clear H.
  do 3 (split; [repeat constructor|]).
  assert (U1 : uses (format_of ex_keyring) [Put 77; Put 0; Put 255; Put 254; Replace 1 (ByFunctor ex_notify)]%Z
      (mk_machine [] [0; 0; 0; 3]%Z (map snd (kr_funcs ex_keyring))) [(0, [VInt (-2); VInt 5])]
     = [(RIn, true); (RIn, true); (RAction 0, false); (RIn, true); (RIn, true); (RAction 1, true)]) by (vm_compute; reflexivity).
  assert (U2 : uses (format_of ex_keyring) [IsLoaded; Get; Get; IsLoaded; Get; Get; IsLoaded; Get]
      (mk_machine [] [0; 0; 0; 3]%Z (map snd (kr_funcs ex_keyring))) [(0, [VInt (-2); VInt 5])]
     = [(ROut, false); (ROut, true); (ROut, true); (ROut, false); (ROut, true); (ROut, true); (ROut, false); (ROut, false)])
    by (vm_compute; reflexivity).
  split; [legit; split; reflexivity|]. split; [legit|]. split; [legit|]. split; [exact U1|]. split; [exact U2|]. rewrite U1, U2. split.
  - intros (r & w & w' & A & B & _).
    repeat (destruct A as [A|A]; [injection A as <- _; repeat (destruct B as [B|B]; [discriminate|]); destruct B|]). destruct A.
  - exists ROut, true, true. split; [|split; [|auto]].
    + assert (E : existsb (fun u => match u with (ROut, true) => true | _ => false end)
        (uses (format_of ex_keyring) [Put 77; Put 0; Put 255; Put 254; Put 5]%Z
          (mk_machine [] [0; 0; 0; 3]%Z (map snd (kr_funcs ex_keyring))) [(0, [VInt (-2); VInt 5])]) = true)
        by (vm_compute; reflexivity).
      apply existsb_exists in E. destruct E as ([[] []] & E & F); try discriminate. exact E.
    + cbn. auto.
Qed.

(** Hypotheses of C95_single_buffer: the second byte of a response would be overwritten by
    the second byte of the next request. *)
Example C95_single_example :
  let b := mk_buffered (make_dispatcher ex_keyring ANY) true 3 1 1 4 (Single [0; 0; 0; 3; 0]%Z) in
  d_keyring (b_dispatcher b) = ex_keyring /\ is_double (b_bufs b) = false
  /\ is_loaded b = true /\ b_obuf_next b = b_ibuf_next b
  /\ (exists b', put pc_native 7 b [] = Ok (b', [], LOADING_PACKET))
  /\ (exists b', get_byte b = Ok (b', 0%Z)).
Proof.
  cbv zeta. do 4 (split; [reflexivity|]). split; eexists; reflexivity.
Qed.

Print Assumptions C95_race_iff.
Print Assumptions C95_no_race.
Print Assumptions C95_pairs.
Print Assumptions C95_single_buffer.
Print Assumptions C95_duplex_refuted.
