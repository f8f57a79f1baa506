(** Property C110: exceptions, statement by statement. *)

From Coq Require Import List ZArith Lia Bool Arith ZifyBool ZifyNat String.
From Verif Require Import Base CInt Spec IntModel Conditions MemFacts TypeLevel Serial TupleModel
  TypeLevelProofs IntProofs SignedProofs SerialProofs CodecFacts Bounds TupleProofs SpecRpc Rpc RpcProofs
  Hosts Closed PropertiesTypes PropertiesRpc Buffered SpecBuffered BufferedProofs PropertiesBuffered
  PropertiesBuffers Counters PropertiesCounters Classes Methods PropertiesMethods Throwing.
From Verif Require Cpp SourceProofs Exceptions PropertiesExceptions PropertiesStreams.
Import ListNotations.
Open Scope string_scope.
Open Scope list_scope.
Open Scope nat_scope.

(** ** What does not throw *)

Definition lift {W A : Type} (r : res (W * A)) : res (W * Exceptions.outcome A) :=
  mapped (fun q => (fst q, Exceptions.Returned (snd q))) r.

Definition lift_unit {W : Type} (r : res W) : res (W * Exceptions.outcome unit) :=
  mapped (fun w => (w, Exceptions.Returned tt)) r.

Section Lift.
  Variable p : platform.
  Context {W : Type}.
  Variables (src : source W) (src_x : Exceptions.esource W) (dest : destination W) (dest_x : Exceptions.edestination W).
  Hypothesis Hsrc : forall w, src_x w = lift (src w).
  Hypothesis Hdest : forall byte w, dest_x byte w = lift_unit (dest byte w).

  Lemma fill_lift : forall k pos w mem, fill_x src_x k pos w mem = lift (fill src k pos w mem).
  Proof.
    induction k as [|k IH]; intros pos w mem; cbn [fill_x fill]; auto.
    rewrite Hsrc. destruct (src w) as [[w1 b]|]; cbn [lift mapped then_ bind fst snd]; auto.
    destruct (store mem pos b); cbn [bind]; auto.
  Qed.

  Lemma read_tuple_lift : forall e m ts w, read_tuple_x p e m ts src_x w = lift (read_tuple p e m ts src w).
  Proof.
    intros e m ts w. unfold read_tuple_x, read_tuple, fill_tuple.
    destruct (default_construct p e m ts _); cbn [bind]; auto. apply fill_lift.
  Qed.

  Lemma get_index_lift : forall d w, get_index_x p d src_x w = lift (get_index p d src w).
  Proof.
    intros d w. unfold get_index_x, get_index. rewrite read_tuple_lift.
    destruct (read_tuple p _ _ _ src w) as [[w1 st]|]; cbn [lift mapped then_ bind fst snd]; auto.
    destruct (get p _ 0 st) as [[z|l]|]; reflexivity.
  Qed.

  Lemma put_each_lift : forall bs w, put_each_x dest_x bs w = lift_unit (put_each dest bs w).
  Proof.
    induction bs as [|b bs IH]; intros w; cbn [put_each_x put_each]; auto.
    rewrite Hdest. destruct (dest b w); cbn [lift_unit mapped then_ bind]; auto.
  Qed.
End Lift.

Ltac gox := cbn [exec_x eval_x then_ ended Classes.exec Classes.eval read write declare st_object st_locals st_world Cpp.lookup
  Cpp.update Cpp.need bind
  member_value moved into member_type number_type number truth returned set_member store_at load_at memory_of mapped fst snd
  s_dispatcher s_is_index_loaded s_load_count s_ibuf_next s_obuf_next s_obuf_bottom s_bufs List.length
  fr_bufs fr_iptr fr_bottom fr_world String.eqb Ascii.eqb Bool.eqb negb bool_value Classes.compare andb].

Section Methods.
  Variable p : platform.
  Variable sz : nat.
  Hypothesis Hp : wf_platform p.
  Hypothesis Hsz : p_int_size p <= sz <= 8.
  Context {X : Type}.
  Variable fuel : nat.
  Variable throws : Exceptions.throwing X.
  Variable src : Exceptions.esource X.
  Variable dest : Exceptions.edestination X.

  Notation eval := (eval_x p sz fuel throws src dest).
  Notation exec := (exec_x p sz fuel throws src dest).
  Notation getter0 := (getter p sz 0 (X := X) no_src no_dest).
  Notation putter0 := (putter p sz 0 (X := X) no_src no_dest).

  Definition getter_x : Exceptions.esource (state X) :=
    fun st => both st1 v <~ eval (Deref (PostIncrement (Local "ibuf_ptr"))) st;; z <- number v;; ended st1 z.

  Definition putter_x : Exceptions.edestination (state X) :=
    fun byte st =>
      both st1 o <~ exec (AssignAt ObufBegin (PostIncrement (Member m_obuf_bottom)) (Read (Local "byte")))
                      (declare "byte" (Number (CInt 1 false) byte) st);;
      ended (leave (st_locals st) st1) tt.

  Lemma getter_lift : forall st, getter_x st = lift (getter0 st).
  Proof.
    intros st. unfold getter_x, getter. cbn [eval_x Classes.eval]. destruct (read sz (Local "ibuf_ptr") st) as [v|]; cbn [bind]; auto.
    destruct (moved p true v) as [w|]; cbn [bind]; auto. destruct (write p sz _ w st) as [st1|]; cbn [bind then_ ended]; auto.
    destruct (load_at v 0 st1) as [b|]; cbn [bind then_ ended]; auto. destruct (number b); reflexivity.
  Qed.

  Lemma putter_lift : forall byte st, putter_x byte st = lift_unit (putter0 byte st).
  Proof.
    intros byte st. unfold putter_x, putter.
    change (Cpp.lookup "byte" (st_locals (declare "byte" (Number (CInt 1 false) byte) st))) with (Some (Number (CInt 1 false) byte)).
    cbn [exec_x eval_x Classes.exec Classes.eval].
    destruct (read sz (Local "byte") _) as [b|]; cbn [bind then_ ended]; auto.
    destruct (read sz (Member m_obuf_bottom) _) as [v|]; cbn [bind]; auto.
    destruct (moved p true v) as [w|]; cbn [bind]; auto. destruct (write p sz _ w _) as [st1|]; cbn [bind then_ ended]; auto.
    destruct (number v) as [n|]; cbn [bind]; auto. destruct (store_at _ n b st1); reflexivity.
  Qed.

  Lemma invoke_eq : forall (W A : Type) v (f : list val -> W -> W * A) st w,
    invoke p v f st w = args <- get_each p v (make_index_sequence14 (List.length (v_types v))) st;; Ok (f args w).
  Proof. reflexivity. Qed.

  (** The call of an action, with the frame of Buffered.v. *)
  Lemma run_embed : forall d l c i n L k (a : action X) (fr : frame X),
    let O := fun bufs j => mk_members d l c i n (Z.of_nat j) bufs in
    (forall i, Cpp.lookup "ibuf_ptr" (L i) = Some (Address InputBuffer i)) ->
    (forall i, Cpp.update "ibuf_ptr" (Address InputBuffer (S i)) (L i) = L (S i)) ->
    match Exceptions.thrown_by p throws k (framed_action a) fr with
    | Fault f => run_x p (throws_within throws) k (within_action a) getter_x putter_x (embed O L fr) = Fault f
    | Ok (Some x') =>
        exists l', run_x p (throws_within throws) k (within_action a) getter_x putter_x (embed O L fr)
                   = Ok (mk_state (O (fr_bufs fr) (fr_bottom fr)) l' x', Exceptions.Thrown)
    | Ok None =>
        run_x p (throws_within throws) k (within_action a) getter_x putter_x (embed O L fr)
        = mapped (fun w => (embed O L w, Exceptions.Returned tt)) (run p (framed_action a) ibuf_source (destination_w sz) fr)
    end.
  Proof.
    intros d l c i n L k a fr O HL1 HL2.
    assert (HG : forall y, getter0 (embed O L y) = mapped (fun q => (embed O L (fst q), snd q)) (ibuf_source y))
      by (intros y; apply getter_emb; auto; reflexivity).
    assert (HP : forall byte y, putter0 byte (embed O L y) = mapped (embed O L) (destination_w sz byte y))
      by (intros byte y; apply putter_emb; auto).
    set (m0 := match a with Storage o => o | NoStorage c => Some c end).
    assert (E1 : match framed_action a with Storage o => o | NoStorage c => Some c end
                 = option_map (fun c => mk_model (m_e c) (m_m c) (framed (m_func c))) m0)
      by (destruct a as [[[e m f]|]|[e m f]]; reflexivity).
    assert (E2 : match within_action a with Storage o => o | NoStorage c => Some c end
                 = option_map (fun c => mk_model (m_e c) (m_m c) (within (m_func c))) m0)
      by (destruct a as [[[e m f]|]|[e m f]]; reflexivity).
    assert (E3 : run p (framed_action a) ibuf_source (destination_w sz) fr
                 = match m0 with
                   | None => Ok fr
                   | Some c => call p (m_e c) (m_m c) (framed (m_func c)) ibuf_source (destination_w sz) fr
                   end) by (destruct a as [[[e m f]|]|[e m f]]; reflexivity).
    rewrite E3. unfold Exceptions.thrown_by, run_x. rewrite E1, E2. clear E1 E2 E3.
    destruct m0 as [[e m f]|]; cbn [option_map]; [|reflexivity]. cbn [m_e m_m m_func].
    change (f_sig (framed f)) with (f_sig f). change (f_sig (within f)) with (f_sig f).
    rewrite (read_tuple_lift p getter0 getter_x getter_lift).
    rewrite (read_tuple_emb p (embed O L) ibuf_source getter0 HG).
    unfold call. change (f_sig (framed f)) with (f_sig f).
    destruct (read_tuple p e m (sig_params (f_sig f)) ibuf_source fr) as [[fr1 st]|] eqn:Er;
      cbn [lift mapped then_ bind fst snd]; [|reflexivity].
    assert (Hk : exists q, fr1 = mk_frame (fr_bufs fr) q (fr_bottom fr) (fr_world fr)).
    { apply (read_tuple_inv p (frame X) (fun w => exists q, w = mk_frame (fr_bufs fr) q (fr_bottom fr) (fr_world fr))) in Er; auto.
      - intros y y' b (q & ->) Eq. unfold ibuf_source, iterator_source in Eq. ok_inv Eq v. injection Eq as <- <-. cbn. eauto.
      - exists (fr_iptr fr). destruct fr; reflexivity. }
    destruct Hk as (q & ->). rewrite !invoke_eq. cbn [tuple_at v_types].
    destruct (get_each p _ _ st) as [args|]; cbn [bind]; [|reflexivity].
    unfold throws_within. cbn [embed fr_bufs fr_iptr fr_bottom fr_world st_object st_locals st_world].
    destruct (throws k args (fr_world fr)) as [x'|]; cbn [option_map].
    { eexists. reflexivity. }
    cbn [within framed f_call fr_bufs fr_iptr fr_bottom fr_world st_object st_locals st_world embed].
    destruct (f_call f args (fr_world fr)) as [x2 r].
    change (mk_state (O (fr_bufs fr) (fr_bottom fr)) (L q) x2) with (embed O L (mk_frame (fr_bufs fr) q (fr_bottom fr) x2)).
    destruct (sig_ret (f_sig f)) as [t|]; cbn [bind mapped]; [|reflexivity].
    unfold insert, write_tuple. destruct (construct p e m [t] [r] _) as [rt|]; cbn [bind mapped]; auto.
    destruct (content _ rt) as [bs|]; cbn [bind mapped]; auto.
    rewrite (put_each_lift putter0 putter_x putter_lift), (put_each_emb (embed O L) (destination_w sz) putter0 HP).
    destruct (put_each (destination_w sz) bs _); reflexivity.
  Qed.

  (** ** Statements *)

  Lemma next_x : forall a c st st1, exec a st = ended st1 Next -> exec (a;;; c) st = exec c st1.
  Proof. intros a c st st1 E. cbn [exec_x]. rewrite E. reflexivity. Qed.

  Lemma fault_x : forall a c st f, exec a st = Fault f -> exec (a;;; c) st = Fault f.
  Proof. intros a c st f E. cbn [exec_x]. rewrite E. reflexivity. Qed.

  Lemma thrown_x : forall a c st st1, exec a st = Ok (st1, Exceptions.Thrown) ->
    exec (a;;; c) st = Ok (st1, Exceptions.Thrown).
  Proof. intros a c st st1 E. cbn [exec_x]. rewrite E. reflexivity. Qed.

  Lemma return_x : forall a c st st1 v, exec a st = ended st1 (Returned v) -> exec (a;;; c) st = ended st1 (Returned v).
  Proof. intros a c st st1 v E. cbn [exec_x]. rewrite E. reflexivity. Qed.

  Lemma if_x : forall c a a' st st1 v b, eval c st = ended st1 v -> truth v = Ok b ->
    exec (If c a a') st = if b then exec a st1 else exec a' st1.
  Proof.
    intros c a a' st st1 v b E1 E2.
    change (exec (If c a a') st) with (both st1 v <~ eval c st;; b <- truth v;; if b then exec a st1 else exec a' st1).
    rewrite E1. cbn [ended then_ bind]. rewrite E2. reflexivity.
  Qed.

  Lemma index_x : forall st,
    exec (Auto "index" (GetIndex (Deref (PostIncrement (Local "ibuf_ptr"))))) st
    = '(st1, i) <- get_index p (within_dispatcher (s_dispatcher (st_object st))) getter0 st;;
      ended (declare "index" (Number (CInt (index_length (s_dispatcher (st_object st))) false) (Z.of_nat i)) st1) Next.
  Proof.
    intros st.
    change (exec (Auto "index" (GetIndex (Deref (PostIncrement (Local "ibuf_ptr"))))) st) with
      (both st1 v <~ (both st1 index <~ get_index_x p (within_dispatcher (s_dispatcher (st_object st))) getter_x st;;
                      ended st1 (Number (CInt (index_length (s_dispatcher (st_object st))) false) (Z.of_nat index)));;
       ended (declare "index" v st1) Next).
    rewrite (get_index_lift p getter0 getter_x getter_lift).
    destruct (get_index p _ _ st) as [[st1 i]|]; reflexivity.
  Qed.

  Lemma action_x : forall st t i, Cpp.lookup "index" (st_locals st) = Some (Number t (Z.of_nat i)) ->
    exec (RunAction (Read (Local "index")) (Deref (PostIncrement (Local "ibuf_ptr"))) "byte"
            (AssignAt ObufBegin (PostIncrement (Member m_obuf_bottom)) (Read (Local "byte")))) st
    = a <- action_at (within_dispatcher (s_dispatcher (st_object st))) i;;
      both st2 u <~ run_x p (throws_within throws) i a getter_x putter_x st;;
      ended st2 Next.
  Proof.
    intros st t i E. change (exec (RunAction ?e ?g ?x ?s) st) with
      (both st1 v <~ eval e st;;
       j <- number v;;
       a <- action_at (within_dispatcher (s_dispatcher (st_object st1))) (Z.to_nat j);;
       both st2 u <~ run_x p (throws_within throws) (Z.to_nat j) a getter_x putter_x st1;;
       ended st2 Next).
    cbn [eval_x read]. rewrite E. cbn [Cpp.need bind number ended then_]. rewrite Nat2Z.id. reflexivity.
  Qed.

  (** ** [call] *)

  Definition seen (r : res (state X * Exceptions.outcome outcome)) : res (members X * X * Exceptions.outcome outcome) :=
    mapped (fun q => (st_object (fst q), st_world (fst q), snd q)) r.

  (** The same, from Exceptions.v. *)
  Definition shown {A : Type} (f : A -> outcome) (r : res (buffered X * X * Exceptions.outcome A))
      : res (members X * X * Exceptions.outcome outcome) :=
    mapped (fun q => (in_size_t (fst (fst q)), snd (fst q), map_outcome f (snd q))) r.

  Lemma run_small : forall (d : dispatcher X) i a w1, action_at (framed_dispatcher d) i = Ok a ->
    small sz (List.length (obuf (fr_bufs w1))) ->
    run p a ibuf_source (destination_w sz) w1 = run p a ibuf_source obuf_destination w1.
  Proof.
    intros d i a w1 Ea Hs.
    apply (run_ext p (frame X) (small_frame (List.length (obuf (fr_bufs w1)))) a ibuf_source (destination_w sz) obuf_destination w1).
    - apply source_small.
    - intros c w Hw. eapply destination_eq; eauto.
    - apply destination_small.
    - intros c args w Hc Hw. unfold action_at, framed_dispatcher in Ea. cbn [d_actions] in Ea.
      rewrite nth_error_map in Ea. destruct (nth_error (d_actions d) i) as [a'|]; [|discriminate].
      cbn [option_map] in Ea. injection Ea as <-.
      assert (exists g, m_func c = framed g) as [g ->].
      { destruct a' as [[q|]|q]; cbn in Hc; try discriminate; injection Hc as <-; cbn; eauto. }
      cbn [framed f_call]. destruct (f_call g args (fr_world w)). exact Hw.
    - reflexivity.
  Qed.

  Lemma call_exec : forall b x, small sz (List.length (obuf (b_bufs b))) ->
    seen (exec call_body (mk_state (in_size_t b) [] x)) = shown (fun _ => Next) (Exceptions.call_e p throws b x).
  Proof.
    intros [d l c i n o bufs] x Hsm. unfold call_body, Exceptions.call_e, in_size_t.
    cbn [b_dispatcher b_bufs b_is_index_loaded b_load_count b_ibuf_next b_obuf_next b_obuf_bottom] in *.
    erewrite next_x by (gox; rewrite (convert_0 p sz Hp Hsz); gox; reflexivity).
    erewrite next_x by (gox; rewrite (convert_0 p sz Hp Hsz); gox; reflexivity).
    erewrite next_x by (gox; reflexivity).
    set (O := fun bufs k => mk_members d l (Z.of_nat c) (Z.of_nat i) 0 (Z.of_nat k) bufs).
    set (L := fun i => [("ibuf_ptr", Address InputBuffer i)]).
    change (declare "ibuf_ptr" (Address InputBuffer 0) (mk_state (mk_members d l (Z.of_nat c) (Z.of_nat i) 0 0 bufs) [] x))
      with (embed O L (mk_frame bufs 0 0 x)).
    pose proof (index_x (embed O L (mk_frame bufs 0 0 x))) as E1.
    change (s_dispatcher (st_object (embed O L (mk_frame bufs 0 0 x)))) with d in E1.
    rewrite get_index_getter in E1 by reflexivity.
    destruct (get_index p (framed_dispatcher d) ibuf_source (mk_frame bufs 0 0 x)) as [[fr1 j]|f] eqn:Ej;
      cbn [bind mapped fst snd] in *; [|rewrite (fault_x _ _ _ f) by exact E1; reflexivity].
    erewrite next_x by exact E1. clear E1.
    destruct (get_index_frame_keeps _ _ _ _ _ _ Ej) as (q & ->). cbn [fr_bufs fr_bottom fr_world]. clear Ej.
    set (L' := fun i => ("index", Number (CInt (index_length d) false) (Z.of_nat j)) :: L i).
    change (declare "index" (Number (CInt (index_length d) false) (Z.of_nat j)) (embed O L (mk_frame bufs q 0 x)))
      with (embed O L' (mk_frame bufs q 0 x)).
    pose proof (action_x (embed O L' (mk_frame bufs q 0 x)) _ j eq_refl) as E1.
    change (s_dispatcher (st_object (embed O L' (mk_frame bufs q 0 x)))) with d in E1.
    pose proof (run_small d j) as Hrun.
    unfold within_dispatcher, framed_dispatcher in *. rewrite action_at_map in *.
    destruct (nth_error (d_actions d) j) as [a|]; cbn [bind mapped fst snd] in *;
      [|rewrite (fault_x _ _ _ OutOfBounds) by exact E1; reflexivity].
    pose proof (run_embed d l (Z.of_nat c) (Z.of_nat i) 0%Z L' j a (mk_frame bufs q 0 x)) as R. cbv zeta in R. fold O in R.
    specialize (R (fun _ => eq_refl) (fun _ => eq_refl)).
    destruct (Exceptions.thrown_by p throws j (framed_action a) (mk_frame bufs q 0 x)) as [[x'|]|f]; cbn [bind].
    - destruct R as (l' & R). rewrite R in E1. cbn [then_ bind] in E1. erewrite thrown_x by exact E1. reflexivity.
    - rewrite R in E1. clear R. rewrite <- (Hrun (framed_action a)) by auto.
      destruct (run p (framed_action a) ibuf_source (destination_w sz) (mk_frame bufs q 0 x)) as [fr2|f]; cbn [bind mapped then_] in *.
      + erewrite next_x by exact E1. unfold embed, O. gox. rewrite !convert_same. gox. rewrite (convert_0 p sz Hp Hsz).
        reflexivity.
      + rewrite (fault_x _ _ _ f) by exact E1. reflexivity.
    - rewrite R in E1. cbn [then_ bind] in E1. rewrite (fault_x _ _ _ f) by exact E1. reflexivity.
  Qed.

  Lemma method_x : forall T body st, eval (Method T body) st
    = both st1 o <~ exec body (mk_state (st_object st) [] (st_world st));;
      v <- into p sz (st_object st1) T (returned o);;
      ended (mk_state (st_object st1) (st_locals st) (st_world st1)) v.
  Proof. reflexivity. Qed.

  Lemma call_resolved : forall b l x, small sz (List.length (obuf (b_bufs b))) ->
    seen (exec (Expr (Method TVoid call_body);;; Return (StatusLit RESOLVED_PACKET)) (mk_state (in_size_t b) l x))
    = shown (fun s => Returned (Status s)) (Exceptions.resolve p throws b x).
  Proof.
    intros b l x Hs. pose proof (call_exec b x Hs) as E.
    change (exec (Expr (Method TVoid call_body);;; Return (StatusLit RESOLVED_PACKET)) (mk_state (in_size_t b) l x)) with
      (both st1 o <~ (both st1 v <~ eval (Method TVoid call_body) (mk_state (in_size_t b) l x);; ended st1 Next);;
       match o with Next => exec (Return (StatusLit RESOLVED_PACKET)) st1 | Returned v => ended st1 (Returned v) end).
    rewrite method_x. cbn [st_object st_world st_locals]. unfold Exceptions.resolve.
    destruct (exec call_body _) as [[st1 o]|f], (Exceptions.call_e p throws b x) as [[[b' x'] o']|f'];
      unfold seen, shown in *; cbn [mapped fst snd bind into then_] in *; try discriminate.
    - injection E as E1 E2 E3. rewrite E3. destruct o' as [[]|]; cbn [map_outcome bind then_ ended mapped fst snd].
      + cbn. rewrite E1, E2. reflexivity.
      + rewrite E1, E2. reflexivity.
    - injection E as ->. reflexivity.
  Qed.

  (** ** [put] *)

  Variables (kr : keyring X) (ft : action_features) (ni no : nat).
  Hypothesis Hindex : small sz (kr_index_size kr).
  Hypothesis Hinputs : forall s a n, In s (kr_signatures kr) -> conform_action kr ft s a -> input_size a = Ok n ->
    small sz n.
  Hypothesis Hni : small sz ni.
  Hypothesis Hno : small sz no.

  (** The greatest [std::size_t]. *)
  Definition size_max : nat := Z.to_nat (sizes sz - 1).

  (** As [countable], but for [m_load_count], which is zero when the callback has
      thrown. *)
  Definition fine (b : buffered X) : Prop :=
    d_keyring (b_dispatcher b) = kr /\ d_features (b_dispatcher b) = ft /\ conform (b_dispatcher b)
    /\ List.length (ibuf (b_bufs b)) = ni /\ List.length (obuf (b_bufs b)) = no
    /\ small sz (b_load_count b).

  Lemma decremented_x : forall c, small sz c ->
    decremented sz (Z.of_nat c) = Z.of_nat (match c with O => size_max | S c => c end).
  Proof.
    intros [|c] H.
    - unfold decremented, size_max. pose proof (sizes_pos sz). rewrite Z2Nat.id by lia.
      change (Z.of_nat 0) with 0%Z. symmetry. apply Z.mod_unique with (q := (-1)%Z); lia.
    - apply decremented_nat. exact H.
  Qed.

  Lemma call_fine : forall b x b' x' o, fine b -> Exceptions.call_e p throws b x = Ok (b', x', o) -> fine b'.
  Proof.
    intros b x b' x' o (H1 & H2 & H3 & H4 & H5 & H6) E.
    destruct o as [[]|].
    - assert (Ec : call_loaded p b x = Ok (b', x')).
      { unfold Exceptions.call_e in E. unfold call_loaded. ok_inv E r. destruct r as [w1 j]. ok_inv E a. ok_inv E t.
        destruct t as [y|]; [discriminate|]. ok_inv E w2. cbn [bind].
        match type of E with Ok (?u, ?v, _) = _ => assert (Hu : u = b') by congruence; assert (Hv : v = x') by congruence end.
        rewrite <- Hu, <- Hv. rewrite E1. cbn [bind]. rewrite E3. reflexivity. }
      pose proof (call_loaded_output p b b' x x' Ec) as K6.
      destruct (call_loaded_keeps p X b b' x x' Ec) as (K1 & K2 & K3 & K4 & K5).
      unfold fine. rewrite K1, K3, K5, K6. unfold index_length. rewrite H1. auto 10.
    - unfold Exceptions.call_e in E. ok_inv E r. destruct r as [w1 j]. ok_inv E a. ok_inv E t.
      destruct t as [y|].
      + assert (Hb : b' = mk_buffered (b_dispatcher b) (b_is_index_loaded b) (b_load_count b) (b_ibuf_next b) 0 0 (b_bufs b))
          by congruence.
        rewrite Hb. unfold fine. cbn [b_dispatcher b_bufs b_load_count]. auto 10.
      + ok_inv E w2. discriminate.
  Qed.

  Lemma resolve_fine : forall b x b' x' o, fine b -> Exceptions.resolve p throws b x = Ok (b', x', o) -> fine b'.
  Proof.
    intros b x b' x' o H E. unfold Exceptions.resolve in E. ok_inv E r. destruct r as [[b1 x1] o1].
    injection E as -> _ _. eapply call_fine; eauto.
  Qed.

  Lemma put_exec : forall byte b x, fine b ->
    seen (exec put_body (mk_state (in_size_t b) [("byte", Number (CInt 1 false) byte)] x))
    = shown (fun s => Returned (Status s)) (Exceptions.put_e p size_max throws byte b x)
    /\ forall b' x' o, Exceptions.put_e p size_max throws byte b x = Ok (b', x', o) -> fine b'.
  Proof.
    intros byte [d l c i n o bufs] x (F1 & F2 & F3 & F4 & F5 & F6). unfold put_body, Exceptions.put_e, in_size_t.
    cbn [b_dispatcher b_bufs b_is_index_loaded b_load_count b_ibuf_next b_obuf_next b_obuf_bottom] in *.
    assert (E : exec (AssignAt IbufBegin (PostIncrement (Member m_ibuf_next)) (Read (Local "byte")))
                  (mk_state (mk_members d l (Z.of_nat c) (Z.of_nat i) (Z.of_nat n) (Z.of_nat o) bufs)
                     [("byte", Number (CInt 1 false) byte)] x)
                = m <- store (ibuf bufs) i byte;;
                  ended (mk_state (mk_members d l (Z.of_nat c) (incremented sz (Z.of_nat i)) (Z.of_nat n) (Z.of_nat o)
                                     (set_ibuf m bufs)) [("byte", Number (CInt 1 false) byte)] x) Next).
    { gox. rewrite common_size_int by auto. rewrite convert_same, incremented_arith. gox. rewrite convert_same. gox.
      rewrite convert_same, Nat2Z.id. cbn [Nat.add]. destruct (store (ibuf bufs) i byte); reflexivity. }
    destruct (store (ibuf bufs) i byte) as [m|f] eqn:Es; cbn [bind mapped] in *;
      [|rewrite (fault_x _ _ _ f) by exact E; split; [reflexivity|discriminate]].
    pose proof (store_length _ _ _ _ Es) as Hl. apply store_inv in Es.
    rewrite incremented_nat in E by (unfold small in *; lia).
    assert (Hi : List.length (ibuf (set_ibuf m bufs)) = ni) by (rewrite ibuf_set_ibuf; lia).
    assert (Ho : List.length (obuf (set_ibuf m bufs)) = no) by (destruct bufs; cbn in *; lia).
    erewrite next_x by exact E. clear E. cbv zeta.
    set (bufs1 := set_ibuf m bufs) in *. set (i1 := S i).
    set (c1 := match c with O => size_max | S c => c end).
    set (args := [("byte", Number (CInt 1 false) byte)]).
    assert (Hc1 : small sz c1).
    { unfold c1, small in *. destruct c; [|lia]. unfold size_max. pose proof (sizes_pos sz). lia. }
    assert (E : eval (Compare Greater (PreDecrement (Member m_load_count)) (IntLit 0))
                  (mk_state (mk_members d l (Z.of_nat c) (Z.of_nat i1) (Z.of_nat n) (Z.of_nat o) bufs1) args x)
                = ended (mk_state (mk_members d l (Z.of_nat c1) (Z.of_nat i1) (Z.of_nat n) (Z.of_nat o) bufs1) args x)
                    (bool_value (0 <? c1))).
    { gox. rewrite common_size_int by auto. rewrite convert_same, decremented_arith. gox. rewrite !convert_same. gox.
      rewrite common_size_int by auto. rewrite (convert_0 p sz Hp Hsz), convert_same, decremented_x by auto. fold c1.
      replace (0 <? Z.of_nat c1)%Z with (0 <? c1) by (destruct (Nat.ltb_spec 0 c1); lia). reflexivity. }
    pose proof (if_x _ (Return (StatusLit LOADING_PACKET)) Skip _ _ _ _ E (truth_bool _)) as E1. clear E.
    destruct (0 <? c1).
    { erewrite return_x by exact E1. split; [reflexivity|]. intros b' x' o' Eq. injection Eq as <- _ _.
      unfold fine. cbn [b_dispatcher b_bufs b_load_count]. auto 10. }
    erewrite next_x by exact E1. clear E1.
    erewrite if_x; [|reflexivity|apply truth_bool]. cbn [s_is_index_loaded st_object].
    destruct l; cbn iota.
    { set (b1 := mk_buffered d true c1 i1 n o bufs1).
      change (mk_members d true (Z.of_nat c1) (Z.of_nat i1) (Z.of_nat n) (Z.of_nat o) bufs1) with (in_size_t b1).
      rewrite call_resolved by (cbn [b1 b_bufs]; rewrite Ho; exact Hno). split; [reflexivity|].
      intros b' x' o' Eq. eapply resolve_fine; [|exact Eq]. unfold fine, b1. cbn [b_dispatcher b_bufs b_load_count]. auto 10. }
    erewrite next_x by (gox; reflexivity).
    set (O := fun bufs (k : nat) => mk_members d false (Z.of_nat c1) (Z.of_nat i1) (Z.of_nat n) (Z.of_nat o) bufs).
    set (L := fun i => ("ibuf_ptr", Address InputBuffer i) :: args).
    change (declare "ibuf_ptr" (Address InputBuffer 0)
              (mk_state (mk_members d false (Z.of_nat c1) (Z.of_nat i1) (Z.of_nat n) (Z.of_nat o) bufs1) args x))
      with (embed O L (mk_frame bufs1 0 0 x)).
    pose proof (index_x (embed O L (mk_frame bufs1 0 0 x))) as E1.
    change (s_dispatcher (st_object (embed O L (mk_frame bufs1 0 0 x)))) with d in E1.
    rewrite get_index_getter in E1 by reflexivity.
    destruct (get_index p (framed_dispatcher d) ibuf_source (mk_frame bufs1 0 0 x)) as [[fr1 j]|f] eqn:Ej;
      cbn [bind mapped fst snd] in *; [|rewrite (fault_x _ _ _ f) by exact E1; split; [reflexivity|discriminate]].
    erewrite next_x by exact E1. clear E1.
    destruct (get_index_frame_keeps _ _ _ _ _ _ Ej) as (q & ->). cbn [fr_bufs fr_bottom fr_world].
    apply get_index_range in Ej. unfold framed_dispatcher in Ej. cbn [d_keyring] in Ej. rewrite index_size_map in Ej.
    fold (index_length d) in Ej.
    set (L' := ("index", Number (CInt (index_length d) false) (Z.of_nat j)) :: L q).
    change (declare "index" (Number (CInt (index_length d) false) (Z.of_nat j)) (embed O L (mk_frame bufs1 q 0 x)))
      with (mk_state (mk_members d false (Z.of_nat c1) (Z.of_nat i1) (Z.of_nat n) (Z.of_nat o) bufs1) L' x).
    assert (E : eval (Compare Less (Read (Local "index")) DispatcherSize)
                  (mk_state (mk_members d false (Z.of_nat c1) (Z.of_nat i1) (Z.of_nat n) (Z.of_nat o) bufs1) L' x)
                = ended (mk_state (mk_members d false (Z.of_nat c1) (Z.of_nat i1) (Z.of_nat n) (Z.of_nat o) bufs1) L' x)
                    (bool_value (j <? d_size d))).
    { unfold L'. gox. pose proof (index_length_range X d). pose proof (d_size_range p sz Hsz d).
      rewrite !(convert_index p sz) by (auto; lia). unfold bool_value.
      replace (Z.of_nat j <? Z.of_nat (d_size d))%Z with (j <? d_size d) by (destruct (Nat.ltb_spec j (d_size d)); lia).
      reflexivity. }
    erewrite if_x; [|exact E|apply truth_bool]. clear E.
    destruct (j <? d_size d); cbn iota.
    - assert (E : exec (Assign (Member m_load_count) (InputSize (Read (Local "index"))))
                    (mk_state (mk_members d false (Z.of_nat c1) (Z.of_nat i1) (Z.of_nat n) (Z.of_nat o) bufs1) L' x)
                  = a <- action_at d j;; k <- input_size_w sz a;;
                    ended (mk_state (mk_members d false k (Z.of_nat i1) (Z.of_nat n) (Z.of_nat o) bufs1) L' x) Next).
      { unfold L'. gox. rewrite Nat2Z.id. destruct (action_at d j) as [a|]; gox; auto. destruct (input_size_w sz a) as [k|]; gox; auto.
        rewrite convert_same. reflexivity. }
      destruct (action_at d j) as [a|f] eqn:Ea; cbn [bind mapped] in *;
        [|rewrite (fault_x _ _ _ f) by exact E; split; [reflexivity|discriminate]].
      unfold input_size_w in E.
      destruct (input_size a) as [k|f] eqn:En; cbn [bind mapped] in *;
        [|rewrite (fault_x _ _ _ f) by exact E; split; [reflexivity|discriminate]].
      assert (Hk : small sz k).
      { unfold action_at in Ea. destruct (nth_error (d_actions d) j) as [a0|] eqn:Eai; [|discriminate].
        injection Ea as ->.
        assert (Hj : j < List.length (kr_signatures (d_keyring d))).
        { assert (j < List.length (d_actions d)) by (apply nth_error_Some; congruence).
          apply Forall2_length in F3. rewrite F3. auto. }
        destruct (nth_error (kr_signatures (d_keyring d)) j) as [s|] eqn:Esi; [|apply nth_error_None in Esi; lia].
        pose proof (Forall2_nth2 _ _ _ _ _ j _ _ F3 Esi Eai) as Hca. rewrite F1, F2 in Hca. rewrite F1 in Esi.
        eapply (Hinputs s a k); eauto. eapply nth_error_In; eauto. }
      rewrite Z.mod_small in E by (unfold small in Hk; lia).
      erewrite next_x by exact E. clear E.
      erewrite next_x by (gox; rewrite convert_same; reflexivity). change (negb (1 =? 0)%Z) with true.
      erewrite if_x with (b := k =? 0).
      2:{ gox. rewrite common_size_int by auto. rewrite (convert_0 p sz Hp Hsz), convert_same.
          replace (Z.of_nat k =? 0)%Z with (k =? 0) by (destruct (Nat.eqb_spec k 0); lia). reflexivity. }
      2:{ apply truth_bool. }
      destruct (k =? 0); cbn iota.
      + set (b1 := mk_buffered d true k i1 n o bufs1).
        cbn [st_object st_world set_member]. change (negb (1 =? 0)%Z) with true.
        change (mk_members d true (Z.of_nat k) (Z.of_nat i1) (Z.of_nat n) (Z.of_nat o) bufs1) with (in_size_t b1).
        rewrite call_resolved by (cbn [b1 b_bufs]; rewrite Ho; exact Hno). split; [reflexivity|].
        intros b' x' o' Eq. eapply resolve_fine; [|exact Eq]. unfold fine, b1. cbn [b_dispatcher b_bufs b_load_count]. auto 10.
      + split; [reflexivity|]. intros b' x' o' Eq. injection Eq as <- _ _.
        unfold fine. cbn [b_dispatcher b_bufs b_load_count]. auto 10.
    - split.
      + unfold seen. gox. rewrite convert_same, (convert_0 p sz Hp Hsz). reflexivity.
      + intros b' x' o' Eq. injection Eq as <- _ _. unfold fine, index_length. cbn [b_dispatcher b_bufs b_load_count].
        rewrite F1. auto 10.
  Qed.

  (** ** [is_loaded], [get], [write_to] *)

  Lemma is_loaded_exec : forall b l x, exec is_loaded_body (mk_state (in_size_t b) l x)
    = ended (mk_state (in_size_t b) l x) (Returned (bool_value (is_loaded b))).
  Proof.
    intros b l x. replace (is_loaded b) with (is_loaded_w (in_size_t b)).
    2:{ unfold is_loaded_w, is_loaded, in_size_t. cbn. f_equal. lia. }
    unfold is_loaded_body, is_loaded_w. gox.
    rewrite (common_size p sz Hsz), !convert_same by auto. reflexivity.
  Qed.

  Lemma is_loaded_x : forall b l x, eval (Method TBool is_loaded_body) (mk_state (in_size_t b) l x)
    = ended (mk_state (in_size_t b) l x) (bool_value (is_loaded b)).
  Proof.
    intros b l x. rewrite method_x. cbn [st_object st_world st_locals]. rewrite is_loaded_exec. unfold bool_value. gox.
    rewrite convert_same. reflexivity.
  Qed.

  Lemma get_exec : forall b x, fine b -> exec get_body (mk_state (in_size_t b) [] x)
    = mapped (fun q => (mk_state (in_size_t (fst q)) [] x, Exceptions.Returned (Returned (Number (CInt 1 false) (snd q))))) (get_byte b).
  Proof.
    intros b x (F1 & F2 & F3 & F4 & F5 & F6). unfold get_body, get_byte.
    change (exec (Return (Cond ?c ?a ?a')) ?st) with
      (both st1 v <~ (both st1 v <~ eval c st;; b <- truth v;; if b then eval a st1 else eval a' st1);; ended st1 (Returned v)).
    rewrite is_loaded_x. cbn [bind then_ ended]. rewrite truth_bool. cbn [bind st_object].
    destruct (is_loaded b); [|reflexivity]. destruct b as [d l c i n o bufs]. unfold in_size_t.
    cbn [b_dispatcher b_bufs b_is_index_loaded b_load_count b_ibuf_next b_obuf_next b_obuf_bottom] in *. gox.
    rewrite (common_size_int p sz Hsz), convert_same, incremented_arith by auto. gox. rewrite convert_same. gox.
    cbn [Nat.add]. rewrite Nat2Z.id. destruct (load (obuf bufs) n) as [z|] eqn:E; [|reflexivity]. apply load_inv in E.
    rewrite incremented_nat by (unfold small in *; lia). reflexivity.
  Qed.

  Lemma get_x : forall b l x, fine b -> eval (Method TByte get_body) (mk_state (in_size_t b) l x)
    = mapped (fun q => (mk_state (in_size_t (fst q)) l x, Exceptions.Returned (Number (CInt 1 false) (snd q)))) (get_byte b).
  Proof.
    intros b l x F. rewrite method_x. cbn [st_object st_world st_locals]. rewrite get_exec by auto.
    destruct (get_byte b) as [[b' z]|f]; gox; auto.
  Qed.

  Lemma get_fine : forall b b' z, fine b -> get_byte b = Ok (b', z) -> fine b'.
  Proof.
    intros b b' z F E. unfold get_byte in E. destruct (is_loaded b).
    - ok_inv E c. injection E as <- _. exact F.
    - injection E as <- _. exact F.
  Qed.

  Definition turns (c : expr) (body : stmt) : nat -> state X -> res (state X * Exceptions.outcome outcome) :=
    fix loop (n : nat) (st : state X) : res (state X * Exceptions.outcome outcome) :=
      both st1 v <~ eval c st;;
      b <- truth v;;
      if b then
        match n with
        | O => Fault OutOfFuel
        | S n' =>
            both st2 o <~ exec body st1;;
            match o with
            | Next => loop n' st2
            | Returned v => ended st2 (Returned v)
            end
        end
      else ended st1 Next.

  Lemma turns_eq : forall c body n st, turns c body n st
    = both st1 v <~ eval c st;;
      b <- truth v;;
      if b then
        match n with
        | O => Fault OutOfFuel
        | S n' =>
            both st2 o <~ exec body st1;;
            match o with
            | Next => turns c body n' st2
            | Returned v => ended st2 (Returned v)
            end
        end
      else ended st1 Next.
  Proof. intros c body [|n] st; reflexivity. Qed.

  Lemma while_x : forall c body st, exec (While c body) st = turns c body fuel st.
  Proof. reflexivity. Qed.

  Lemma write_turns : forall n b l x, fine b ->
    turns (Method TBool is_loaded_body) (CallDest (Method TByte get_body)) n (mk_state (in_size_t b) l x)
    = mapped (fun q => (mk_state (in_size_t (fst (fst q))) l (snd (fst q)), map_outcome (fun _ => Next) (snd q)))
        (Exceptions.write_loop_e n dest b x)
    /\ forall b' x' o, Exceptions.write_loop_e n dest b x = Ok (b', x', o) -> fine b'.
  Proof.
    induction n as [|n IH]; intros b l x F; rewrite turns_eq; cbn [Exceptions.write_loop_e]; rewrite is_loaded_x;
      cbn [bind then_ ended]; rewrite truth_bool; cbn [bind];
      (destruct (is_loaded b); [|split; [reflexivity|intros b' x' o E; injection E as <- _ _; exact F]]).
    - split; [reflexivity|discriminate].
    - change (exec (CallDest ?e) ?st) with
        (both st1 v <~ eval e st;;
         byte <- number v;;
         '(x, o) <- dest byte (st_world st1);;
         Ok (mk_state (st_object st1) (st_locals st1) x,
             match o with
             | Exceptions.Returned _ => Exceptions.Returned Next
             | Exceptions.Thrown => Exceptions.Thrown
             end)).
      rewrite get_x by auto. pose proof (get_fine b) as G.
      destruct (get_byte b) as [[b' byte]|f]; gox; [|split; [auto|discriminate]].
      specialize (G b' byte F eq_refl).
      destruct (dest byte x) as [[x' [[]|]]|f]; gox; [|split; [reflexivity|]|split; [auto|discriminate]].
      + apply IH. exact G.
      + intros b2 x2 o E. injection E as <- _ _. exact G.
  Qed.

  Lemma write_loop_fuel : forall n fuel (b : buffered X) (x : X), List.length (obuf (b_bufs b)) - b_obuf_next b < n -> n <= fuel ->
    Exceptions.write_loop_e fuel dest b x = Exceptions.write_loop_e n dest b x.
  Proof.
    induction n as [|n IH]; intros fuel' b x H1 H2; [lia|]. destruct fuel' as [|fuel']; [lia|].
    cbn [Exceptions.write_loop_e]. unfold get_byte. destruct (is_loaded b); auto.
    destruct (load (obuf (b_bufs b)) (b_obuf_next b)) as [z|] eqn:E; cbn [bind]; auto. apply load_inv in E.
    destruct (dest z x) as [[x' [[]|]]|]; cbn [bind]; auto. apply IH; cbn [b_bufs b_obuf_next]; lia.
  Qed.

  Hypothesis Hfuel_i : ni < fuel.
  Hypothesis Hfuel_o : no < fuel.

  Lemma write_to_exec : forall b x, fine b ->
    exec write_to_body (mk_state (in_size_t b) [] x)
    = mapped (fun q => (mk_state (in_size_t (fst (fst q))) [] (snd (fst q)), map_outcome (fun _ => Next) (snd q)))
        (Exceptions.write_to_e dest b x)
    /\ forall b' x' o, Exceptions.write_to_e dest b x = Ok (b', x', o) -> fine b'.
  Proof.
    intros b x F. pose proof (write_turns fuel b [] x F) as [E G]. unfold write_to_body, Exceptions.write_to_e.
    pose proof F as (_ & _ & _ & _ & F5 & _).
    rewrite (write_loop_fuel (S (List.length (obuf (b_bufs b)))) fuel b x) in * by lia.
    rewrite while_x. auto.
  Qed.

  (** ** [read_from] *)

  (** What a statement of [read_from] leaves, the status being in its local
      variable. *)
  Definition leaves (r : res (state X * Exceptions.outcome outcome)) (q : res (buffered X * X * Exceptions.outcome packet_status))
      : Prop :=
    match q with
    | Fault f => r = Fault f
    | Ok (b', x', Exceptions.Returned s) => r = ended (mk_state (in_size_t b') [("status", Status s)] x') Next
    | Ok (b', x', Exceptions.Thrown) => exists l, r = Ok (mk_state (in_size_t b') l x', Exceptions.Thrown)
    end.

  Definition one_byte (b : buffered X) (x : X) : res (buffered X * X * Exceptions.outcome packet_status) :=
    '(x1, o) <- src x;;
    match o with
    | Exceptions.Thrown => Ok (b, x1, Exceptions.Thrown)
    | Exceptions.Returned byte => Exceptions.put_e p size_max throws byte b x1
    end.

  Lemma one_byte_fine : forall b x b' x' o, fine b -> one_byte b x = Ok (b', x', o) -> fine b'.
  Proof.
    intros b x b' x' o F E. unfold one_byte in E. ok_inv E r. destruct r as [x1 [byte|]].
    - eapply put_exec; eauto.
    - injection E as <- _ _. exact F.
  Qed.

  Lemma assign_put : forall b x s, fine b ->
    leaves (exec (Assign (Local "status") put_src) (mk_state (in_size_t b) [("status", Status s)] x)) (one_byte b x).
  Proof.
    intros b x s F. unfold one_byte, leaves.
    change (exec (Assign ?l put_src) ?st) with (both st1 v <~ eval put_src st;; st2 <- write p sz l v st1;; ended st2 Next).
    unfold put_src. change (eval (Method1 TStatus TByte "byte" put_body CallSrc) ?st) with
      (both st0 w <~ ('(x, o) <- src (st_world st);;
                      Ok (mk_state (st_object st) (st_locals st) x,
                          match o with
                          | Exceptions.Returned byte => Exceptions.Returned (Number (CInt 1 false) byte)
                          | Exceptions.Thrown => Exceptions.Thrown
                          end));;
       w' <- into p sz (st_object st0) TByte w;;
       both st1 o <~ exec put_body (mk_state (st_object st0) [("byte", w')] (st_world st0));;
       v <- into p sz (st_object st1) TStatus (returned o);;
       ended (mk_state (st_object st1) (st_locals st0) (st_world st1)) v).
    cbn [st_world st_object st_locals].
    destruct (src x) as [[x1 [byte|]]|f]; cbn [bind then_ st_world st_object st_locals]; [| |reflexivity].
    2:{ eexists. reflexivity. }
    cbn [into number_type bind]. rewrite convert_same.
    destruct (put_exec byte b x1 F) as [E _]. unfold seen, shown in E.
    destruct (exec put_body _) as [[st1 o]|f], (Exceptions.put_e p size_max throws byte b x1) as [[[b' x'] o']|f'];
      cbn [mapped fst snd bind then_] in *; try discriminate.
    - injection E as E1 E2 E3. rewrite E3. destruct st1 as [ob lo wo]. cbn [st_object st_locals st_world] in *. subst ob wo.
      destruct o' as [s'|]; cbn [map_outcome then_ bind].
      + reflexivity.
      + eexists. reflexivity.
    - injection E as ->. reflexivity.
  Qed.

  Lemma index_turns : forall n b x s, fine b ->
    leaves (turns (And (Not (Read (Member m_is_index_loaded))) (Compare Equal (Read (Local "status")) (StatusLit LOADING_PACKET)))
              (Assign (Local "status") put_src) n (mk_state (in_size_t b) [("status", Status s)] x))
      (Exceptions.read_index_e p size_max throws n src b x s)
    /\ forall b' x' o, Exceptions.read_index_e p size_max throws n src b x s = Ok (b', x', o) -> fine b'.
  Proof.
    assert (C : forall b x s,
      eval (And (Not (Read (Member m_is_index_loaded))) (Compare Equal (Read (Local "status")) (StatusLit LOADING_PACKET)))
        (mk_state (in_size_t b) [("status", Status s)] x)
      = ended (mk_state (in_size_t b) [("status", Status s)] x) (bool_value (negb (b_is_index_loaded b) && is_loading s))).
    { intros [d [|] c i n o bufs] x [| |]; reflexivity. }
    induction n as [|n IH]; intros b x s F; rewrite turns_eq; cbn [Exceptions.read_index_e]; rewrite C; cbn [bind then_ ended];
      rewrite truth_bool; cbn [bind];
      (destruct (negb (b_is_index_loaded b) && is_loading s);
        [|split; [reflexivity|intros b' x' o E; injection E as <- _ _; exact F]]).
    - split; [reflexivity|discriminate].
    - pose proof (assign_put b x s F) as A. pose proof (one_byte_fine b x) as G. unfold leaves, one_byte in *.
      destruct (src x) as [[x1 [byte|]]|f]; cbn [bind] in *.
      + destruct (Exceptions.put_e p size_max throws byte b x1) as [[[b' x'] [s'|]]|f]; cbn [bind].
        * rewrite A. cbn [then_ ended bind]. apply IH. eauto.
        * destruct A as (l & A). rewrite A. split; [eexists; reflexivity|].
          intros b2 x2 o2 E. injection E as <- _ _. eauto.
        * rewrite A. split; [reflexivity|discriminate].
      + destruct A as (l & A). rewrite A. split; [eexists; reflexivity|].
        intros b2 x2 o2 E. injection E as <- _ _. exact F.
      + rewrite A. split; [reflexivity|discriminate].
  Qed.

  Lemma payload_turns : forall n b x s, fine b ->
    leaves (turns (Read (Member m_is_index_loaded)) (Assign (Local "status") put_src) n
              (mk_state (in_size_t b) [("status", Status s)] x))
      (Exceptions.read_payload_e p size_max throws n src b x s)
    /\ forall b' x' o, Exceptions.read_payload_e p size_max throws n src b x s = Ok (b', x', o) -> fine b'.
  Proof.
    assert (C : forall b x s,
      eval (Read (Member m_is_index_loaded)) (mk_state (in_size_t b) [("status", Status s)] x)
      = ended (mk_state (in_size_t b) [("status", Status s)] x) (bool_value (b_is_index_loaded b))) by reflexivity.
    induction n as [|n IH]; intros b x s F; rewrite turns_eq; cbn [Exceptions.read_payload_e]; rewrite C; cbn [bind then_ ended];
      rewrite truth_bool; cbn [bind];
      (destruct (b_is_index_loaded b);
        [|split; [reflexivity|intros b' x' o E; injection E as <- _ _; exact F]]).
    - split; [reflexivity|discriminate].
    - pose proof (assign_put b x s F) as A. pose proof (one_byte_fine b x) as G. unfold leaves, one_byte in *.
      destruct (src x) as [[x1 [byte|]]|f]; cbn [bind] in *.
      + destruct (Exceptions.put_e p size_max throws byte b x1) as [[[b' x'] [s'|]]|f]; cbn [bind].
        * rewrite A. cbn [then_ ended bind]. apply IH. eauto.
        * destruct A as (l & A). rewrite A. split; [eexists; reflexivity|].
          intros b2 x2 o2 E. injection E as <- _ _. eauto.
        * rewrite A. split; [reflexivity|discriminate].
      + destruct A as (l & A). rewrite A. split; [eexists; reflexivity|].
        intros b2 x2 o2 E. injection E as <- _ _. exact F.
      + rewrite A. split; [reflexivity|discriminate].
  Qed.

  Lemma read_from_exec : forall b x, fine b ->
    seen (exec read_from_body (mk_state (in_size_t b) [] x))
    = shown (fun s => Returned (Status s)) (Exceptions.read_from_e p size_max throws src b x)
    /\ forall b' x' o, Exceptions.read_from_e p size_max throws src b x = Ok (b', x', o) -> fine b'.
  Proof.
    intros b x F. unfold read_from_body, Exceptions.read_from_e. pose proof F as (_ & _ & _ & F4 & _).
    rewrite <- (PropertiesExceptions.read_index_e_fuel p size_max throws src (S (List.length (ibuf (b_bufs b)))) fuel) by lia.
    erewrite next_x by (gox; reflexivity).
    destruct (index_turns fuel b x LOADING_PACKET F) as [E G]. rewrite <- while_x in E. unfold leaves in E.
    change (declare "status" (Status LOADING_PACKET) (mk_state (in_size_t b) [] x))
      with (mk_state (in_size_t b) [("status", Status LOADING_PACKET)] x).
    destruct (Exceptions.read_index_e p size_max throws fuel src b x LOADING_PACKET) as [[[b1 x1] [s1|]]|f]; cbn [bind].
    - specialize (G b1 x1 _ eq_refl). pose proof G as (_ & _ & _ & G4 & _).
      rewrite <- (PropertiesExceptions.read_payload_e_fuel p size_max throws src (S (List.length (ibuf (b_bufs b)))) fuel) by lia.
      erewrite next_x by exact E. clear E.
      destruct (payload_turns fuel b1 x1 s1 G) as [E G']. rewrite <- while_x in E. unfold leaves in E.
      split; [|exact G'].
      destruct (Exceptions.read_payload_e p size_max throws fuel src b1 x1 s1) as [[[b2 x2] [s2|]]|f].
      + erewrite next_x by exact E. reflexivity.
      + destruct E as (l & E). erewrite thrown_x by exact E. reflexivity.
      + erewrite fault_x by exact E. reflexivity.
    - destruct E as (l & E). erewrite thrown_x by exact E. split; [reflexivity|].
      intros b2 x2 o2 Eq. injection Eq as <- _ _. eauto.
    - erewrite fault_x by exact E. split; [reflexivity|discriminate].
  Qed.

  (** ** [operator()] *)

  Lemma process_exec : forall b x, fine b ->
    seen (exec process_body (mk_state (in_size_t b) [] x))
    = shown (fun s => Returned (Status s)) (process_e p throws size_max src dest b x)
    /\ forall b' x' o, process_e p throws size_max src dest b x = Ok (b', x', o) -> fine b'.
  Proof.
    intros b x F. unfold process_body, process_e. destruct (read_from_exec b x F) as [R G].
    assert (E : exec (Auto "status" (Method TStatus read_from_body)) (mk_state (in_size_t b) [] x)
                = both st1 o <~ exec read_from_body (mk_state (in_size_t b) [] x);;
                  v <- into p sz (st_object st1) TStatus (returned o);;
                  ended (mk_state (st_object st1) [("status", v)] (st_world st1)) Next).
    { change (exec (Auto ?y ?e) ?st) with (both st1 v <~ eval e st;; ended (declare y v st1) Next).
      rewrite method_x. cbn [st_object st_world st_locals].
      destruct (exec read_from_body (mk_state (in_size_t b) [] x)) as [[st1 [o|]]|f]; auto.
      cbn [bind then_]. destruct (into p sz (st_object st1) TStatus (returned o)); reflexivity. }
    unfold seen, shown in R.
    destruct (exec read_from_body (mk_state (in_size_t b) [] x)) as [[st1 o]|f],
      (Exceptions.read_from_e p size_max throws src b x) as [[[b1 x1] o1]|f'];
      cbn [mapped fst snd bind then_] in *; try discriminate.
    2:{ injection R as ->. erewrite fault_x by exact E. split; [reflexivity|discriminate]. }
    injection R as R1 R2 R3. specialize (G b1 x1 o1 eq_refl). rewrite R3 in E.
    destruct o1 as [s1|]; cbn [map_outcome then_ bind returned into] in E.
    2:{ erewrite thrown_x by exact E. unfold seen, shown. cbn [mapped fst snd map_outcome]. rewrite R1, R2. split; [reflexivity|].
        intros b' x' o' Eq. injection Eq as <- _ _. exact G. }
    rewrite R1, R2 in E. erewrite next_x by exact E. clear E R1 R2 R3 st1 o.
    assert (C : eval (Compare Equal (Read (Local "status")) (StatusLit RESOLVED_PACKET)) (mk_state (in_size_t b1) [("status", Status s1)] x1)
                = ended (mk_state (in_size_t b1) [("status", Status s1)] x1)
                        (bool_value match s1 with RESOLVED_PACKET => true | _ => false end)) by (destruct s1; reflexivity).
    pose proof (if_x _ (Expr (Method TVoid write_to_body)) Skip _ _ _ _ C (truth_bool _)) as E. clear C.
    change (exec (Expr ?e) ?st) with (both st1 v <~ eval e st;; ended st1 Next) in E. rewrite method_x in E.
    cbn [st_object st_world st_locals] in E. destruct (write_to_exec b1 x1 G) as [W G']. rewrite W in E. clear W.
    destruct s1; cbn iota in E.
    1, 2: erewrite next_x by exact E; split; [reflexivity|]; intros b' x' o' Eq; injection Eq as <- _ _; exact G.
    destruct (Exceptions.write_to_e dest b1 x1) as [[[b2 x2] o2]|f]; cbn [bind mapped fst snd] in *.
    - specialize (G' b2 x2 o2 eq_refl). destruct o2 as [[]|]; cbn [map_outcome then_ bind] in E.
      + erewrite next_x by exact E. split; [reflexivity|]. intros b' x' o' Eq. injection Eq as <- _ _. exact G'.
      + erewrite thrown_x by exact E. split; [reflexivity|]. intros b' x' o' Eq. injection Eq as <- _ _. exact G'.
    - erewrite fault_x by exact E. split; [reflexivity|discriminate].
  Qed.
End Methods.

(** ** Histories *)

Section Steps.
  Variable p : platform.
  Variable sz : nat.
  Hypothesis Hp : wf_platform p.
  Hypothesis Hsz : p_int_size p <= sz <= 8.
  Context {X : Type}.
  Variable fuel : nat.
  Variable throws : Exceptions.throwing X.
  Variables (kr : keyring X) (ft : action_features) (ni no : nat).
  Hypothesis Hindex : small sz (kr_index_size kr).
  Hypothesis Hinputs : forall s a n, In s (kr_signatures kr) -> conform_action kr ft s a -> input_size a = Ok n ->
    small sz n.
  Hypothesis Hni : small sz ni.
  Hypothesis Hno : small sz no.
  Hypothesis Hfuel_i : ni < fuel.
  Hypothesis Hfuel_o : no < fuel.

  Notation fine := (fine sz kr ft ni no).

  Lemma method_seen : forall src dest T body args b (x : X),
    run_method_x p sz fuel throws src dest T body args b x
    = '(b, x, o) <- seen (exec_x p sz fuel throws src dest body (mk_state b args x));;
      match o with
      | Exceptions.Returned o => v <- into p sz b T (returned o);; Ok (b, x, Exceptions.Returned v)
      | Exceptions.Thrown => Ok (b, x, Exceptions.Thrown)
      end.
  Proof.
    intros. unfold run_method_x, seen. destruct (exec_x p sz fuel throws src dest body _) as [[st [o|]]|]; reflexivity.
  Qed.

  Lemma step_ok : forall o b x, fine b ->
    step_x p sz fuel throws o (in_size_t b) x
    = mapped (fun r => (in_size_t (fst (fst r)), snd (fst r), snd r)) (step_e p throws (size_max sz) o b x)
    /\ forall b' x' v, step_e p throws (size_max sz) o b x = Ok (b', x', v) -> fine b'.
  Proof.
    intros o b x F. destruct o as [byte| | |src|dest|src dest|i r|g]; cbn [step_x step_e].
    - destruct (put_exec p sz Hp Hsz fuel throws no_src_x no_dest_x kr ft ni no Hindex Hinputs Hni Hno byte b x F) as [E G].
      rewrite method_seen, E. clear E. unfold shown, seen_x.
      destruct (Exceptions.put_e p (size_max sz) throws byte b x) as [[[b' x'] [s|]]|f]; cbn; split; auto;
        try (intros b2 x2 v2 Eq; injection Eq as <- _ _; eauto); discriminate.
    - rewrite method_seen, (get_exec p sz Hsz fuel throws _ _ kr ft ni no Hno) by auto.
      pose proof (get_fine sz kr ft ni no b) as G. unfold seen_x.
      destruct (get_byte b) as [[b' z]|f]; cbn; split; auto; try (intros b2 x2 v2 Eq; injection Eq as <- _ _; eauto); discriminate.
    - rewrite method_seen, is_loaded_exec by auto. unfold seen_x. split.
      + cbn. destruct (is_loaded b); reflexivity.
      + intros b2 x2 v2 Eq; injection Eq as <- _ _; auto.
    - destruct (read_from_exec p sz Hp Hsz fuel throws src no_dest_x kr ft ni no Hindex Hinputs Hni Hno Hfuel_i Hfuel_o b x F) as [E G].
      rewrite method_seen, E. clear E. unfold shown, seen_x.
      destruct (Exceptions.read_from_e p (size_max sz) throws src b x) as [[[b' x'] [s|]]|f]; cbn; split; auto;
        try (intros b2 x2 v2 Eq; injection Eq as <- _ _; eauto); discriminate.
    - destruct (write_to_exec p sz Hsz fuel throws no_src_x dest kr ft ni no Hno Hfuel_i Hfuel_o b x F) as [E G].
      rewrite method_seen, E. clear E. unfold seen_x.
      destruct (Exceptions.write_to_e dest b x) as [[[b' x'] [s|]]|f]; cbn; split; auto;
        try (intros b2 x2 v2 Eq; injection Eq as <- _ _; eauto); discriminate.
    - destruct (process_exec p sz Hp Hsz fuel throws src dest kr ft ni no Hindex Hinputs Hni Hno Hfuel_i Hfuel_o b x F) as [E G].
      rewrite method_seen, E. clear E. unfold shown, seen_x.
      destruct (process_e p throws (size_max sz) src dest b x) as [[[b' x'] [s|]]|f]; cbn; split; auto;
        try (intros b2 x2 v2 Eq; injection Eq as <- _ _; eauto); discriminate.
    - unfold replace_buffered. cbn [step_w in_size_t s_dispatcher].
      destruct (replace (b_dispatcher b) i r) as [[d|f]|] eqn:Er; cbn [bind mapped fst snd];
        [|split; [auto|discriminate]|split; [auto|discriminate]].
      split; [reflexivity|]. intros b' x' v E. injection E as <- _ _.
      destruct F as (H1 & H2 & H3 & H4 & H5 & H6).
      destruct (replace_conform X (b_dispatcher b) i r d H3 Er) as (K1 & K2 & K3).
      unfold PropertiesThrowing.fine. cbn [b_dispatcher b_bufs b_load_count]. rewrite K2, K3. auto 10.
    - split; [reflexivity|]. intros b' x' v E. injection E as <- _ _. auto.
  Qed.

  Lemma steps_ok : forall ops b x, fine b ->
    steps_x p sz fuel throws ops (in_size_t b) x
    = mapped (fun r => (in_size_t (fst (fst r)), snd (fst r), snd r)) (steps_e p throws (size_max sz) ops b x).
  Proof.
    induction ops as [|o ops IH]; intros b x F; cbn [steps_x steps_e]; auto.
    destruct (step_ok o b x F) as [E G]. rewrite E. clear E.
    destruct (step_e p throws (size_max sz) o b x) as [[[b1 x1] v]|]; cbn [bind mapped fst snd]; auto.
    rewrite IH by eauto. destruct (steps_e p throws (size_max sz) ops b1 x1) as [[[b2 x2] vs]|]; reflexivity.
  Qed.
End Steps.

(** The members of the class, from the natural numbers of Buffered.v. *)
Definition members_of {X : Type} (b : buffered X) : members X :=
  mk_members (b_dispatcher b) (b_is_index_loaded b) (Z.of_nat (b_load_count b)) (Z.of_nat (b_ibuf_next b))
    (Z.of_nat (b_obuf_next b)) (Z.of_nat (b_obuf_bottom b)) (b_bufs b).

(** Both buffers have less than 2^(8 sz) bytes, and [fuel] turns of a loop are
    enough to go through them. *)
Definition roomy {X : Type} (sz fuel : nat) (b : buffered X) : Prop :=
  (Z.of_nat (List.length (ibuf (b_bufs b))) < 2 ^ (8 * Z.of_nat sz))%Z
  /\ (Z.of_nat (List.length (obuf (b_bufs b))) < 2 ^ (8 * Z.of_nat sz))%Z
  /\ List.length (ibuf (b_bufs b)) < fuel /\ List.length (obuf (b_bufs b)) < fuel.

Lemma sizes_eq : forall sz, sizes sz = (2 ^ (8 * Z.of_nat sz))%Z.
Proof. reflexivity. Qed.

(** ** C110 *)

(** Any history of a dispatcher whose callbacks, byte getters and byte putters
    may throw: the statements of the member functions have the effect of the
    functions of Exceptions.v, whatever is thrown and whenever. *)
Theorem C110_history : forall p sz (X : Type) fuel throws dbl (kr : keyring X) ft g g' b ops x,
  wf_platform p -> p_int_size p <= sz <= 8 ->
  keyring_ok p kr -> make_buffered dbl kr ft g g' = Some b ->
  (Z.of_nat (List.length (ibuf (b_bufs b))) < 2 ^ (8 * Z.of_nat sz))%Z ->
  Forall (fun s => (Z.of_nat (wire_sizes (sig_params s)) < 2 ^ (8 * Z.of_nat sz))%Z) (kr_signatures kr) ->
  List.length (ibuf (b_bufs b)) < fuel ->
  steps_x p sz fuel throws ops (init_members (make_dispatcher kr ft) (b_bufs b)) x
  = match steps_e p throws (Z.to_nat (2 ^ (8 * Z.of_nat sz) - 1)) ops b x with
    | Ok (b', x', vs) => Ok (members_of b', x', vs)
    | Fault f => Fault f
    end.
Proof.
  intros p sz X fuel throws dbl kr ft g g' b ops x Hp Hsz Hk Hb Hi Hw Hfuel.
  destruct (make_buffered_spec dbl kr ft g g' b Hb) as (bufs & -> & Hd & Hli & Hlo).
  cbn [init_buffered b_bufs] in *. destruct (index_size X kr (proj1 Hk)) as ((H1 & _) & _).
  rewrite <- sizes_eq in *. change (Z.to_nat (sizes sz - 1)) with (size_max sz).
  change (init_members (make_dispatcher kr ft) bufs) with (in_size_t (init_buffered (make_dispatcher kr ft) bufs)).
  assert (List.length (obuf bufs) <= List.length (ibuf bufs)) by (rewrite Hli, Hlo; unfold out_capacity; destruct dbl; lia).
  rewrite (steps_ok p sz Hp Hsz fuel throws kr ft (List.length (ibuf bufs)) (List.length (obuf bufs))).
  - destruct (steps_e p throws (size_max sz) ops _ x) as [[[b' x'] vs]|]; reflexivity.
  - unfold small. lia.
  - intros s a n Hs (f & Ef & Ea) Hn. subst a. unfold small.
    destruct ft; cbn [make_action input_size m_func] in Hn; injection Hn as <-.
    + rewrite tuple_size_wire.
      * rewrite Ef. rewrite Forall_forall in Hw. auto.
      * rewrite Ef. eapply tys_layout. apply (keyring_sig p kr Hk s Hs).
    + rewrite parameters_native, Ef. pose proof (native_le kr s Hs). lia.
  - exact Hi.
  - unfold small. lia.
  - exact Hfuel.
  - lia.
  - unfold fine. cbn [init_buffered b_dispatcher b_bufs b_load_count make_dispatcher d_keyring d_features].
    split; [reflexivity|]. split; [reflexivity|]. split; [apply make_dispatcher_conform|].
    unfold small, index_length. cbn [make_dispatcher d_keyring]. repeat split; lia.
Qed.

Section Reached.
  Variable p : platform.
  Variable sz : nat.
  Context {X : Type}.
  Variable fuel : nat.
  Variable throws : Exceptions.throwing X.
  Variables (dbl : bool) (kr : keyring X) (ft : action_features).
  Hypothesis Hp : wf_platform p.
  Hypothesis Hsz : p_int_size p <= sz <= 8.
  Hypothesis Hk : keyring_ok p kr.
  Hypothesis Hs : well_sized dbl kr ft.

  Lemma conform_table : forall sigs table,
    map f_sig table = sigs ->
    Forall2 (conform_action kr ft) sigs (map (make_action ft (kr_e kr) (kr_m kr)) table).
  Proof.
    intros sigs table <-. induction table as [|f l IH]; cbn [map]; constructor; auto. exists f. auto.
  Qed.

  Lemma reached_steps : forall ops b a x, reached p dbl kr ft b a x -> roomy sz fuel b ->
    steps_x p sz fuel throws ops (members_of b) x
    = mapped (fun r => (members_of (fst (fst r)), snd (fst r), snd r)) (steps_e p throws (size_max sz) ops b x).
  Proof.
    intros ops b a x H (R1 & R2 & R3 & R4). change (@members_of X) with (@in_size_t X).
    destruct (reached_represents p dbl kr ft Hp Hk Hs b a x H) as (ni & no & Hw & Hf & Hrep).
    pose proof Hrep as (Htab & Hni & Hno & _ & _ & _ & _ & _ & _ & _ & Hprog). rewrite Hni, Hno in *. rewrite <- sizes_eq in *.
    assert (Hload : b_load_count b <= ni).
    { unfold progress in Hprog. destruct (b_is_index_loaded b).
      - destruct Hprog as (f & Hd & H1 & H2 & H3). unfold designated in Hd.
        destruct (table_sig p kr ft ni no Hk Hf _ _ _ _ Htab Hd) as [_ (_ & Hfi & _)]. unfold params in *. lia.
      - lia. }
    apply (steps_ok p sz Hp Hsz fuel throws kr ft ni no); auto.
    - unfold small. lia.
    - intros s q n Hin (f & Ef & Eq) Hn. subst q. unfold small.
      rewrite Forall_forall in Hf. destruct (Hf s Hin) as (K1 & K2 & _).
      destruct ft; cbn [make_action input_size m_func] in Hn; injection Hn as <-.
      + rewrite tuple_size_wire.
        * rewrite Ef. lia.
        * rewrite Ef. eapply tys_layout. apply (keyring_sig p kr Hk s Hin).
      + rewrite Ef, K1 by reflexivity. lia.
    - destruct Htab as (T1 & T2 & T3 & T4). unfold fine, conform. rewrite T1, T2, T3.
      split; [auto|]. split; [auto|]. split; [apply conform_table; auto|]. unfold small. repeat split; auto. lia.
  Qed.
End Reached.

(** A byte getter throws in the middle of a request; whatever happens then, the
    next call of [read_from] which gets the rest of the bytes completes the
    request. *)
Theorem C110_resumes : forall p sz (X : Type) fuel throws dbl (kr : keyring X) ft b a x src bs x1 x2
    src' y bs' last y1 a' x' s,
  wf_platform p -> p_int_size p <= sz <= 8 -> keyring_ok p kr -> well_sized dbl kr ft ->
  reached p dbl kr ft b a x -> roomy sz fuel b ->
  (dbl = true \/ mc_out a = []) ->
  PropertiesExceptions.yields src x bs x1 -> Forall is_byte bs -> src x1 = Ok (x2, Exceptions.Thrown) ->
  PropertiesExceptions.yields src' y (bs' ++ [last]) y1 -> Forall is_byte (bs' ++ [last]) ->
  let request := mc_in a ++ bs ++ bs' ++ [last] in
  examine (format_of kr) (mc_table a) (mc_in a ++ bs ++ bs') = Incomplete ->
  examine (format_of kr) (mc_table a) request <> Incomplete ->
  servable (format_of kr) p (mc_table a) request y1 ->
  PropertiesExceptions.thrown (format_of kr) throws (mc_table a) request y1 = None ->
  received (format_of kr) request a y1 = (a', x', s) ->
  exists b',
    steps_x p sz fuel throws [XReadFrom src; XOutside (fun _ => y); XReadFrom src'] (members_of b) x
    = Ok (members_of b', x', [Exceptions.Thrown; Exceptions.Returned ONone; Exceptions.Returned (OStatus s)])
    /\ reached p dbl kr ft b' a' x'.
Proof.
  intros p sz X fuel throws dbl kr ft b a x src bs x1 x2 src' y bs' last y1 a' x' s Hp Hsz Hk Hs H R Hc Hy Hb Ht Hy' Hb'
    request Hex Hend Hserv Hnt Er.
  destruct (PropertiesExceptions.C54_resumes X p (size_max sz) throws dbl kr ft b a x src bs x1 x2 src' y bs' last y1 a' x' s
              Hp Hk Hs H Hc Hy Hb Ht Hy' Hb' Hex Hend Hserv Hnt Er) as (b1 & b2 & E1 & E2 & H2).
  exists b2. split; [|exact H2].
  rewrite (reached_steps p sz fuel throws dbl kr ft Hp Hsz Hk Hs _ b a x H R).
  cbn [steps_e step_e]. rewrite E1. cbn [bind map_outcome]. rewrite E2. reflexivity.
Qed.

(** A byte putter throws: the byte it was given is lost; the next call of
    [write_to], whatever happened in between, sends what follows it. *)
Theorem C110_putter : forall p sz (X : Type) fuel throws dbl (kr : keyring X) ft b a x dest bs lost rest x1 x2 dest' y y',
  wf_platform p -> p_int_size p <= sz <= 8 -> keyring_ok p kr -> well_sized dbl kr ft ->
  reached p dbl kr ft b a x -> roomy sz fuel b ->
  mc_out a = bs ++ lost :: rest ->
  PropertiesExceptions.accepts dest x bs x1 -> dest lost x1 = Ok (x2, Exceptions.Thrown) ->
  PropertiesExceptions.accepts dest' y rest y' ->
  exists b',
    steps_x p sz fuel throws [XWriteTo dest; XOutside (fun _ => y); XWriteTo dest'; XIsLoaded] (members_of b) x
    = Ok (members_of b', y', [Exceptions.Thrown; Exceptions.Returned ONone; Exceptions.Returned ONone;
                              Exceptions.Returned (OBool false)])
    /\ reached p dbl kr ft b' (mk_machine (mc_in a) [] (mc_table a)) y'.
Proof.
  intros p sz X fuel throws dbl kr ft b a x dest bs lost rest x1 x2 dest' y y' Hp Hsz Hk Hs H R Ho Ha Ht Ha'.
  destruct (PropertiesExceptions.C55_putter_throws X p dbl kr ft b a x dest bs lost rest x1 x2 Hp Hk Hs H Ho Ha Ht)
    as (b1 & E1 & H1).
  assert (H1' : reached p dbl kr ft b1 (mk_machine (mc_in a) rest (mc_table a)) y).
  { apply (PropertiesExceptions.reached_outside p dbl kr ft Hp Hk Hs) with (x := x2). exact H1. }
  destruct (PropertiesExceptions.C55_putter_returns X p dbl kr ft b1 _ y dest' y' Hp Hk Hs H1' Ha') as (b2 & E2 & H2).
  exists b2. split; [|exact H2].
  rewrite (reached_steps p sz fuel throws dbl kr ft Hp Hsz Hk Hs _ b a x H R).
  cbn [steps_e step_e]. rewrite E1. cbn [bind map_outcome]. rewrite E2. cbn [bind map_outcome].
  destruct (reached_represents p dbl kr ft Hp Hk Hs b2 _ y' H2) as (ni & no & Hw & _ & Hrep).
  rewrite (BufferedProofs.is_loaded_ok kr ft ni no dbl Hw b2 _ Hrep). reflexivity.
Qed.

Lemma puts_steps : forall (X : Type) p throws m bytes (b : buffered X) x,
  steps_e p throws m (map XPut bytes) b x
  = mapped (fun r => (fst (fst r), snd (fst r), map (map_outcome OStatus) (snd r)))
      (PropertiesExceptions.puts_e p m throws bytes b x).
Proof.
  intros X p throws m. induction bytes as [|byte bytes IH]; intros b x; cbn [map steps_e step_e PropertiesExceptions.puts_e]; auto.
  destruct (Exceptions.put_e p m throws byte b x) as [[[b1 x1] o]|]; cbn [bind]; auto.
  rewrite IH. destruct (PropertiesExceptions.puts_e p m throws bytes b1 x1) as [[[b2 x2] os]|]; reflexivity.
Qed.

(** A callback throws: the exception leaves [put] and the dispatcher never
    serves a request again.  The bytes put afterwards are answered by
    [LOADING_PACKET] as long as there is room for them, then one is written past
    the end of the input buffer; [read_from] does not return. *)
Theorem C110_stuck : forall p sz (X : Type) fuel throws dbl (kr : keyring X) ft b a x byte x',
  wf_platform p -> p_int_size p <= sz <= 8 -> keyring_ok p kr -> well_sized dbl kr ft ->
  reached p dbl kr ft b a x -> roomy sz fuel b ->
  is_byte byte -> PropertiesExceptions.receivable (format_of kr) p (mc_table a) (mc_in a ++ [byte]) ->
  PropertiesExceptions.thrown (format_of kr) throws (mc_table a) (mc_in a ++ [byte]) x = Some x' ->
  (forall bytes y,
     if List.length (mc_in a ++ [byte]) + List.length bytes <=? List.length (ibuf (b_bufs b)) then
       exists m, steps_x p sz fuel throws (XPut byte :: XOutside (fun _ => y) :: map XPut bytes) (members_of b) x
                 = Ok (m, y, Exceptions.Thrown :: Exceptions.Returned ONone
                             :: map (fun _ => Exceptions.Returned (OStatus LOADING_PACKET)) bytes)
     else steps_x p sz fuel throws (XPut byte :: XOutside (fun _ => y) :: map XPut bytes) (members_of b) x
          = Fault OutOfBounds)
  /\ (forall src y m y' o, steps_x p sz fuel throws [XPut byte; XOutside (fun _ => y); XReadFrom src] (members_of b) x
         = Ok (m, y', o) -> o = [Exceptions.Thrown; Exceptions.Returned ONone; Exceptions.Thrown]).
Proof.
  intros p sz X fuel throws dbl kr ft b a x byte x' Hp Hsz Hk Hs H R Hb Hr Ht.
  assert (Hm : List.length (ibuf (b_bufs b)) <= size_max sz).
  { destruct R as (R & _). rewrite <- sizes_eq in R. unfold size_max. lia. }
  destruct (PropertiesExceptions.C56_stuck X p (size_max sz) throws dbl kr ft b a x byte x' Hp Hk Hs H Hb Hr Hm Ht)
    as (b1 & E1 & _ & P & Q).
  split.
  - intros bytes y. specialize (P bytes y).
    rewrite !(reached_steps p sz fuel throws dbl kr ft Hp Hsz Hk Hs _ b a x H R).
    assert (E : steps_e p throws (size_max sz) (XPut byte :: XOutside (fun _ => y) :: map XPut bytes) b x
                = mapped (fun r => (fst (fst r), snd (fst r), Exceptions.Thrown :: Exceptions.Returned ONone
                                                              :: map (map_outcome OStatus) (snd r)))
                    (PropertiesExceptions.puts_e p (size_max sz) throws bytes b1 y)).
    { cbn [steps_e step_e]. rewrite E1. cbn [bind map_outcome]. rewrite puts_steps.
      destruct (PropertiesExceptions.puts_e p (size_max sz) throws bytes b1 y) as [[[b2 x2] os]|]; reflexivity. }
    rewrite E. clear E. destruct (_ <=? _).
    + destruct P as (b2 & P). rewrite P. cbn [mapped fst snd]. exists (members_of b2). rewrite map_map. reflexivity.
    + rewrite P. reflexivity.
  - intros src y m y' o. rewrite (reached_steps p sz fuel throws dbl kr ft Hp Hsz Hk Hs _ b a x H R).
    cbn [steps_e step_e]. rewrite E1. cbn [bind map_outcome].
    specialize (Q src y). destruct (Exceptions.read_from_e p (size_max sz) throws src b1 y) as [[[b2 x2] [s|]]|f]; cbn.
    + exfalso. exact (Q b2 x2 s eq_refl).
    + intros E. injection E as _ _ <-. reflexivity.
    + discriminate.
Qed.

(** ** Examples *)

Definition outcomes {A X B : Type} (r : res (A * X * B)) : res (X * B) := '(_, x, o) <- r;; Ok (x, o).

(** Three bytes of a request, a timeout, the last byte: the callback is called
    with all of them.  Sending the response [0; 0; 0; 3] fails at the third
    byte, which is lost: only the last one is sent by the next attempt.  Then
    [operator()] reads a request and fails to answer it at once. *)
Example C110_history_example : exists b : buffered (wires log),
  keyring_ok pc_native (lift_keyring ex_keyring)
  /\ make_double (lift_keyring ex_keyring) ANY [] [] = Some b
  /\ List.length (ibuf (b_bufs b)) = 5
  /\ outcomes (steps_x pc_native 8 10 (fun _ _ _ => None)
                 [XReadFrom PropertiesExceptions.take_or_throw;
                  XOutside (fun w => mk_wires [5; 0; 1; 0; 7]%Z [] (w_user w));
                  XReadFrom PropertiesExceptions.take_or_throw;
                  XWriteTo PropertiesExceptions.give_or_throw;
                  XOutside (fun w => mk_wires (w_in w) [] (w_user w));
                  XWriteTo PropertiesExceptions.give_or_throw;
                  XIsLoaded;
                  XProcess PropertiesExceptions.take_or_throw PropertiesExceptions.give_or_throw;
                  XIsLoaded; XGet; XIsLoaded;
                  XProcess PropertiesExceptions.take_or_throw PropertiesExceptions.give_or_throw]
                 (init_members (make_dispatcher (lift_keyring ex_keyring) ANY) (b_bufs b))
                 (mk_wires [0; 255; 254]%Z [] []))
     = Ok (mk_wires [] [3; 0]%Z [(0, [VInt 256; VInt 7]); (0, [VInt (-2); VInt 5])],
           [Exceptions.Thrown; Exceptions.Returned ONone; Exceptions.Returned (OStatus RESOLVED_PACKET);
            Exceptions.Thrown; Exceptions.Returned ONone; Exceptions.Returned ONone; Exceptions.Returned (OBool false);
            Exceptions.Thrown; Exceptions.Returned (OBool true); Exceptions.Returned (OByte 1);
            Exceptions.Returned (OBool true); Exceptions.Thrown]).
Proof.
  eexists. split; [apply PropertiesStreams.lift_keyring_ok; exact ex_keyring_ok|]. split; [reflexivity|]. split; [vm_compute; reflexivity|].
  vm_compute. reflexivity.
Qed.

(** The first callback throws when its second argument is 5: [m_load_count] wraps
    around at the next byte. *)
Example C110_stuck_example :
  let start := init_members (make_dispatcher ex_keyring ANY)
                 match make_double ex_keyring ANY [9; 9; 9]%Z [] with
                 | Some b => b_bufs b
                 | None => Single []
                 end in
  let run bytes := steps_x pc_native 8 10 PropertiesExceptions.ex_throws (map XPut bytes) start [] in
  outcomes (run [0; 255; 254; 5; 1]%Z)
  = Ok ([], [Exceptions.Returned (OStatus LOADING_PACKET); Exceptions.Returned (OStatus LOADING_PACKET);
             Exceptions.Returned (OStatus LOADING_PACKET); Exceptions.Thrown;
             Exceptions.Returned (OStatus LOADING_PACKET)])
  /\ mapped (fun r => s_load_count (fst (fst r))) (run [0; 255; 254; 5; 1]%Z) = Ok (2 ^ 64 - 1)%Z
  /\ run [0; 255; 254; 5; 1; 1]%Z = Fault OutOfBounds.
Proof. cbv zeta. repeat split; vm_compute; reflexivity. Qed.

(** The conditions of C110_stuck, with an unfinished response. *)
Example C110_stuck_conditions : exists b a x,
  reached pc_native true ex_keyring ANY b a x /\ roomy 8 10 b /\ p_int_size pc_native <= 8
  /\ mc_in a = [0; 255; 254]%Z /\ mc_out a = [0; 3]%Z
  /\ PropertiesExceptions.receivable (format_of ex_keyring) pc_native (mc_table a) (mc_in a ++ [5]%Z)
  /\ PropertiesExceptions.thrown (format_of ex_keyring) PropertiesExceptions.ex_throws (mc_table a) (mc_in a ++ [5]%Z) x
     = Some x.
Proof.
  destruct (make_double ex_keyring ANY [9; 9; 9]%Z []) as [b0|] eqn:E0; [|discriminate].
  pose proof (reached_new pc_native true ex_keyring ANY [9; 9; 9]%Z [] b0 ([] : log) E0) as H0.
  set (ops := [Put 0; Put 255; Put 254; Put 5; Get; Get; Put 0; Put 255; Put 254]%Z : list (op log)).
  destruct (mc_run (format_of ex_keyring) ops (fresh ex_keyring) []) as [[[a1 x1] vs]|f] eqn:Em;
    [|vm_compute in Em; discriminate].
  destruct (reached_run pc_native true ex_keyring ANY pc_native_wf ex_keyring_ok (proj1 ex_well_sized) ops b0
              (fresh ex_keyring) [] a1 x1 vs H0) as (b1 & Er & H1); auto.
  { unfold ops. legit. }
  exists b1, a1, x1. split; auto.
  assert (Hl : match make_double ex_keyring ANY [9; 9; 9]%Z [] with
               | Some b => match run_ops pc_native ops b [] with
                           | Ok (b', _, _) => (List.length (ibuf (b_bufs b')), List.length (obuf (b_bufs b')))
                           | Fault _ => (0, 0)
                           end
               | None => (0, 0)
               end = (5, 4)) by (vm_compute; reflexivity).
  rewrite E0, Er in Hl. injection Hl as Hi Ho. unfold roomy. rewrite Hi, Ho.
  assert (Ea : a1 = mk_machine [0; 255; 254]%Z [0; 3]%Z (map snd (kr_funcs ex_keyring))) by
    (unfold ops in Em; vm_compute in Em; injection Em as <- _ _; reflexivity).
  rewrite Ea. cbn [mc_in mc_out mc_table].
  split; [split; [reflexivity|split; [reflexivity|lia]]|].
  split; [vm_compute; lia|]. split; [reflexivity|]. split; [reflexivity|].
  split; [vm_compute; repeat constructor; range|]. reflexivity.
Qed.

(** The conditions of C110_resumes and of C110_putter: a request in two parts,
    then its response in two attempts. *)
Example C110_conditions : exists (b b' : buffered (wires log)) a,
  let kr := lift_keyring ex_keyring in
  let w := mk_wires [0; 255; 254]%Z [] ([] : log) in
  let w' := mk_wires [5; 77]%Z [] ([] : log) in
  let sent := mk_wires [] [] [(0, [VInt (-2); VInt 5])] in
  reached pc_native true kr ANY b (fresh kr) w /\ roomy 8 10 b
  /\ PropertiesExceptions.yields PropertiesExceptions.take_or_throw w [0; 255; 254]%Z (mk_wires [] [] [])
  /\ PropertiesExceptions.take_or_throw (mk_wires [] [] ([] : log)) = Ok (mk_wires [] [] [], Exceptions.Thrown)
  /\ PropertiesExceptions.yields PropertiesExceptions.take_or_throw w' ([] ++ [5]%Z) (mk_wires [77]%Z [] [])
  /\ examine (format_of kr) (mc_table (fresh kr)) [0; 255; 254]%Z = Incomplete
  /\ examine (format_of kr) (mc_table (fresh kr)) [0; 255; 254; 5]%Z <> Incomplete
  /\ servable (format_of kr) pc_native (mc_table (fresh kr)) [0; 255; 254; 5]%Z (mk_wires [77]%Z [] [])
  /\ reached pc_native true kr ANY b' a sent /\ roomy 8 10 b' /\ mc_out a = [0; 0]%Z ++ 0%Z :: [3]%Z
  /\ PropertiesExceptions.accepts PropertiesExceptions.give_or_throw sent [0; 0]%Z (mk_wires [] [0; 0]%Z (w_user sent))
  /\ PropertiesExceptions.give_or_throw 0%Z (mk_wires [] [0; 0]%Z (w_user sent))
     = Ok (mk_wires [] [0; 0]%Z (w_user sent), Exceptions.Thrown)
  /\ PropertiesExceptions.accepts PropertiesExceptions.give_or_throw (mk_wires [] [] ([] : log)) [3]%Z (mk_wires [] [3]%Z []).
Proof.
  set (kr := lift_keyring ex_keyring).
  assert (Hk : keyring_ok pc_native kr) by (apply PropertiesStreams.lift_keyring_ok; exact ex_keyring_ok).
  assert (Hs : well_sized true kr ANY) by (apply PropertiesStreams.lift_well_sized; exact (proj1 ex_well_sized)).
  destruct (make_double kr ANY [] []) as [b0|] eqn:E0; [|discriminate].
  pose proof (reached_new pc_native true kr ANY [] [] b0 (mk_wires [0; 255; 254]%Z [] ([] : log)) E0) as H0.
  pose proof (reached_new pc_native true kr ANY [] [] b0 (mk_wires [] [] ([] : log)) E0) as H0'.
  set (ops := [Put 0; Put 255; Put 254; Put 5]%Z : list (op (wires log))).
  destruct (mc_run (format_of kr) ops (fresh kr) (mk_wires [] [] ([] : log))) as [[[a1 x1] vs]|f] eqn:Em;
    [|vm_compute in Em; discriminate].
  destruct (reached_run pc_native true kr ANY pc_native_wf Hk Hs ops b0 (fresh kr) _ a1 x1 vs H0') as (b1 & Er & H1); auto.
  { unfold ops. legit. }
  assert (Hl : match make_double kr ANY [] [] with
               | Some b => (List.length (ibuf (b_bufs b)), List.length (obuf (b_bufs b)))
               | None => (0, 0)
               end = (5, 4)) by (vm_compute; reflexivity).
  assert (Hl1 : match make_double kr ANY [] [] with
                | Some b => match run_ops pc_native ops b (mk_wires [] [] ([] : log)) with
                            | Ok (b', _, _) => (List.length (ibuf (b_bufs b')), List.length (obuf (b_bufs b')))
                            | Fault _ => (0, 0)
                            end
                | None => (0, 0)
                end = (5, 4)) by (vm_compute; reflexivity).
  rewrite E0 in Hl. rewrite E0, Er in Hl1. injection Hl as Hi Ho. injection Hl1 as Hi1 Ho1.
  exists b0, b1, a1. cbv zeta.
  assert (Ea : mc_out a1 = [0; 0; 0; 3]%Z /\ x1 = mk_wires [] [] [(0, [VInt (-2); VInt 5])]) by
    (unfold ops in Em; vm_compute in Em; injection Em as <- <- _; split; reflexivity).
  destruct Ea as [Ea Ex]. subst x1. unfold roomy. rewrite Hi, Ho, Hi1, Ho1, Ea.
  split; [exact H0|]. split; [split; [reflexivity|split; [reflexivity|lia]]|].
  split; [repeat (econstructor; [reflexivity|]); constructor|]. split; [reflexivity|].
  split; [repeat (econstructor; [reflexivity|]); constructor|].
  split; [vm_compute; reflexivity|]. split; [vm_compute; discriminate|].
  split; [vm_compute; repeat constructor; range|].
  split; [exact H1|]. split; [split; [reflexivity|split; [reflexivity|lia]]|]. split; [reflexivity|].
  split; [repeat (econstructor; [reflexivity|]); constructor|]. split; [reflexivity|].
  repeat (econstructor; [reflexivity|]); constructor.
Qed.

Print Assumptions C110_history.
Print Assumptions C110_resumes.
Print Assumptions C110_putter.
Print Assumptions C110_stuck.
