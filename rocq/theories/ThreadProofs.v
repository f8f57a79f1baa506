(** The member functions as programs (Threads.v), when a program runs alone, do what
    the functions of Buffered.v do; the places they access. *)

From Coq Require Import List ZArith Lia Bool Arith.
From Verif Require Import Base CInt IntModel TypeLevel Serial TupleModel TupleProofs Rpc RpcProofs
  Buffered SpecRpc BufferedProofs Threads ThreadFacts.
Import ListNotations.
Open Scope nat_scope.

Section Does.
  Context {X : Type}.
  Notation shared := (shared X).
  Notation prog := (prog X).

  (** A program which ends with [a] and leaves [s'], having performed [t]; or which
      has undefined behaviour. *)
  Definition does {A : Type} (q : prog A) (s : shared) (t : list access) (r : res (A * shared)) : Prop :=
    match r with
    | Ok (a, s') => alone q s = (t, Ok a, s')
    | Fault _ => exists t' f s', alone q s = (t', Fault f, s')
    end.

  Lemma does_done : forall (A : Type) (a : A) s, does (Done a) s [] (Ok (a, s)).
  Proof. reflexivity. Qed.

  Lemma does_stop : forall (A : Type) f g s t, does (Stop f : prog A) s t (Fault g).
  Proof. intros. cbn. eauto. Qed.

  Lemma does_local : forall (A : Type) (r : res A) s,
    does (local r) s [] (match r with Ok a => Ok (a, s) | Fault f => Fault f end).
  Proof. intros A [a|f] s; cbn; eauto. Qed.

  Lemma does_load : forall (A : Type) l (k : cell l -> prog A) s v t r, look l s = Some v ->
    does (k v) s t r -> does (Load l k) s ((l, false) :: t) r.
  Proof.
    intros A l k s v t [[a s']|f] H D; cbn [does alone] in *; rewrite H.
    - rewrite D. reflexivity.
    - destruct D as (t' & g & s' & ->). eauto.
  Qed.

  Lemma does_load_none : forall (A : Type) l (k : cell l -> prog A) s t f, look l s = None ->
    does (Load l k) s t (Fault f).
  Proof. intros A l k s t f H. cbn. rewrite H. eauto. Qed.

  Lemma does_store : forall (A : Type) l v (k : prog A) s s1 t r, change l v s = Some s1 ->
    does k s1 t r -> does (Store l v k) s ((l, true) :: t) r.
  Proof.
    intros A l v k s s1 t [[a s']|f] H D; cbn [does alone] in *; rewrite H.
    - rewrite D. reflexivity.
    - destruct D as (t' & g & s' & ->). eauto.
  Qed.

  Lemma does_store_none : forall (A : Type) l v (k : prog A) s t f, change l v s = None ->
    does (Store l v k) s t (Fault f).
  Proof. intros A l v k s t f H. cbn. rewrite H. eauto. Qed.

  Lemma does_call : forall (A : Type) f args (k : val -> prog A) (b : buffered X) x x' v t r,
    f_call f args x = (x', v) -> does (k v) (b, x') t r -> does (Call f args k) (b, x) ((PWorld, true) :: t) r.
  Proof.
    intros A f args k b x x' v t [[a s']|g] H D; cbn [does alone snd fst] in *; rewrite H.
    - rewrite D. reflexivity.
    - destruct D as (t' & h & s' & ->). eauto.
  Qed.

  Lemma does_seq : forall (A B : Type) (q : prog A) (k : A -> prog B) s t a s1 t' r,
    does q s t (Ok (a, s1)) -> does (k a) s1 t' r -> does (seq q k) s (t ++ t') r.
  Proof.
    intros A B q k s t a s1 t' [[b s2]|f] H D; cbn [does] in *; rewrite alone_seq, H.
    - rewrite D. reflexivity.
    - destruct D as (t2 & g & s2 & ->). eauto.
  Qed.

  Lemma does_seq_fault : forall (A B : Type) (q : prog A) (k : A -> prog B) s t f g u,
    does q s t (Fault f) -> does (seq q k) s u (Fault g).
  Proof.
    intros A B q k s t f g u (t' & h & s' & H). cbn [does]. rewrite alone_seq, H. eauto.
  Qed.

  Lemma does_fault : forall (A : Type) (q : prog A) s t u f g, does q s t (Fault f) -> does q s u (Fault g).
  Proof. intros A q s t u f g H. exact H. Qed.
End Does.

Lemma store_set_nth : forall m i v,
  store m i v = if i <? length m then Ok (set_nth m i v) else Fault OutOfBounds.
Proof.
  induction m as [|c m IH]; intros [|i] v; cbn [store length set_nth]; try reflexivity.
  rewrite IH. change (S i <? S (length m)) with (i <? length m). destruct (i <? length m); reflexivity.
Qed.

Section Fidelity.
  Context {X : Type}.
  Variable p : platform.
  Variable ord : order.
  Variable kr : keyring X.
  Variable ft : action_features.
  Variable dbl : bool.
  Notation shared := (shared X).
  Notation prog := (prog X).

  Lemma look_in : forall (b : buffered X) x i, look (PByte 0 i) (b, x) = nth_error (ibuf (b_bufs b)) i.
  Proof. intros b x i. unfold look. destruct (b_bufs b); reflexivity. Qed.

  Lemma look_out : forall (b : buffered X) x i, is_double (b_bufs b) = dbl ->
    look (PByte (out_array dbl) i) (b, x) = nth_error (obuf (b_bufs b)) i.
  Proof. intros b x i <-. unfold look. destruct (b_bufs b); reflexivity. Qed.

  Lemma change_in : forall d il lc inx onx ob bufs (x : X) i v,
    change (PByte 0 i) v (mk_buffered d il lc inx onx ob bufs, x)
    = match store (ibuf bufs) i v with
      | Ok m => Some (mk_buffered d il lc inx onx ob (set_ibuf m bufs), x)
      | Fault _ => None
      end.
  Proof.
    intros. rewrite store_set_nth. unfold change, stored. destruct bufs as [m|m o]; cbn [ibuf set_ibuf];
      destruct (i <? length m); reflexivity.
  Qed.

  Lemma change_out : forall d il lc inx onx ob bufs (x : X) i v, is_double bufs = dbl ->
    change (PByte (out_array dbl) i) v (mk_buffered d il lc inx onx ob bufs, x)
    = match store (obuf bufs) i v with
      | Ok m => Some (mk_buffered d il lc inx onx ob (set_obuf m bufs), x)
      | Fault _ => None
      end.
  Proof.
    intros d il lc inx onx ob bufs x i v <-. rewrite store_set_nth. unfold change, stored.
    destruct bufs as [m|m o]; cbn [obuf set_obuf is_double out_array];
      match goal with |- context [i <? ?n] => destruct (i <? n); reflexivity end.
  Qed.

  (** ** Reading *)

  Definition fetch_trace (n i : nat) : list access := map (fun j => (PByte 0 j, false)) (List.seq i n).

  Lemma fetch_does : forall n i (b : buffered X) x,
    does (fetch_p n i) (b, x) (fetch_trace n i)
      (match load_range (ibuf (b_bufs b)) i n with Ok bs => Ok (bs, (b, x)) | Fault f => Fault f end).
  Proof.
    induction n as [|n IH]; intros i b x; cbn [fetch_p load_range].
    - apply does_done.
    - unfold load. destruct (nth_error (ibuf (b_bufs b)) i) as [c|] eqn:E; cbn [bind].
      + unfold fetch_trace. cbn [List.seq map].
        eapply does_load; [rewrite look_in; exact E|]. specialize (IH (S i) b x).
        destruct (load_range (ibuf (b_bufs b)) (S i) n) as [bs|f]; cbn [bind].
        * change (map (fun j => (PByte 0 j, false)) (List.seq (S i) n)) with (fetch_trace n (S i)).
          rewrite <- (app_nil_r (fetch_trace n (S i))).
          eapply does_seq; [exact IH|]. apply does_done.
        * eapply does_seq_fault. exact IH.
      + apply does_load_none. rewrite look_in. exact E.
  Qed.

  Lemma load_range_length : forall n mem i bs, load_range mem i n = Ok bs -> length bs = n.
  Proof.
    induction n as [|n IH]; intros mem i bs H; cbn [load_range] in H.
    - injection H as <-. reflexivity.
    - ok_inv H c. ok_inv H cs. injection H as <-. cbn. f_equal. eapply IH; eauto.
  Qed.

  Lemma fill_fetched : forall n bufs i bt (x : X) off mem,
    fill ibuf_source n off (mk_frame bufs i bt x) mem
    = (bs <- load_range (ibuf bufs) i n;;
       '(_, mem') <- fill fetched n off bs mem;;
       Ok (mk_frame bufs (i + n) bt x, mem')).
  Proof.
    induction n as [|n IH]; intros bufs i bt x off mem; cbn [fill load_range bind].
    - rewrite Nat.add_0_r. reflexivity.
    - unfold ibuf_source at 1, iterator_source. cbn [fr_bufs fr_iptr fr_bottom fr_world].
      unfold load. destruct (nth_error (ibuf bufs) i) as [c|]; cbn [bind]; [|reflexivity].
      rewrite store_set_nth. destruct (Nat.ltb_spec off (length mem)); cbn [bind].
      + rewrite IH. destruct (load_range (ibuf bufs) (S i) n) as [bs|f]; cbn [bind]; [|reflexivity].
        unfold fetched at 2. cbn [bind]. rewrite store_set_nth.
        destruct (Nat.ltb_spec off (length mem)); [|lia]. cbn [bind].
        replace (S i + n) with (i + S n) by lia. reflexivity.
      + destruct (load_range (ibuf bufs) (S i) n) as [bs|f] eqn:E; cbn [bind].
        * unfold fetched at 1. cbn [bind]. rewrite store_set_nth.
          destruct (Nat.ltb_spec off (length mem)); [lia|]. reflexivity.
        * assert (f = OutOfBounds) as ->; [|reflexivity]. clear -E. revert i E.
          induction n as [|n IHn]; intros i E; cbn [load_range] in E; [discriminate|].
          unfold load in E. destruct (nth_error (ibuf bufs) (S i)); cbn [bind] in E; [|congruence].
          destruct (load_range (ibuf bufs) (S (S i)) n) eqn:E2; cbn [bind] in E; [discriminate|].
          injection E as <-. eapply IHn; eauto.
  Qed.

  (** A tuple read from the input buffer. *)
  Lemma read_fetched : forall e m ts bufs i bt (x : X),
    match read_tuple p e m ts ibuf_source (mk_frame bufs i bt x) with
    | Ok (w, st) => exists bs, load_range (ibuf bufs) i (tuple_size ts) = Ok bs
        /\ (exists r, read_tuple p e m ts fetched bs = Ok (r, st)) /\ w = mk_frame bufs (i + tuple_size ts) bt x
    | Fault _ => forall bs, load_range (ibuf bufs) i (tuple_size ts) = Ok bs ->
        exists f, read_tuple p e m ts fetched bs = Fault f
    end.
  Proof.
    intros e m ts bufs i bt x. unfold read_tuple.
    destruct (default_construct p e m ts (indet_bytes p (tuple_size ts))) as [st|f]; cbn [bind].
    2:{ intros bs _. eauto. }
    rewrite fill_tuple_eq. cbn [tuple_at v_types v_begin]. rewrite fill_fetched.
    destruct (load_range (ibuf bufs) i (tuple_size ts)) as [bs|f]; cbn [bind].
    2:{ intros bs H. discriminate. }
    destruct (fill fetched (tuple_size ts) 0 bs st) as [[r mem']|f] eqn:E; cbn [bind].
    - exists bs. split; auto. split; auto. exists r. rewrite fill_tuple_eq. exact E.
    - intros bs' H. injection H as <-. exists f. rewrite fill_tuple_eq. cbn [tuple_at v_types v_begin]. rewrite E. reflexivity.
  Qed.

  Lemma framed_kr : forall d : dispatcher X, d_keyring d = kr ->
    kr_index_size (d_keyring (framed_dispatcher d)) = kr_index_size kr
    /\ kr_e (d_keyring (framed_dispatcher d)) = kr_e kr /\ kr_m (d_keyring (framed_dispatcher d)) = kr_m kr.
  Proof.
    intros d H. unfold framed_dispatcher, kr_index_size. cbn [d_keyring kr_funcs kr_e kr_m].
    rewrite map_length, H. auto.
  Qed.

  Lemma tuple_size_index : tuple_size [TUns (kr_index_size kr)] = kr_index_size kr.
  Proof. unfold tuple_size. cbn. lia. Qed.

  Lemma index_does : forall (b : buffered X) x bt y, d_keyring (b_dispatcher b) = kr ->
    does (index_p p kr) (b, x) (fetch_trace (kr_index_size kr) 0)
      (match get_index p (framed_dispatcher (b_dispatcher b)) ibuf_source (mk_frame (b_bufs b) 0 bt y) with
       | Ok (_, i) => Ok (i, (b, x)) | Fault f => Fault f end)
    /\ (forall w i, get_index p (framed_dispatcher (b_dispatcher b)) ibuf_source (mk_frame (b_bufs b) 0 bt y) = Ok (w, i) ->
          w = mk_frame (b_bufs b) (kr_index_size kr) bt y).
  Proof.
    intros b x bt y Hd. destruct (framed_kr _ Hd) as (Ei & Ee & Em).
    unfold get_index, index_p. rewrite Ei, Ee, Em.
    pose proof (read_fetched (kr_e kr) (kr_m kr) [TUns (kr_index_size kr)] (b_bufs b) 0 bt y) as R.
    pose proof (fetch_does (kr_index_size kr) 0 b x) as F. rewrite tuple_size_index in R.
    destruct (read_tuple p (kr_e kr) (kr_m kr) [TUns (kr_index_size kr)] ibuf_source (mk_frame (b_bufs b) 0 bt y))
      as [[w st]|f]; cbn [bind].
    - destruct R as (bs & E1 & (r & E2) & ->). rewrite E1 in F. split.
      + rewrite <- (app_nil_r (fetch_trace _ _)).
        destruct (get p (tuple_at (kr_e kr) (kr_m kr) [TUns (kr_index_size kr)] 0) 0 st) as [v|f] eqn:E3; cbn [bind].
        * destruct v as [z|l].
          -- eapply does_seq; [exact F|]. unfold decode_index. rewrite E2. cbn [bind]. rewrite E3. apply does_done.
          -- eapply does_seq; [exact F|]. unfold decode_index. rewrite E2. cbn [bind]. rewrite E3. apply does_stop.
        * eapply does_seq; [exact F|]. unfold decode_index. rewrite E2. cbn [bind]. rewrite E3. apply does_stop.
      + intros w i H. ok_inv H v. destruct v; [|discriminate]. injection H as <- _. reflexivity.
    - split; [|discriminate]. destruct (load_range (ibuf (b_bufs b)) 0 (kr_index_size kr)) as [bs|f'].
      + destruct (R bs eq_refl) as (g & E). rewrite <- (app_nil_r (fetch_trace _ _)).
        eapply does_seq; [exact F|]. unfold decode_index. rewrite E. apply does_stop.
      + eapply does_seq_fault. exact F.
  Qed.

  (** ** Writing *)

  (** What the run of an action accesses. *)
  Definition run_access (a : access) : Prop :=
    match fst a with
    | PByte arr _ => if snd a then arr = out_array dbl else arr = 0
    | PObufBottom | PWorld => True
    | _ => False
    end.

  Lemma fetch_run_access : forall n i, Forall run_access (fetch_trace n i).
  Proof.
    intros n i. apply Forall_forall. intros a H. apply in_map_iff in H. destruct H as (j & <- & _). reflexivity.
  Qed.

  Lemma emit_does : forall bs d il lc inx onx ob bufs (x : X) ip, is_double bufs = dbl ->
    exists t, Forall run_access t /\
    does (emit_p ord dbl bs) (mk_buffered d il lc inx onx ob bufs, x) t
      (match put_each obuf_destination bs (mk_frame bufs ip ob x) with
       | Ok w => Ok (tt, (mk_buffered d il lc inx onx (fr_bottom w) (fr_bufs w), fr_world w))
       | Fault f => Fault f end)
    /\ (forall w, put_each obuf_destination bs (mk_frame bufs ip ob x) = Ok w -> is_double (fr_bufs w) = dbl).
  Proof.
    induction bs as [|c bs IH]; intros d il lc inx onx ob bufs x ip Hb; cbn [emit_p put_each].
    - exists []. split; [constructor|]. split; [apply does_done|]. intros w H. injection H as <-. exact Hb.
    - unfold obuf_destination at 1 3, iterator_destination. cbn [fr_bufs fr_iptr fr_bottom fr_world].
      destruct (store (obuf bufs) ob c) as [m|f] eqn:E; cbn [bind].
      + cbn [fr_bufs fr_iptr fr_bottom fr_world].
        assert (Hb' : is_double (set_obuf m bufs) = dbl) by (rewrite is_double_set_obuf; exact Hb).
        destruct (IH d il lc inx onx (S ob) (set_obuf m bufs) x ip Hb') as (t & H1 & H2 & H3).
        exists ((if byte_stored_first ord then [(PObufBottom, false); (PByte (out_array dbl) ob, true); (PObufBottom, true)]
                 else [(PObufBottom, false); (PObufBottom, true); (PByte (out_array dbl) ob, true)]) ++ t).
        split; [|split; [|exact H3]].
        * apply Forall_app. split; auto. destruct (byte_stored_first ord); repeat constructor.
        * eapply does_seq; [|exact H2]. unfold store_out. destruct (byte_stored_first ord).
          -- eapply (does_load _ PObufBottom _ _ ob); [reflexivity|]. eapply does_store; [rewrite change_out by exact Hb; rewrite E; reflexivity|].
             eapply does_store; [reflexivity|]. apply does_done.
          -- eapply (does_load _ PObufBottom _ _ ob); [reflexivity|]. eapply does_store; [reflexivity|].
             eapply does_store; [rewrite change_out by exact Hb; rewrite E; reflexivity|]. apply does_done.
      + exists []. split; [constructor|]. split; [|discriminate]. eapply does_seq_fault with (t := []) (f := f). unfold store_out.
        destruct (byte_stored_first ord).
        -- apply (does_fault _ _ _ [(PObufBottom, false)] _ OutOfBounds); eapply (does_load _ PObufBottom _ _ ob); [reflexivity|].
           apply does_store_none. rewrite change_out by exact Hb. rewrite E. reflexivity.
        -- apply (does_fault _ _ _ [(PObufBottom, false); (PObufBottom, true)] _ OutOfBounds); eapply (does_load _ PObufBottom _ _ ob); [reflexivity|].
           eapply does_store; [reflexivity|].
           apply does_store_none. rewrite change_out by exact Hb. rewrite E. reflexivity.
  Qed.

  (** ** Actions *)

  Lemma call_does : forall (c : model X) d il lc inx onx ob bufs (x : X), is_double bufs = dbl ->
    exists t, Forall run_access t /\
    does (run_p p ord kr dbl (Storage (Some c))) (mk_buffered d il lc inx onx ob bufs, x) t
      (match call p (m_e c) (m_m c) (framed (m_func c)) ibuf_source obuf_destination
               (mk_frame bufs (kr_index_size kr) ob x) with
       | Ok w => Ok (tt, (mk_buffered d il lc inx onx (fr_bottom w) (fr_bufs w), fr_world w))
       | Fault f => Fault f end)
    /\ (forall w, call p (m_e c) (m_m c) (framed (m_func c)) ibuf_source obuf_destination
               (mk_frame bufs (kr_index_size kr) ob x) = Ok w -> is_double (fr_bufs w) = dbl).
  Proof.
    intros c d il lc inx onx ob bufs x Hb. cbn [run_p]. set (e := m_e c). set (m := m_m c). set (f := m_func c).
    set (ts := sig_params (f_sig f)).
    unfold call. cbn [framed f_sig f_call]. fold ts.
    pose proof (read_fetched e m ts bufs (kr_index_size kr) ob x) as R.
    pose proof (fetch_does (tuple_size ts) (kr_index_size kr) (mk_buffered d il lc inx onx ob bufs) x) as F.
    cbn [b_bufs] in F.
    destruct (read_tuple p e m ts ibuf_source (mk_frame bufs (kr_index_size kr) ob x)) as [[w st]|flt] eqn:ER.
    - destruct R as (bs & E1 & (r & E2) & ->). rewrite E1 in F.
      destruct (get_each p (tuple_at e m ts 0) (make_index_sequence14 (length (v_types (tuple_at e m ts 0)))) st)
        as [args|flt] eqn:EG.
      + assert (D : decode_args p e m ts bs = Ok args).
        { unfold decode_args. rewrite E2. cbn [bind]. unfold invoke. rewrite EG. reflexivity. }
        destruct (f_call f args x) as [x' v] eqn:EC.
        destruct (sig_ret (f_sig f)) as [t|] eqn:ET.
        * unfold insert, write_tuple. cbn [bind].
          destruct (construct p e m [t] [v] (indet_bytes p (tuple_size [t]))) as [st'|flt] eqn:E3.
          -- destruct (content (tuple_at e m [t] 0) st') as [out|flt] eqn:E4.
             ++ destruct (emit_does out d il lc inx onx ob bufs x' (kr_index_size kr + tuple_size ts) Hb) as (u & U1 & U2 & U3).
                exists (fetch_trace (tuple_size ts) (kr_index_size kr) ++ [] ++ (PWorld, true) :: [] ++ u). split; [|split].
                ** apply Forall_app. split; [apply fetch_run_access|]. constructor; [exact I|exact U1].
                ** cbn [bind]. unfold invoke. rewrite EG. cbn [bind]. unfold framed. cbn [f_call]. cbn [fr_world fr_bufs fr_iptr fr_bottom].
                   rewrite EC. cbn [bind]. rewrite E3. cbn [bind]. rewrite E4. cbn [bind].
                   eapply does_seq; [exact F|]. eapply does_seq; [rewrite D; apply does_done|].
                   eapply does_call; [exact EC|]. eapply does_seq; [|exact U2].
                   unfold encode_result. rewrite E3. cbn [bind]. rewrite E4. apply does_done.
                ** cbn [bind]. unfold invoke. rewrite EG. cbn [bind]. unfold framed. cbn [f_call]. cbn [fr_world fr_bufs fr_iptr fr_bottom].
                   rewrite EC. cbn [bind]. rewrite E3. cbn [bind]. rewrite E4. cbn [bind]. exact U3.
             ++ exists []. split; [constructor|].
                cbn [bind]. unfold invoke. rewrite EG. cbn [bind]. unfold framed. cbn [f_call]. cbn [fr_world fr_bufs fr_iptr fr_bottom].
                rewrite EC. cbn [bind]. rewrite E3. cbn [bind]. rewrite E4. cbn [bind]. split; [|discriminate].
                apply (does_fault _ _ _ (fetch_trace (tuple_size ts) (kr_index_size kr) ++ [] ++ (PWorld, true) :: []) _ flt).
                eapply does_seq; [exact F|]. eapply does_seq; [rewrite D; apply does_done|].
                eapply does_call; [exact EC|]. apply does_seq_fault with (t := []) (f := flt).
                unfold encode_result. rewrite E3. cbn [bind]. rewrite E4. apply does_stop.
          -- exists []. split; [constructor|].
             unfold invoke. rewrite EG. cbn [bind]. unfold framed. cbn [f_call]. cbn [fr_world fr_bufs fr_iptr fr_bottom].
             rewrite EC. cbn [bind]. rewrite E3. cbn [bind]. split; [|discriminate].
             apply (does_fault _ _ _ (fetch_trace (tuple_size ts) (kr_index_size kr) ++ [] ++ (PWorld, true) :: []) _ flt).
             eapply does_seq; [exact F|]. eapply does_seq; [rewrite D; apply does_done|].
             eapply does_call; [exact EC|]. apply does_seq_fault with (t := []) (f := flt).
             unfold encode_result. rewrite E3. cbn [bind]. apply does_stop.
        * exists (fetch_trace (tuple_size ts) (kr_index_size kr) ++ [] ++ [(PWorld, true)]).
          cbn [bind]. unfold invoke. rewrite EG. cbn [bind]. unfold framed. cbn [f_call]. cbn [fr_world fr_bufs fr_iptr fr_bottom].
          rewrite EC. cbn [bind]. split; [|split].
          -- apply Forall_app. split; [apply fetch_run_access|]. constructor; [exact I|constructor].
          -- eapply does_seq; [exact F|]. eapply does_seq; [rewrite D; apply does_done|].
             eapply does_call; [exact EC|]. apply does_done.
          -- intros w H. injection H as <-. exact Hb.
      + exists []. split; [constructor|].
        assert (D : decode_args p e m ts bs = Fault flt).
        { unfold decode_args. rewrite E2. cbn [bind]. unfold invoke. rewrite EG. reflexivity. }
        assert (D' : does (seq (local (decode_args p e m ts bs)) (fun args =>
                Call f args (fun r => match sig_ret (f_sig f) with
                  | None => Done tt | Some t => seq (local (encode_result p e m t r)) (emit_p ord dbl) end)))
                (mk_buffered d il lc inx onx ob bufs, x) [] (Fault flt)).
        { apply does_seq_fault with (t := []) (f := flt). rewrite D. apply does_stop. }
        destruct (sig_ret (f_sig f)); cbn [bind]; unfold invoke; rewrite EG; cbn [bind]; (split; [|discriminate]);
          (apply (does_fault _ _ _ (fetch_trace (tuple_size ts) (kr_index_size kr) ++ []) _ flt); eapply does_seq; [exact F|exact D']).
    - exists []. split; [constructor|].
      assert (D' : does (seq (fetch_p (tuple_size ts) (kr_index_size kr)) (fun bs =>
          seq (local (decode_args p e m ts bs)) (fun args =>
                Call f args (fun r => match sig_ret (f_sig f) with
                  | None => Done tt | Some t => seq (local (encode_result p e m t r)) (emit_p ord dbl) end))))
                (mk_buffered d il lc inx onx ob bufs, x) [] (Fault flt)).
      { destruct (load_range (ibuf bufs) (kr_index_size kr) (tuple_size ts)) as [bs|g].
        - destruct (R bs eq_refl) as (h & Eh). apply (does_fault _ _ _ (fetch_trace (tuple_size ts) (kr_index_size kr) ++ []) _ flt). eapply does_seq; [exact F|].
          apply does_seq_fault with (t := []) (f := flt). unfold decode_args. rewrite Eh. apply does_stop.
        - eapply does_seq_fault. exact F. }
      destruct (sig_ret (f_sig f)); cbn [bind]; (split; [exact D'|discriminate]).
  Qed.

  Lemma run_does : forall (a : action X) d il lc inx onx ob bufs (x : X), is_double bufs = dbl ->
    exists t, Forall run_access t /\
    does (run_p p ord kr dbl a) (mk_buffered d il lc inx onx ob bufs, x) t
      (match run p (framed_action a) ibuf_source obuf_destination (mk_frame bufs (kr_index_size kr) ob x) with
       | Ok w => Ok (tt, (mk_buffered d il lc inx onx (fr_bottom w) (fr_bufs w), fr_world w))
       | Fault f => Fault f end).
  Proof.
    intros a d il lc inx onx ob bufs x Hb. destruct a as [[c|]|c].
    - destruct (call_does c d il lc inx onx ob bufs x Hb) as (t & H1 & H2 & _). exists t. split; auto.
    - exists []. split; [constructor|]. apply does_done.
    - destruct (call_does c d il lc inx onx ob bufs x Hb) as (t & H1 & H2 & _). exists t. split; auto.
  Qed.

  (** What [put] accesses: [n] is the position of the byte, [resolved] whether a
      request is complete, [act] the actions. *)
  Definition put_access (resolved : Prop) (n : nat) (act : nat -> Prop) (a : access) : Prop :=
    match fst a with
    | PIsIndexLoaded | PLoadCount | PIbufNext | PWorld => True
    | PObufNext | PObufBottom => resolved
    | PByte arr j => if snd a then (arr = 0 /\ j = n) \/ (arr = out_array dbl /\ resolved) else arr = 0
    | PAction j => snd a = false /\ act j
    end.

  Lemma run_put_access : forall n act a, run_access a -> put_access True n act a.
  Proof. intros n act [l w] H. destruct l, w; cbn in *; auto; contradiction. Qed.

  Lemma call_p_does : forall (b : buffered X) (x : X) n,
    d_keyring (b_dispatcher b) = kr -> is_double (b_bufs b) = dbl ->
    exists t,
    does (call_p p ord kr dbl) (b, x) t
      (match call_loaded p b x with
       | Ok (b', x') => Ok (RESOLVED_PACKET, (b', x'))
       | Fault f => Fault f end)
    /\ forall b' x', call_loaded p b x = Ok (b', x') ->
       In (PObufNext, true) t
       /\ exists w i, get_index p (framed_dispatcher (b_dispatcher b)) ibuf_source (mk_frame (b_bufs b) 0 0 x) = Ok (w, i)
         /\ In (PAction i, false) t /\ Forall (put_access True n (eq i)) t.
  Proof.
    intros [d il lc inx onx ob bufs] x n Hd Hb. cbn [b_dispatcher b_bufs] in *.
    unfold call_loaded. cbn [b_dispatcher b_bufs].
    destruct (index_does (mk_buffered d il lc inx 0 0 bufs) x 0 x Hd) as (I1 & I2). cbn [b_dispatcher b_bufs] in I1, I2.
    destruct (get_index p (framed_dispatcher d) ibuf_source (mk_frame bufs 0 0 x)) as [[w i]|f] eqn:EI; cbn [bind].
    2:{ exists []. split; [|discriminate].
        apply (does_fault _ _ _ [(PObufBottom, true); (PObufNext, true)] _ f).
        eapply does_store; [reflexivity|]. eapply does_store; [reflexivity|]. eapply does_seq_fault. exact I1. }
    rewrite (I2 w i eq_refl) in *. clear I2.
    unfold action_at. cbn [framed_dispatcher d_actions]. rewrite nth_error_map.
    destruct (nth_error (d_actions d) i) as [a|] eqn:EA; cbn [option_map bind].
    2:{ exists []. split; [|discriminate].
        apply (does_fault _ _ _ ((PObufBottom, true) :: (PObufNext, true) :: (fetch_trace (kr_index_size kr) 0 ++ [])) _ OutOfBounds).
        eapply does_store; [reflexivity|]. eapply does_store; [reflexivity|]. eapply does_seq; [exact I1|].
        apply does_load_none. exact EA. }
    destruct (run_does a d il lc inx 0 0 bufs x Hb) as (t & T1 & T2).
    destruct (run p (framed_action a) ibuf_source obuf_destination (mk_frame bufs (kr_index_size kr) 0 x)) as [w2|f] eqn:ER; cbn [bind].
    2:{ exists []. split; [|discriminate].
        apply (does_fault _ _ _ ((PObufBottom, true) :: (PObufNext, true) :: (fetch_trace (kr_index_size kr) 0 ++ [(PAction i, false)])) _ f).
        eapply does_store; [reflexivity|]. eapply does_store; [reflexivity|]. eapply does_seq; [exact I1|].
        eapply does_load; [exact EA|]. eapply does_seq_fault. exact T2. }
    exists ((PObufBottom, true) :: (PObufNext, true) :: (fetch_trace (kr_index_size kr) 0 ++ (PAction i, false) :: (t ++
       [(PIsIndexLoaded, true); (PLoadCount, true); (PIbufNext, true)]))).
    split.
    - eapply does_store; [reflexivity|]. eapply does_store; [reflexivity|]. eapply does_seq; [exact I1|].
      eapply does_load; [exact EA|]. eapply does_seq; [exact T2|].
      eapply does_store; [reflexivity|]. eapply does_store; [reflexivity|]. eapply does_store; [reflexivity|].
      unfold index_length. rewrite Hd. apply does_done.
    - intros b' x' _. split; [right; left; reflexivity|]. eexists _, i. split; [reflexivity|]. split.
      + right. right. apply in_or_app. right. left. reflexivity.
      + constructor; [exact I|]. constructor; [exact I|]. apply Forall_app. split.
        * apply Forall_forall. intros y Hy. apply in_map_iff in Hy. destruct Hy as (j & <- & _). reflexivity.
        * constructor; [split; reflexivity|]. apply Forall_app. split.
          -- eapply Forall_impl; [|exact T1]. intros y. apply run_put_access.
          -- repeat constructor.
  Qed.

  Lemma put_access_weaken : forall (P Q : Prop) n (R S : nat -> Prop) a, (P -> Q) -> (forall j, R j -> S j) ->
    put_access P n R a -> put_access Q n S a.
  Proof.
    intros P Q n R S [l w] HP HR. unfold put_access. cbn [fst snd]. destruct l; auto.
    - destruct w; auto. intros [H|(H1 & H2)]; auto.
    - intros (H1 & H2). auto.
  Qed.

  (** [put] alone. *)
  Theorem put_does : forall byte (b : buffered X) x, d_keyring (b_dispatcher b) = kr -> is_double (b_bufs b) = dbl ->
    match put p byte b x with
    | Fault _ => exists t f s, alone (put_p p ord kr dbl byte) (b, x) = (t, Fault f, s)
    | Ok (b', x', s) => exists t, alone (put_p p ord kr dbl byte) (b, x) = (t, Ok s, (b', x'))
        /\ (In (PByte 0 (b_ibuf_next b), true) t /\ In (PIbufNext, true) t)
        /\ (s = RESOLVED_PACKET -> In (PObufNext, true) t)
        /\ (exists m, store (ibuf (b_bufs b)) (b_ibuf_next b) byte = Ok m
             /\ ((2 <= b_load_count b /\ Forall (put_access (s = RESOLVED_PACKET) (b_ibuf_next b) (fun _ => False)) t)
                 \/ b_load_count b = 1 /\ exists w i,
                     get_index p (framed_dispatcher (b_dispatcher b)) ibuf_source
                       (mk_frame (set_ibuf m (b_bufs b)) 0 0 x) = Ok (w, i)
                     /\ (s <> DROPPED_PACKET -> In (PAction i, false) t)
                     /\ Forall (put_access (s = RESOLVED_PACKET) (b_ibuf_next b)
                           (fun j => s <> DROPPED_PACKET /\ j = i)) t))
    end.
  Proof.
    intros byte b x Hd Hb.
    assert (G : exists t, does (put_p p ord kr dbl byte) (b, x) t
        (match put p byte b x with Ok (b', x', s) => Ok (s, (b', x')) | Fault f => Fault f end)
      /\ forall b' x' s, put p byte b x = Ok (b', x', s) ->
        (In (PByte 0 (b_ibuf_next b), true) t /\ In (PIbufNext, true) t)
        /\ (s = RESOLVED_PACKET -> In (PObufNext, true) t)
        /\ (exists m, store (ibuf (b_bufs b)) (b_ibuf_next b) byte = Ok m
             /\ ((2 <= b_load_count b /\ Forall (put_access (s = RESOLVED_PACKET) (b_ibuf_next b) (fun _ => False)) t)
                 \/ b_load_count b = 1 /\ exists w i,
                     get_index p (framed_dispatcher (b_dispatcher b)) ibuf_source
                       (mk_frame (set_ibuf m (b_bufs b)) 0 0 x) = Ok (w, i)
                     /\ (s <> DROPPED_PACKET -> In (PAction i, false) t)
                     /\ Forall (put_access (s = RESOLVED_PACKET) (b_ibuf_next b)
                           (fun j => s <> DROPPED_PACKET /\ j = i)) t))).
    2:{ destruct G as (t & G1 & G2). destruct (put p byte b x) as [[[b' x'] s]|f].
        - exists t. split; [exact G1|]. apply (G2 b' x' s eq_refl).
        - exact G1. }
    destruct b as [d il lc inx onx ob bufs].
    cbn [b_dispatcher b_bufs b_ibuf_next b_load_count] in *. unfold put. cbn [b_dispatcher b_is_index_loaded b_load_count b_ibuf_next b_obuf_next b_obuf_bottom b_bufs].
    set (ti := if byte_stored_first ord then [(PIbufNext, false); (PByte 0 inx, true); (PIbufNext, true)]
               else [(PIbufNext, false); (PIbufNext, true); (PByte 0 inx, true)]).
    destruct (store (ibuf bufs) inx byte) as [m|f] eqn:ES; cbn [bind].
    2:{ exists []. split; [|discriminate]. unfold put_p. apply does_seq_fault with (t := []) (f := f). unfold store_in.
        destruct (byte_stored_first ord).
        - apply (does_fault _ _ _ [(PIbufNext, false)] _ f). eapply (does_load _ PIbufNext _ _ inx); [reflexivity|].
          apply does_store_none. rewrite change_in, ES. reflexivity.
        - apply (does_fault _ _ _ [(PIbufNext, false); (PIbufNext, true)] _ f).
          eapply (does_load _ PIbufNext _ _ inx); [reflexivity|]. eapply does_store; [reflexivity|].
          apply does_store_none. rewrite change_in, ES. reflexivity. }
    assert (SI : does (store_in ord byte) (mk_buffered d il lc inx onx ob bufs, x) ti
                   (Ok (tt, (mk_buffered d il lc (S inx) onx ob (set_ibuf m bufs), x)))).
    { unfold store_in, ti. destruct (byte_stored_first ord).
      - eapply (does_load _ PIbufNext _ _ inx); [reflexivity|].
        eapply does_store; [rewrite change_in, ES; reflexivity|]. eapply does_store; [reflexivity|]. apply does_done.
      - eapply (does_load _ PIbufNext _ _ inx); [reflexivity|]. eapply does_store; [reflexivity|].
        eapply does_store; [rewrite change_in, ES; reflexivity|]. apply does_done. }
    assert (TI : In (PIbufNext, true) ti) by (unfold ti; destruct (byte_stored_first ord); cbn; auto).
    assert (TB : In (PByte 0 inx, true) ti) by (unfold ti; destruct (byte_stored_first ord); cbn; auto).
    assert (TA : forall P Q, Forall (put_access P inx Q) ti).
    { intros P Q. unfold ti. destruct (byte_stored_first ord); repeat constructor; left; auto. }
    clearbody ti. unfold put_p.
    destruct lc as [|lc].
    { exists []. split; [|discriminate]. apply (does_fault _ _ _ (ti ++ [(PLoadCount, false)]) _ CounterUnderflow).
      eapply does_seq; [exact SI|]. eapply (does_load _ PLoadCount _ _ 0); [reflexivity|]. apply does_stop. }
    assert (Hb' : is_double (set_ibuf m bufs) = dbl) by (rewrite is_double_set_ibuf; exact Hb).
    destruct (Nat.ltb_spec 0 lc) as [Hlc|Hlc].
    { exists (ti ++ [(PLoadCount, false); (PLoadCount, true)]). split.
      - eapply does_seq; [exact SI|]. eapply (does_load _ PLoadCount _ _ (S lc)); [reflexivity|].
        eapply does_store; [reflexivity|]. destruct (Nat.ltb_spec 0 lc); [|lia]. apply does_done.
      - intros b' x' s H. injection H as <- <- <-. split; [split; apply in_or_app; apply or_introl; [exact TB|exact TI]|]. split; [discriminate|].
        exists m. split; auto. left. split; [lia|]. apply Forall_app. split; [apply TA|]. repeat constructor. }
    assert (lc = 0) as -> by lia. clear Hlc.
    (* a request or an index is complete *)
    assert (PRE : forall t r, does (Load PIsIndexLoaded (fun loaded =>
          if loaded : bool then call_p p ord kr dbl
          else
            seq (index_p p kr) (fun index =>
            if index <? kr_size kr then
              Load (PAction index) (fun a =>
              seq (local (input_size a)) (fun n =>
              Store PLoadCount n (Store PIsIndexLoaded true (
              Load PLoadCount (fun n' =>
              if n' =? 0 then call_p p ord kr dbl else Done LOADING_PACKET)))))
            else
              Store PLoadCount (kr_index_size kr) (Store PIbufNext 0 (Done DROPPED_PACKET)))))
          (mk_buffered d il 0 (S inx) onx ob (set_ibuf m bufs), x) t r ->
        does (put_p p ord kr dbl byte) (mk_buffered d il 1 inx onx ob bufs, x)
          (ti ++ (PLoadCount, false) :: (PLoadCount, true) :: t) r).
    { intros t r H. unfold put_p. eapply does_seq; [exact SI|]. eapply (does_load _ PLoadCount _ _ 1); [reflexivity|].
      eapply does_store; [reflexivity|]. exact H. }
    fold (put_p p ord kr dbl byte).
    destruct il.
    - (* the last byte of the arguments *)
      destruct (call_p_does (mk_buffered d true 0 (S inx) onx ob (set_ibuf m bufs)) x inx Hd Hb') as (t & C1 & C2).
      cbn [b_dispatcher b_bufs] in C2.
      destruct (call_loaded p (mk_buffered d true 0 (S inx) onx ob (set_ibuf m bufs)) x) as [[b' x']|f]; cbn [bind].
      + exists (ti ++ (PLoadCount, false) :: (PLoadCount, true) :: (PIsIndexLoaded, false) :: t). split.
        * apply PRE. eapply (does_load _ PIsIndexLoaded _ _ true); [reflexivity|]. exact C1.
        * intros b2 x2 s H. injection H as <- <- <-. destruct (C2 b' x' eq_refl) as (D1 & w & i & D2 & D3 & D4).
          split; [split; apply in_or_app; apply or_introl; [exact TB|exact TI]|]. split; [intros _; apply in_or_app; right; do 3 right; exact D1|].
          exists m. split; auto. right. split; auto. exists w, i. split; auto. split.
          -- intros _. apply in_or_app. right. do 3 right. exact D3.
          -- apply Forall_app. split; [apply TA|]. do 3 (constructor; [exact I|]).
             eapply Forall_impl; [|exact D4]. intros y. apply put_access_weaken; auto.
             intros j <-. split; auto. discriminate.
      + exists []. split; [|discriminate].
        apply (does_fault _ _ _ (ti ++ (PLoadCount, false) :: (PLoadCount, true) :: (PIsIndexLoaded, false) :: []) _ f).
        apply PRE. eapply (does_load _ PIsIndexLoaded _ _ true); [reflexivity|]. exact C1.
    - destruct (index_does (mk_buffered d false 0 (S inx) onx ob (set_ibuf m bufs)) x 0 x Hd) as (I1 & I2).
      cbn [b_dispatcher b_bufs] in I1, I2.
      destruct (get_index p (framed_dispatcher d) ibuf_source (mk_frame (set_ibuf m bufs) 0 0 x)) as [[w i]|f] eqn:EI; cbn [bind].
      2:{ exists []. split; [|discriminate].
          apply (does_fault _ _ _ (ti ++ (PLoadCount, false) :: (PLoadCount, true) :: (PIsIndexLoaded, false) :: []) _ f).
          apply PRE. eapply (does_load _ PIsIndexLoaded _ _ false); [reflexivity|]. eapply does_seq_fault. exact I1. }
      clear I2. unfold d_size. rewrite Hd.
      assert (TF : forall P Q, Forall (put_access P inx Q) (fetch_trace (kr_index_size kr) 0)).
      { intros P Q. apply Forall_forall. intros y Hy. apply in_map_iff in Hy. destruct Hy as (j & <- & _). reflexivity. }
      assert (PRE2 : forall t r, does (
            if i <? kr_size kr then
              Load (PAction i) (fun a =>
              seq (local (input_size a)) (fun n =>
              Store PLoadCount n (Store PIsIndexLoaded true (
              Load PLoadCount (fun n' =>
              if n' =? 0 then call_p p ord kr dbl else Done LOADING_PACKET)))))
            else
              Store PLoadCount (kr_index_size kr) (Store PIbufNext 0 (Done DROPPED_PACKET)))
          (mk_buffered d false 0 (S inx) onx ob (set_ibuf m bufs), x) t r ->
        does (put_p p ord kr dbl byte) (mk_buffered d false 1 inx onx ob bufs, x)
          (ti ++ (PLoadCount, false) :: (PLoadCount, true) :: (PIsIndexLoaded, false) :: (fetch_trace (kr_index_size kr) 0 ++ t)) r).
      { intros t r H. apply PRE. eapply (does_load _ PIsIndexLoaded _ _ false); [reflexivity|]. eapply does_seq; [exact I1|]. exact H. }
      clear PRE. destruct (Nat.ltb_spec i (kr_size kr)) as [Hi|Hi].
      + unfold action_at. destruct (nth_error (d_actions d) i) as [a|] eqn:EA; cbn [bind].
        2:{ exists []. split; [|discriminate].
            apply (does_fault _ _ _ (ti ++ (PLoadCount, false) :: (PLoadCount, true) :: (PIsIndexLoaded, false) :: (fetch_trace (kr_index_size kr) 0 ++ [])) _ OutOfBounds).
            apply PRE2. destruct (Nat.ltb_spec i (kr_size kr)); [|lia]. apply does_load_none. exact EA. }
        destruct (input_size a) as [n|f] eqn:EN; cbn [bind].
        2:{ exists []. split; [|discriminate].
            apply (does_fault _ _ _ (ti ++ (PLoadCount, false) :: (PLoadCount, true) :: (PIsIndexLoaded, false) :: (fetch_trace (kr_index_size kr) 0 ++ [(PAction i, false)])) _ f).
            apply PRE2. destruct (Nat.ltb_spec i (kr_size kr)); [|lia]. eapply does_load; [exact EA|].
            apply does_seq_fault with (t := []) (f := f). rewrite EN. apply does_stop. }
        destruct (Nat.eqb_spec n 0) as [->|Hn].
        * destruct (call_p_does (mk_buffered d true 0 (S inx) onx ob (set_ibuf m bufs)) x inx Hd Hb') as (t & C1 & C2).
          cbn [b_dispatcher b_bufs] in C2.
          destruct (call_loaded p (mk_buffered d true 0 (S inx) onx ob (set_ibuf m bufs)) x) as [[b' x']|f]; cbn [bind].
          -- exists (ti ++ (PLoadCount, false) :: (PLoadCount, true) :: (PIsIndexLoaded, false) :: (fetch_trace (kr_index_size kr) 0 ++
                 (PAction i, false) :: [] ++ (PLoadCount, true) :: (PIsIndexLoaded, true) :: (PLoadCount, false) :: t)). split.
             ++ apply PRE2. destruct (Nat.ltb_spec i (kr_size kr)); [|lia]. eapply does_load; [exact EA|].
                eapply does_seq; [rewrite EN; apply does_done|]. eapply does_store; [reflexivity|].
                eapply does_store; [reflexivity|]. eapply (does_load _ PLoadCount _ _ 0); [reflexivity|]. exact C1.
             ++ intros b2 x2 s H. injection H as <- <- <-. destruct (C2 b' x' eq_refl) as (D1 & w' & i' & D2 & D3 & D4).
                rewrite EI in D2. injection D2 as <- <-.
                split; [split; apply in_or_app; apply or_introl; [exact TB|exact TI]|].
                split; [intros _; apply in_or_app; right; do 3 right; apply in_or_app; right; do 4 right; exact D1|].
                exists m. split; auto. right. split; auto. exists w, i. split; auto. split.
                ** intros _. apply in_or_app. right. do 3 right. apply in_or_app. right. left. reflexivity.
                ** apply Forall_app. split; [apply TA|]. do 3 (constructor; [exact I|]).
                   apply Forall_app. split; [apply TF|]. constructor.
                   { split; auto. split; auto. discriminate. }
                   do 3 (constructor; [exact I|]).
                   eapply Forall_impl; [|exact D4]. intros y. apply put_access_weaken; auto.
                   intros j <-. split; auto. discriminate.
          -- exists []. split; [|discriminate].
             apply (does_fault _ _ _ (ti ++ (PLoadCount, false) :: (PLoadCount, true) :: (PIsIndexLoaded, false) :: (fetch_trace (kr_index_size kr) 0 ++
                 (PAction i, false) :: [] ++ (PLoadCount, true) :: (PIsIndexLoaded, true) :: (PLoadCount, false) :: [])) _ f).
             apply PRE2. destruct (Nat.ltb_spec i (kr_size kr)); [|lia]. eapply does_load; [exact EA|].
             eapply does_seq; [rewrite EN; apply does_done|]. eapply does_store; [reflexivity|].
             eapply does_store; [reflexivity|]. eapply (does_load _ PLoadCount _ _ 0); [reflexivity|]. exact C1.
        * exists (ti ++ (PLoadCount, false) :: (PLoadCount, true) :: (PIsIndexLoaded, false) :: (fetch_trace (kr_index_size kr) 0 ++
                 (PAction i, false) :: [] ++ (PLoadCount, true) :: (PIsIndexLoaded, true) :: (PLoadCount, false) :: [])). split.
          -- apply PRE2. destruct (Nat.ltb_spec i (kr_size kr)); [|lia]. eapply does_load; [exact EA|].
             eapply does_seq; [rewrite EN; apply does_done|]. eapply does_store; [reflexivity|].
             eapply does_store; [reflexivity|]. eapply (does_load _ PLoadCount _ _ n); [reflexivity|].
             destruct (Nat.eqb_spec n 0); [contradiction|]. apply does_done.
          -- intros b2 x2 s H. injection H as <- <- <-.
             split; [split; apply in_or_app; apply or_introl; [exact TB|exact TI]|]. split; [discriminate|].
             exists m. split; auto. right. split; auto. exists w, i. split; auto. split.
             ++ intros _. apply in_or_app. right. do 3 right. apply in_or_app. right. left. reflexivity.
             ++ apply Forall_app. split; [apply TA|]. do 3 (constructor; [exact I|]).
                apply Forall_app. split; [apply TF|]. constructor.
                { split; auto. split; auto. discriminate. }
                do 3 (constructor; [exact I|]). constructor.
      + exists (ti ++ (PLoadCount, false) :: (PLoadCount, true) :: (PIsIndexLoaded, false) :: (fetch_trace (kr_index_size kr) 0 ++
                 [(PLoadCount, true); (PIbufNext, true)])). split.
        * apply PRE2. destruct (Nat.ltb_spec i (kr_size kr)); [lia|].
          eapply does_store; [reflexivity|]. eapply does_store; [reflexivity|]. 
          unfold index_length. rewrite Hd. apply does_done.
        * intros b2 x2 s H. injection H as <- <- <-.
          split; [split; apply in_or_app; apply or_introl; [exact TB|exact TI]|]. split; [discriminate|].
          exists m. split; auto. right. split; auto. exists w, i. split; auto. split; [congruence|].
          apply Forall_app. split; [apply TA|]. do 3 (constructor; [exact I|]).
          apply Forall_app. split; [apply TF|]. repeat constructor.
  Qed.

  (** ** The other functions *)

  Lemma is_loaded_does : forall (b : buffered X) x,
    exists t, alone (is_loaded_p ord) (b, x) = (t, Ok (is_loaded b), (b, x))
      /\ In (PObufNext, false) t /\ Forall (fun a => a = (PObufNext, false) \/ a = (PObufBottom, false)) t.
  Proof.
    intros b x. unfold is_loaded_p, is_loaded. destruct (next_read_first ord); cbn [alone look];
      (eexists; split; [reflexivity|]; split; [cbn; auto|apply Forall_cons; [auto|apply Forall_cons; [auto|apply Forall_nil]]]).
  Qed.

  Lemma get_does : forall (b : buffered X) x, is_double (b_bufs b) = dbl ->
    match get_byte b with
    | Fault _ => exists t f s, alone (get_p ord dbl) (b, x) = (t, Fault f, s)
    | Ok (b', v) => exists t, alone (get_p ord dbl) (b, x) = (t, Ok v, (b', x))
        /\ In (PObufNext, false) t
        /\ (is_loaded b = true -> In (PObufNext, true) t /\ In (PByte (out_array dbl) (b_obuf_next b), false) t)
        /\ Forall (fun a => a = (PObufNext, false) \/ a = (PObufBottom, false)
              \/ (is_loaded b = true /\ (a = (PObufNext, true) \/ a = (PByte (out_array dbl) (b_obuf_next b), false)))) t
    end.
  Proof.
    intros b x Hb. destruct (is_loaded_does b x) as (t & H1 & H2 & H3). unfold get_byte, get_p.
    assert (F : Forall (fun a => a = (PObufNext, false) \/ a = (PObufBottom, false)
              \/ (is_loaded b = true /\ (a = (PObufNext, true) \/ a = (PByte (out_array dbl) (b_obuf_next b), false)))) t).
    { eapply Forall_impl; [|exact H3]. intros a [->| ->]; auto. }
    destruct (is_loaded b) eqn:E.
    - assert (L : look (PByte (out_array dbl) (b_obuf_next b)) (b, x) = nth_error (obuf (b_bufs b)) (b_obuf_next b)) by (apply look_out; auto).
      unfold load. destruct (nth_error (obuf (b_bufs b)) (b_obuf_next b)) as [v|] eqn:EL; cbn [bind].
      + destruct b as [d il lc inx onx ob bufs]. cbn [b_dispatcher b_is_index_loaded b_load_count b_ibuf_next b_obuf_next b_obuf_bottom b_bufs] in *.
        destruct (byte_read_first ord).
        * exists (t ++ [(PObufNext, false); (PByte (out_array dbl) onx, false); (PObufNext, true)]). split; [|split; [|split]].
          -- apply (does_seq _ _ (is_loaded_p ord) _ _ t true (mk_buffered d il lc inx onx ob bufs, x) _
                (Ok (v, (mk_buffered d il lc inx (S onx) ob bufs, x)))); [exact H1|].
             eapply (does_load _ PObufNext _ _ onx); [reflexivity|].
             eapply does_load; [exact L|]. eapply does_store; [reflexivity|]. apply does_done.
          -- apply in_or_app. auto.
          -- intros _. split; apply in_or_app; right; cbn; auto.
          -- apply Forall_app. split; [exact F|]. repeat (apply Forall_cons; [auto 6|]). apply Forall_nil.
        * exists (t ++ [(PObufNext, false); (PObufNext, true); (PByte (out_array dbl) onx, false)]). split; [|split; [|split]].
          -- apply (does_seq _ _ (is_loaded_p ord) _ _ t true (mk_buffered d il lc inx onx ob bufs, x) _
                (Ok (v, (mk_buffered d il lc inx (S onx) ob bufs, x)))); [exact H1|].
             eapply (does_load _ PObufNext _ _ onx); [reflexivity|]. eapply does_store; [reflexivity|].
             eapply does_load; [|apply does_done].
             rewrite (look_out (mk_buffered d il lc inx (S onx) ob bufs) x onx Hb). exact EL.
          -- apply in_or_app. auto.
          -- intros _. split; apply in_or_app; right; cbn; auto.
          -- apply Forall_app. split; [exact F|]. repeat (apply Forall_cons; [auto 6|]). apply Forall_nil.
      + destruct b as [d il lc inx onx ob bufs]. cbn [b_dispatcher b_is_index_loaded b_load_count b_ibuf_next b_obuf_next b_obuf_bottom b_bufs] in *.
        destruct (byte_read_first ord).
        * apply (does_seq _ _ (is_loaded_p ord) _ _ t true (mk_buffered d il lc inx onx ob bufs, x) [(PObufNext, false)] (Fault OutOfBounds)); [exact H1|].
          eapply (does_load _ PObufNext _ _ onx); [reflexivity|]. apply does_load_none. exact L.
        * apply (does_seq _ _ (is_loaded_p ord) _ _ t true (mk_buffered d il lc inx onx ob bufs, x) [(PObufNext, false); (PObufNext, true)] (Fault OutOfBounds)); [exact H1|].
          eapply (does_load _ PObufNext _ _ onx); [reflexivity|]. eapply does_store; [reflexivity|]. apply does_load_none.
          rewrite (look_out (mk_buffered d il lc inx (S onx) ob bufs) x onx Hb). exact EL.
    - exists t. split; [|split; [exact H2|split; [discriminate|exact F]]].
      rewrite <- (app_nil_r t).
      apply (does_seq _ _ (is_loaded_p ord) _ _ t false (b, x) [] (Ok (0%Z, (b, x)))); [exact H1|]. apply does_done.
  Qed.

  Lemma replace_does : forall (b : buffered X) x i r b', d_keyring (b_dispatcher b) = kr ->
    d_features (b_dispatcher b) = ft -> replace_buffered b i r = Some (Ok b') ->
    alone (replace_p kr ft i r) (b, x) = ([(PAction i, true)], Ok tt, (b', x)).
  Proof.
    intros [d il lc inx onx ob bufs] x i r b' Hd Hf H. unfold replace_buffered in H.
    cbn [b_dispatcher b_is_index_loaded b_load_count b_ibuf_next b_obuf_next b_obuf_bottom b_bufs] in *.
    destruct (replace d i r) as [[d'|]|] eqn:E; try discriminate. injection H as <-.
    unfold replace in E. rewrite Hd, Hf in E.
    destruct (at17 (kr_signatures kr) i) as [s|]; [|discriminate].
    destruct ((i <? d_size d) && _); [|destruct r; discriminate].
    assert (G : assign_action d i (new_action kr ft r) = Ok d').
    { unfold new_action. destruct r as [f|f]; [congruence|]. destruct ft; [|discriminate]. congruence. }
    unfold assign_action in G. unfold replace_p. cbn [alone]. unfold change.
    destruct (i <? length (d_actions d)); [|discriminate]. injection G as <-. reflexivity.
  Qed.
End Fidelity.
