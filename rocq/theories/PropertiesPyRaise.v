(** Property C59: Python callbacks which raise. *)

From Coq Require Import List ZArith Lia Bool Arith.
From Verif Require Import Base CInt Spec IntModel Conditions MemFacts TypeLevel Serial TupleModel
  TypeLevelProofs IntProofs SignedProofs SerialProofs CodecFacts Bounds TupleProofs SpecRpc Rpc RpcProofs
  Hosts Closed PropertiesTypes PropertiesRpc Buffered SpecBuffered BufferedProofs PropertiesBuffered
  PropertiesBuffers PropertiesPackets PropertiesPython Exceptions PropertiesExceptions Python PyRaise.
Import ListNotations.
Open Scope nat_scope.

(** The function does not give a value of type [ret]: it raises, or its result
    does not convert. *)
Definition fails (ret : option ty) (r : option pyval) : Prop :=
  match r, ret with
  | None, _ => True
  | Some _, None => False
  | Some v, Some t => to_cpp t v = None
  end.

(** It gives the C++ value [c] ([void]: whatever it returns). *)
Definition gives (ret : option ty) (r : option pyval) (c : val) : Prop :=
  match r, ret with
  | None, _ => False
  | Some _, None => True
  | Some v, Some t => to_cpp t v = Some c
  end.

Lemma fails_thrown : forall (S : Type) sg (f : raising_function (S := S)) args s s' r,
  f (of_cpp_list (sig_params sg) args) s = (s', r) -> fails (sig_ret sg) r -> py_thrown sg f args s = Some s'.
Proof.
  intros S sg f args s s' r E H. unfold py_thrown. rewrite E. destruct r as [v|]; auto. cbn in H.
  destruct (sig_ret sg); [|contradiction]. rewrite H. reflexivity.
Qed.

Lemma gives_returned : forall (S : Type) sg (f : raising_function (S := S)) args s s' r c,
  f (of_cpp_list (sig_params sg) args) s = (s', r) -> gives (sig_ret sg) r c -> py_thrown sg f args s = None.
Proof.
  intros S sg f args s s' r c E H. unfold py_thrown. rewrite E. destruct r as [v|]; [|contradiction]. cbn in H.
  destruct (sig_ret sg); auto. rewrite H. reflexivity.
Qed.

Section Setting.
  Context {X : Type}.
  Variables (p : platform) (kr : keyring X).
  Hypothesis Hk : keyring_ok p kr.
  Variable table : list (func X).
  Hypothesis Htable : map f_sig table = kr_signatures kr.
  Variables (i : nat) (f : func X) (args : list val).
  Hypothesis Hi : nth_error table i = Some f.
  Hypothesis Ha : Forall2 (encodable p (kr_m kr)) (sig_params (f_sig f)) args.

  Lemma packet_len : length (packet kr i f args) = kr_index_size kr + wire_sizes (sig_params (f_sig f)).
  Proof.
    unfold packet, request. rewrite app_length, wire_bytes_length. f_equal.
    apply enc_list_length. eapply encodable_has; eauto.
  Qed.

  Lemma examine_whole : examine (format_of kr) table (packet kr i f args)
    = Request f (enc_list (kr_e kr) (kr_m kr) (sig_params (f_sig f)) args).
  Proof.
    pose proof packet_len as Hl. unfold examine. cbn [format_of fm_w].
    destruct (Nat.ltb_spec (length (packet kr i f args)) (kr_index_size kr)); [lia|].
    assert (E : designated (format_of kr) table (packet kr i f args) = Some f)
      by (apply (packet_designates p kr Hk table Htable i f args); auto).
    unfold format_of in E |- *. cbn [fm_w] in *. rewrite E. unfold params.
    destruct (Nat.ltb_spec (length (packet kr i f args)) (kr_index_size kr + wire_sizes (sig_params (f_sig f)))); [lia|].
    rewrite packet_payload. reflexivity.
  Qed.

  Lemma examine_part : forall n, n < length (packet kr i f args) ->
    examine (format_of kr) table (firstn n (packet kr i f args)) = Incomplete.
  Proof.
    intros n Hn. pose proof packet_len as Hl. unfold examine. cbn [format_of fm_w].
    rewrite firstn_length, Nat.min_l by lia. destruct (Nat.ltb_spec n (kr_index_size kr)); auto.
    assert (E : designated (format_of kr) table (firstn n (packet kr i f args)) = Some f).
    { apply (packet_designates p kr Hk table Htable i f args); auto.
      rewrite firstn_firstn, Nat.min_l by lia. reflexivity. }
    unfold format_of in E |- *. cbn [fm_w] in *. rewrite E. unfold params.
    destruct (Nat.ltb_spec n (kr_index_size kr + wire_sizes (sig_params (f_sig f)))); auto. lia.
  Qed.

  Lemma whole_index : index_of (format_of kr) (packet kr i f args) = i.
  Proof.
    unfold index_of. cbn [format_of fm_w fm_e]. rewrite packet_index. apply (wire_index X kr); [apply Hk|].
    rewrite <- (table_len kr table Htable). apply nth_error_Some. congruence.
  Qed.
End Setting.

Lemma yields_split : forall (X : Type) (src : esource X) l last x x1, yields src x (l ++ [last]) x1 ->
  exists y, yields src x l y /\ src y = Ok (x1, Returned last).
Proof.
  intros X src. induction l as [|c l IH]; intros last x x1 H; inversion H; subst.
  - exists x. split; [constructor|]. match goal with H : yields _ _ [] _ |- _ => inversion H; subst end. auto.
  - match goal with H : yields _ _ (l ++ [last]) _ |- _ => destruct (IH _ _ _ H) as (y & Hy & E) end.
    exists y. split; auto. econstructor; eauto.
Qed.

(** The size of the input buffer is that computed from the keyring. *)
Lemma reached_input : forall (X : Type) p (kr : keyring X) ft b a x,
  wf_platform p -> keyring_ok p kr -> well_sized true kr ft -> reached p true kr ft b a x ->
  needed_input_buffer_size kr = Some (length (ibuf (b_bufs b))).
Proof.
  intros X p kr ft b a x Hp Hk Hs (g & g' & b0 & ops & x0 & vs & Hb & Hal & Hm & Hr).
  destruct (make_buffered_represents X p true kr ft g g' b0 Hk Hs Hb) as (ni & no & Hw & Hf & Hrep).
  pose proof (run_refines p kr ft ni no true Hp Hk Hw Hf ops b0 (fresh kr) x0 Hrep Hal) as H.
  unfold agrees in H. rewrite Hm in H. destruct H as (b' & E & H). assert (b = b') by congruence. subst b'.
  destruct Hrep as (_ & H0 & _). destruct H as (_ & H1 & _). rewrite H1, <- H0.
  cbn [make_buffered] in Hb. unfold make_double in Hb.
  destruct (needed_input_buffer_size kr) as [n|]; [|discriminate].
  destruct (needed_output_buffer_size kr); [|discriminate]. injection Hb as <-.
  cbn [init_buffered b_bufs ibuf]. rewrite firstn_length, app_length, repeat_length. f_equal. lia.
Qed.

Lemma py_replace_stuck : forall (S : Type) (b : buffered S) k f b', py_replace b k f = Ok b' -> stuck b ->
  stuck b' /\ b_bufs b' = b_bufs b /\ b_ibuf_next b' = b_ibuf_next b.
Proof.
  intros S b k f b' E H. unfold py_replace in E. destruct (py_index k); try discriminate.
  unfold assign_buffered in E. ok_inv E d. injection E as <-.
  split; [exact H|]. auto.
Qed.

Section Raising.
  Context {X : Type}.
  Variables (p : platform) (size_max : nat) (kr : keyring X) (name : nat) (f0 : func X) (k : key).
  Variables (b : buffered X) (a : machine X) (x : X) (f : raising_function (S := X)) (throws : throwing X).
  Variables (cargs : list val) (src : esource X) (x1 : X).
  Hypothesis Hp : wf_platform p.
  Hypothesis Hk : keyring_ok p kr.
  Hypothesis Hs : well_sized true kr ANY.
  Hypothesis Hin : In (name, f0) (kr_funcs kr).
  Hypothesis Hget : kr_get kr name f0 = Some k.
  Hypothesis H : reached p true kr ANY b a x.
  Hypothesis Hempty : mc_in a = [].
  Hypothesis Hargs : Forall2 (encodable p (k_m k)) (sig_params (k_sig k)) cargs.
  Hypothesis Hy : yields src x (key_request k cargs) x1.

  Let g : func X := py_callback (k_sig k) (results_of f).
  Let table : list (func X) := update (mc_table a) (k_index k) g.

  Lemma replaced : exists b1, py_replace b k (results_of f) = Ok b1
    /\ reached p true kr ANY b1 (mk_machine [] (mc_out a) table) x
    /\ map f_sig table = kr_signatures kr
    /\ nth_error table (k_index k) = Some g
    /\ packet kr (k_index k) g cargs = key_request k cargs
    /\ k_m k = kr_m kr /\ k_e k = kr_e kr
    /\ length (ibuf (b_bufs b1)) = length (ibuf (b_bufs b)).
  Proof.
    destruct (C51_replace X p kr name f0 k b a x (results_of f) Hp Hk Hs Hin Hget H) as (b1 & E1 & _ & H1).
    destruct (kr_get_nth X kr name f0 k Hget Hin) as (Hi & _ & Ek).
    pose proof (reached_table p true kr ANY Hp Hk Hs b a x H) as Ht.
    assert (Hlt : k_index k < length (mc_table a)).
    { rewrite <- (map_length f_sig), Ht. unfold kr_signatures. rewrite map_length. apply nth_error_Some. congruence. }
    exists b1. split; auto. rewrite Hempty in H1. split; [exact H1|].
    split; [exact (reached_table p true kr ANY Hp Hk Hs b1 _ x H1)|].
    split.
    { unfold table. clear - Hlt. revert Hlt. generalize (k_index k).
      induction (mc_table a) as [|h l IH]; intros [|n] Hl; cbn in *; try lia; auto. apply IH. lia. }
    split. { unfold packet, key_request. cbn [g py_callback f_sig]. rewrite Ek at 3 4 5. reflexivity. }
    split; [rewrite Ek; reflexivity|]. split; [rewrite Ek; reflexivity|].
    clear - E1. unfold py_replace in E1. destruct (py_index k); try discriminate.
    unfold assign_buffered in E1. ok_inv E1 d. injection E1 as <-. reflexivity.
  Qed.

  Lemma request_split : exists bs last, key_request k cargs = bs ++ [last]
    /\ Forall is_byte bs /\ is_byte last
    /\ examine (format_of kr) table bs = Incomplete
    /\ examine (format_of kr) table (bs ++ [last])
       = Request g (enc_list (kr_e kr) (kr_m kr) (sig_params (k_sig k)) cargs)
    /\ index_of (format_of kr) (bs ++ [last]) = k_index k
    /\ dec_list (kr_e kr) (kr_m kr) (sig_params (k_sig k)) (enc_list (kr_e kr) (kr_m kr) (sig_params (k_sig k)) cargs)
       = cargs
    /\ decodable_list p (kr_e kr) (kr_m kr) (sig_params (k_sig k))
         (enc_list (kr_e kr) (kr_m kr) (sig_params (k_sig k)) cargs).
  Proof.
    destruct replaced as (b1 & _ & _ & Ht & Hg & Epk & Em & Ee & _).
    pose proof (keyring_key_ok X p kr name f0 k Hk Hin Hget) as (Hw & _).
    destruct (table_sig_ok p kr Hk table Ht (k_index k) g Hg) as [Hsp _].
    pose proof Hargs as Ha. rewrite Em in Ha.
    assert (Hlen : 0 < length (key_request k cargs)) by (rewrite (key_request_length p) by auto; lia).
    destruct (exists_last (l := key_request k cargs)) as (bs & last & E); [intros E0; rewrite E0 in Hlen; cbn in Hlen; lia|].
    assert (Hb : Forall is_byte (key_request k cargs)) by (rewrite <- Epk; apply packet_bytes).
    rewrite E in Hb. apply Forall_app in Hb. destruct Hb as [Hb Hl]. inversion Hl; subst.
    exists bs, last. split; auto. split; auto. split; auto.
    assert (Hbs : bs = firstn (length bs) (packet kr (k_index k) g cargs)).
    { rewrite Epk, E, firstn_app, Nat.sub_diag, firstn_all. cbn. rewrite app_nil_r. reflexivity. }
    split.
    { rewrite Hbs. apply (examine_part p kr Hk table Ht (k_index k) g cargs Hg Ha).
      rewrite Epk, E, app_length. cbn. lia. }
    rewrite <- E, <- Epk.
    split; [exact (examine_whole p kr Hk table Ht (k_index k) g cargs Hg Ha)|].
    split; [exact (whole_index p kr Hk table Ht (k_index k) g cargs Hg)|].
    assert (Hwf : Forall wf_ty (sig_params (k_sig k))).
    { eapply Forall_impl; [|exact Hsp]. intros t Hty. apply Hty. }
    split; [apply (dec_list_enc_list p); auto|apply encodable_decodable_list; auto].
  Qed.

  (** The function fails. *)
  Lemma raised : forall x2 r, length (ibuf (b_bufs b)) <= size_max ->
    (forall args s, throws (k_index k) args s = py_thrown (k_sig k) f args s) ->
    f (of_cpp_list (sig_params (k_sig k)) cargs) x1 = (x2, r) -> fails (sig_ret (k_sig k)) r ->
    exists b1 b2,
      py_replace b k (results_of f) = Ok b1
      /\ read_from_e p size_max throws src b1 x = Ok (b2, x2, Thrown)
      /\ is_loaded b2 = false
      /\ stuck b2 /\ length (ibuf (b_bufs b2)) <= size_max.
  Proof.
    intros x2 r Hm Hth Hf Hfail.
    destruct replaced as (b1 & E1 & H1 & _ & _ & _ & _ & _ & Hlen1).
    destruct request_split as (bs & last & E & Hb & Hl & Hex & Hreq & Hidx & Hdec & Hdecok).
    rewrite E in Hy. destruct (yields_split X src bs last x x1 Hy) as (y & Hyb & Ey).
    destruct (read_prefix p size_max throws true kr ANY Hp Hk Hs src bs b1 _ x y H1 (or_introl eq_refl) Hyb Hb Hex)
      as (b1' & H1' & Er).
    cbn [mc_in mc_out mc_table app] in H1'.
    pose proof (reached_outside p true kr ANY Hp Hk Hs b1' _ y x1 H1') as H1''.
    assert (Hthr : thrown (format_of kr) throws table (bs ++ [last]) x1 = Some x2).
    { unfold thrown. rewrite Hreq, Hidx. unfold params. cbn [format_of fm_e fm_m g py_callback f_sig].
      rewrite Hdec, Hth. eapply fails_thrown; eauto. }
    assert (Hrec : receivable (format_of kr) p table (bs ++ [last])).
    { unfold receivable. rewrite Hreq. exact Hdecok. }
    pose proof (reached_put_thrown p size_max throws true kr ANY Hp Hk Hs b1' _ x1 last x2 H1'' Hl Hrec Hthr) as Ep.
    exists b1, (after_throw b1' (mk_machine bs (mc_out a) table) last). split; auto.
    split; [rewrite Er, (read_next p size_max throws src b1' y x1 last Ey), Ep; reflexivity|].
    split; [reflexivity|]. split; [split; [reflexivity|left; reflexivity]|].
    cbn [after_throw b_bufs]. rewrite ibuf_set_ibuf.
    pose proof (reached_input X p kr ANY b1' _ y Hp Hk Hs H1') as L1.
    pose proof (reached_input X p kr ANY b a x Hp Hk Hs H) as L0.
    assert (L : length (ibuf (b_bufs b1')) = length (ibuf (b_bufs b))) by congruence.
    destruct (reached_represents p true kr ANY Hp Hk Hs b1' _ y H1') as (ni & no & Hw & Hfr & Hrep).
    assert (Hroom : length bs < length (ibuf (b_bufs b1'))).
    { pose proof Hrep as (Htab & Hni & _ & _ & _ & _ & _ & _ & _ & _ & Hprog). rewrite Hni. unfold progress in Hprog.
      cbn [mc_in mc_table] in *. destruct (b_is_index_loaded b1').
      - destruct Hprog as (h & Hd & P1 & P2 & P3). unfold designated in Hd.
        destruct (table_sig p kr ANY ni no Hk Hfr _ _ _ _ Htab Hd) as [_ (_ & Hfi & _)]. unfold params in *. lia.
      - lia. }
    cbn [mc_in]. rewrite splice_length by (cbn [length]; lia). lia.
  Qed.

  (** The function gives a value. *)
  Lemma returned : forall x2 r c,
    (forall args s, throws (k_index k) args s = py_thrown (k_sig k) f args s) ->
    f (of_cpp_list (sig_params (k_sig k)) cargs) x1 = (x2, r) -> gives (sig_ret (k_sig k)) r c ->
    ret_encodable p (k_m k) (sig_ret (k_sig k)) c ->
    exists b1 b2,
      py_replace b k (results_of f) = Ok b1
      /\ read_from_e p size_max throws src b1 x = Ok (b2, x2, Returned RESOLVED_PACKET)
      /\ reached p true kr ANY b2
           (mk_machine [] (response (k_e k) (k_m k) (sig_ret (k_sig k)) c) table) x2.
  Proof.
    intros x2 r c Hth Hf Hgive Hret.
    destruct replaced as (b1 & E1 & H1 & _ & _ & _ & Em & Ee & _).
    destruct request_split as (bs & last & E & Hb & Hl & Hex & Hreq & Hidx & Hdec & Hdecok).
    rewrite E in Hy.
    set (c' := snd (f_call g cargs x1)).
    assert (Hcall : f_call g cargs x1 = (x2, c')).
    { unfold c', g, py_callback, results_of. cbn [f_call]. rewrite Hf. reflexivity. }
    assert (Hresp : response (k_e k) (k_m k) (sig_ret (k_sig k)) c' = response (k_e k) (k_m k) (sig_ret (k_sig k)) c
                    /\ ret_encodable p (k_m k) (sig_ret (k_sig k)) c').
    { unfold c', g, py_callback, results_of. cbn [f_call]. rewrite Hf. cbn [snd]. unfold response, ret_encodable, gives in *.
      destruct r as [v|]; [|contradiction]. destruct (sig_ret (k_sig k)); auto. rewrite Hgive. auto. }
    destruct Hresp as [Hresp Hre].
    destruct (C54_getter_returns X p size_max throws true kr ANY b1 _ x src bs last x1
                (mk_machine [] (response (k_e k) (k_m k) (sig_ret (k_sig k)) c) table) x2 RESOLVED_PACKET
                Hp Hk Hs H1 (or_introl eq_refl) Hy) as (b2 & E2 & H2).
    { apply Forall_app. auto. }
    { exact Hex. }
    { cbn [mc_in mc_table app]. rewrite Hreq. discriminate. }
    { cbn [mc_in mc_table app]. unfold servable. rewrite Hreq. unfold params, ret.
      cbn [format_of fm_e fm_m]. change (f_sig g) with (k_sig k). rewrite Hdec, Hcall. cbn [snd]. rewrite <- Em. auto.
      split; auto. rewrite Em. exact Hdecok. }
    { cbn [mc_in mc_table app]. unfold thrown. rewrite Hreq, Hidx. unfold params. cbn [format_of fm_e fm_m].
      change (f_sig g) with (k_sig k). rewrite Hdec, Hth. eapply gives_returned; eauto. }
    { cbn [mc_in mc_table app]. unfold received. cbn [mc_table]. rewrite Hreq. unfold serve, params, ret.
      cbn [format_of fm_e fm_m]. change (f_sig g) with (k_sig k). rewrite Hdec, Hcall, <- Em, <- Ee, Hresp. reflexivity. }
    exists b1, b2. auto.
  Qed.
End Raising.

(** A Python function replaces a callback, and fails when it is called by a
    request: the exception leaves [read_from], the response is not sent, and the
    dispatcher never serves a request again, whatever callbacks are replaced
    afterwards. *)
Theorem C59_raises : forall (X : Type) p size_max (kr : keyring X) name f0 k b a x (f : raising_function (S := X))
    throws cargs (src : esource X) x1 x2 r,
  wf_platform p -> keyring_ok p kr -> well_sized true kr ANY ->
  In (name, f0) (kr_funcs kr) -> kr_get kr name f0 = Some k -> reached p true kr ANY b a x -> mc_in a = [] ->
  Forall2 (encodable p (k_m k)) (sig_params (k_sig k)) cargs ->
  yields src x (key_request k cargs) x1 ->
  length (ibuf (b_bufs b)) <= size_max ->
  (forall args s, throws (k_index k) args s = py_thrown (k_sig k) f args s) ->
  f (of_cpp_list (sig_params (k_sig k)) cargs) x1 = (x2, r) -> fails (sig_ret (k_sig k)) r ->
  exists b1 b2,
    py_replace b k (results_of f) = Ok b1
    /\ read_from_e p size_max throws src b1 x = Ok (b2, x2, Thrown)
    /\ is_loaded b2 = false
    /\ (forall throws' src' y b' y' s, read_from_e p size_max throws' src' b2 y <> Ok (b', y', Returned s))
    /\ (forall k' f' b3, py_replace b2 k' f' = Ok b3 ->
          forall throws' src' y b' y' s, read_from_e p size_max throws' src' b3 y <> Ok (b', y', Returned s)).
Proof.
  intros X p size_max kr name f0 k b a x f throws cargs src x1 x2 r Hp Hk Hs Hin Hget H He Ha Hy Hm Hth Hf Hfail.
  destruct (raised p size_max kr name f0 k b a x f throws cargs src x1 Hp Hk Hs Hin Hget H He Ha Hy x2 r Hm Hth Hf Hfail)
    as (b1 & b2 & E1 & E2 & Hl & Hst & Hm2).
  exists b1, b2. split; auto. split; auto. split; auto. split.
  - intros throws' src' y b' y' s. apply (read_stuck p size_max throws' src' (length (ibuf (b_bufs b2)))); auto; lia.
  - intros k' f' b3 E3 throws' src' y b' y' s. destruct (py_replace_stuck X b2 k' f' b3 E3 Hst) as (Hst3 & Hb & Hn).
    apply (read_stuck p size_max throws' src' (length (ibuf (b_bufs b2)))); auto; rewrite ?Hb; lia.
Qed.

(** It gives a value: the request is resolved, and its response is that value. *)
Theorem C59_returns : forall (X : Type) p size_max (kr : keyring X) name f0 k b a x (f : raising_function (S := X))
    throws cargs (src : esource X) x1 x2 r c,
  wf_platform p -> keyring_ok p kr -> well_sized true kr ANY ->
  In (name, f0) (kr_funcs kr) -> kr_get kr name f0 = Some k -> reached p true kr ANY b a x -> mc_in a = [] ->
  Forall2 (encodable p (k_m k)) (sig_params (k_sig k)) cargs ->
  yields src x (key_request k cargs) x1 ->
  (forall args s, throws (k_index k) args s = py_thrown (k_sig k) f args s) ->
  f (of_cpp_list (sig_params (k_sig k)) cargs) x1 = (x2, r) -> gives (sig_ret (k_sig k)) r c ->
  ret_encodable p (k_m k) (sig_ret (k_sig k)) c ->
  exists b1 b2,
    py_replace b k (results_of f) = Ok b1
    /\ read_from_e p size_max throws src b1 x = Ok (b2, x2, Returned RESOLVED_PACKET)
    /\ reached p true kr ANY b2
         (mk_machine [] (response (k_e k) (k_m k) (sig_ret (k_sig k)) c)
            (update (mc_table a) (k_index k) (py_callback (k_sig k) (results_of f)))) x2.
Proof.
  intros X p size_max kr name f0 k b a x f throws cargs src x1 x2 r c Hp Hk Hs Hin Hget H He Ha Hy Hth Hf Hgive Hret.
  exact (returned p size_max kr name f0 k b a x f throws cargs src x1 Hp Hk Hs Hin Hget H He Ha Hy x2 r c Hth Hf Hgive Hret).
Qed.

(** ** Examples *)

(** A Python function which raises when its second argument is 5, returns a
    string when it is 6, and adds its arguments otherwise. *)
Definition ex_picky (args : list pyval) (s : wires log) : wires log * option pyval :=
  (mk_wires (w_in s) (w_out s) ((7, []) :: w_user s),
   match args with
   | [PyInt a; PyInt 5] => None
   | [PyInt a; PyInt 6] => Some (PyOther 0)
   | [PyInt a; PyInt b] => Some (PyInt (a + b))
   | _ => None
   end).

Definition ex_picky_throws : throwing (wires log) :=
  fun i args s => if i =? k_index ex_key_add then py_thrown (k_sig ex_key_add) ex_picky args s else None.

(** The same function gives a value of [7], and fails on [5] and on [6]. *)
Example C59_example :
  let args b := of_cpp_list (sig_params (k_sig ex_key_add)) [VInt (-2); VInt b]%Z in
  let w := mk_wires [] [] ([] : log) in
  let w' := mk_wires [] [] [(7, [])] in
  (exists r, ex_picky (args 5%Z) w = (w', r) /\ fails (sig_ret (k_sig ex_key_add)) r)
  /\ (exists r, ex_picky (args 6%Z) w = (w', r) /\ r <> None /\ fails (sig_ret (k_sig ex_key_add)) r)
  /\ (exists r, ex_picky (args 7%Z) w = (w', r) /\ gives (sig_ret (k_sig ex_key_add)) r (VInt 5))
  /\ yields take_or_throw (mk_wires [0; 255; 254; 5]%Z [] ([] : log)) (key_request ex_key_add [VInt (-2); VInt 5]%Z) w.
Proof.
  cbv zeta. split; [eexists; split; [reflexivity|exact I]|].
  split; [eexists; split; [reflexivity|]; split; [discriminate|vm_compute; reflexivity]|].
  split; [eexists; split; [reflexivity|vm_compute; reflexivity]|].
  change (key_request ex_key_add [VInt (-2); VInt 5]%Z) with [0; 255; 254; 5]%Z.
  repeat econstructor.
Qed.

(** Two requests: the first one served when the function gives a value, then the
    second one too; when it fails, the second one, whose callback is another one,
    is swallowed. *)
Example C59_example_runs : exists b b1,
  py_dispatcher (lift_keyring ex_keyring) [] [] = Some b
  /\ py_replace b ex_key_add (results_of ex_picky) = Ok b1
  /\ (let two bs := '(b2, w2, o2) <- read_from_e pc_native 1000 ex_picky_throws take_or_throw b1 (mk_wires bs [] []);;
                    '(b3, w3, o3) <- read_from_e pc_native 1000 ex_picky_throws take_or_throw b2 w2;;
                    Ok (o2, o3, w3) in
      two [0; 255; 254; 7; 1]%Z
      = Ok (Returned RESOLVED_PACKET, Returned RESOLVED_PACKET, mk_wires [] [] [(1, []); (7, [])])
      /\ two [0; 255; 254; 5; 1]%Z = Ok (Thrown, Thrown, mk_wires [] [] [(7, [])])
      /\ two [0; 255; 254; 6; 1]%Z = Ok (Thrown, Thrown, mk_wires [] [] [(7, [])])
      /\ two [0; 255; 254; 5; 1; 1; 1; 1; 1; 1]%Z = Fault OutOfBounds).
Proof.
  eexists. eexists. split; [reflexivity|]. split; [reflexivity|]. repeat split; vm_compute; reflexivity.
Qed.
