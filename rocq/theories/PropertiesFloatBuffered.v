(** C109: buffered dispatchers of callbacks whose parameters and results contain
    floating point values. *)

From Coq Require Import List ZArith Bool Arith Lia SpecFloat.
From Verif Require Import Base CInt IntModel TypeLevel Serial TupleModel Rpc FloatModel FloatCalls Buffered FloatBuffered.
From Verif Require Import Spec SpecRpc Conditions IntProofs SignedProofs SerialProofs CodecFacts TypeLevelProofs TupleProofs RpcProofs
  MemFacts Hosts PropertiesRpc PropertiesFloat PropertiesFloatCalls SpecBuffered BufferedProofs PropertiesBuffered
  PropertiesPackets PropertiesIterators.
Import ListNotations.
Open Scope nat_scope.

(** ** The same dispatcher, with the bits of the floating point values *)

Definition lower_action {X : Type} (ft : action_features) (kr : ekeyring X) (f : efunc X) : action X :=
  make_action ft (ekr_e kr) (ekr_m kr) (lower_func f).

Definition lower_buffered {X : Type} (b : ebuffered X) : buffered X :=
  mk_buffered
    (mk_dispatcher (lower_keyring (eb_keyring b)) (eb_features b) (map (lower_action (eb_features b) (eb_keyring b)) (eb_actions b)))
    (eb_is_index_loaded b) (eb_load_count b) (eb_ibuf_next b) (eb_obuf_next b) (eb_obuf_bottom b) (eb_bufs b).

Definition lower_op {X : Type} (o : eop X) : op X :=
  match o with
  | EPut byte => Put byte
  | EGet => Get
  | EIsLoaded => IsLoaded
  | EReadFrom src => ReadFrom src
  | EWriteTo dest => WriteTo dest
  | EProcess src dest => Process src dest
  | EReplace i functor f => Replace i (if functor then ByFunctor (lower_func f) else ByUnevaluated (lower_func f))
  | EOutside g => Outside g
  end.

Definition lower_obs (o : eobs) : obs :=
  match o with
  | SawStatus s => OStatus s
  | SawByte b => OByte b
  | SawBool b => OBool b
  | SawNothing => ONone
  end.

(** The floating point types have at most eight bytes. *)
Definition small {X : Type} (b : ebuffered X) : Prop := Forall (fun f => small_sig (ef_sig f)) (eb_actions b).

(** [replace] is given a callback which can be stored there. *)
Definition compiles {X : Type} (kr : ekeyring X) (ft : action_features) (o : eop X) : Prop :=
  match o with
  | EReplace i functor f =>
      nth_error (map (fun nf => ef_sig (snd nf)) (ekr_funcs kr)) i = Some (ef_sig f)
      /\ (functor = true -> ft = ANY) /\ small_sig (ef_sig f)
  | _ => True
  end.

Lemma lower_index_size : forall (X : Type) (kr : ekeyring X), kr_index_size (lower_keyring kr) = ekr_index_size kr.
Proof. intros X kr. unfold kr_index_size, ekr_index_size. cbn [lower_keyring kr_funcs]. rewrite map_length. reflexivity. Qed.

Lemma lower_size : forall (X : Type) (kr : ekeyring X), kr_size (lower_keyring kr) = ekr_size kr.
Proof. intros X kr. unfold kr_size, ekr_size. rewrite lower_index_size. cbn [lower_keyring kr_funcs]. rewrite map_length. reflexivity. Qed.

Lemma eparameters_size_lower : forall s, eparameters_size s = parameters_size (lower_sig s).
Proof.
  intros s. unfold eparameters_size, parameters_size. cbn [lower_sig sig_params]. rewrite map_map. f_equal.
  apply map_ext. apply esizeof_lower.
Qed.

Section Lowered.
  Variable p : platform.
  Context {X : Type}.

  Lemma eget_index_lower : forall (Y : Type) e m w (d : dispatcher Y) src y, native_signed_mode p m = true ->
    kr_e (d_keyring d) = e -> kr_m (d_keyring d) = m -> kr_index_size (d_keyring d) = w ->
    eget_index p e m w src y = get_index p d src y.
  Proof.
    intros Y e m w d src y Hm Ee Em Ew. unfold eget_index, get_index. rewrite Ee, Em, Ew.
    assert (Hsm : Forall small_floats [EInt (TUns w)]) by (constructor; [exact I|constructor]).
    rewrite eread_tuple_lower by auto. cbn [map lower].
    destruct (read_tuple p e m [TUns w] src y) as [[y1 st]|]; cbn [bind]; [|reflexivity].
    rewrite (eget_lower p e m Hm [EInt (TUns w)] 0 (EInt (TUns w)) st Hsm) by reflexivity. cbn [map lower].
    destruct (get p (tuple_at e m [TUns w] 0) 0 st) as [[z|vs]|]; cbn [bind raise]; reflexivity.
  Qed.

  Lemma eindex_lower : forall (b : ebuffered X) bufs x, native_signed_mode p (ekr_m (eb_keyring b)) = true ->
    eindex p b bufs x
    = get_index p (framed_dispatcher (b_dispatcher (lower_buffered b))) ibuf_source (mk_frame bufs 0 0 x).
  Proof.
    intros b bufs x Hm. unfold eindex. apply eget_index_lower; auto.
    cbn [lower_buffered b_dispatcher framed_dispatcher d_keyring lower_keyring kr_funcs kr_e kr_m].
    unfold kr_index_size, ekr_index_size. cbn [kr_funcs]. rewrite !map_length. reflexivity.
  Qed.

  Lemma eframed_lowered : forall f : efunc X, lowered (eframed f) (framed (lower_func f)).
  Proof.
    intros f. split; [reflexivity|]. intros vs x. cbn [framed lower_func eframed f_call ef_call ef_sig f_sig].
    destruct (ef_call f (pairwise raise (es_params (ef_sig f)) vs) (fr_world x)). reflexivity.
  Qed.

  Lemma eaction_at_lower : forall (b : ebuffered X) i,
    action_at (b_dispatcher (lower_buffered b)) i
    = (f <- eaction_at b i;; Ok (lower_action (eb_features b) (eb_keyring b) f))
    /\ action_at (framed_dispatcher (b_dispatcher (lower_buffered b))) i
       = (f <- eaction_at b i;; Ok (make_action (eb_features b) (ekr_e (eb_keyring b)) (ekr_m (eb_keyring b)) (framed (lower_func f)))).
  Proof.
    intros b i. unfold action_at, eaction_at. cbn [lower_buffered b_dispatcher framed_dispatcher d_actions].
    rewrite map_map, !nth_error_map. destruct (nth_error (eb_actions b) i) as [f|]; cbn [option_map bind]; split; try reflexivity.
    unfold lower_action. destruct (eb_features b); reflexivity.
  Qed.

  Lemma eaction_small : forall (b : ebuffered X) i f, small b -> eaction_at b i = Ok f -> small_sig (ef_sig f).
  Proof.
    intros b i f Hs H. unfold eaction_at in H. destruct (nth_error (eb_actions b) i) as [g|] eqn:E; [|discriminate].
    injection H as <-. unfold small in Hs. rewrite Forall_forall in Hs. apply Hs. eapply nth_error_In; eauto.
  Qed.

  Lemma ecall_loaded_lower : forall (b : ebuffered X) x, native_signed_mode p (ekr_m (eb_keyring b)) = true -> small b ->
    call_loaded p (lower_buffered b) x = ('(b', x') <- ecall_loaded p b x;; Ok (lower_buffered b', x')).
  Proof.
    intros b x Hm Hs. unfold call_loaded, ecall_loaded. cbv zeta. rewrite eindex_lower by auto. cbn [lower_buffered b_bufs].
    fold (lower_buffered b).
    destruct (get_index p (framed_dispatcher (b_dispatcher (lower_buffered b))) ibuf_source (mk_frame (eb_bufs b) 0 0 x))
      as [[w1 i]|]; cbn [bind]; [|reflexivity].
    rewrite (proj2 (eaction_at_lower b i)).
    destruct (eaction_at b i) as [f|] eqn:Ef; cbn [bind]; [|reflexivity].
    rewrite <- (ecall_lowered p _ _ (eframed f) (framed (lower_func f)) (eb_features b) ibuf_source obuf_destination w1 Hm)
      by (try apply eframed_lowered; apply (eaction_small b i f Hs Ef)).
    destruct (ecall p (ekr_e (eb_keyring b)) (ekr_m (eb_keyring b)) (eframed f) ibuf_source obuf_destination w1) as [w2|];
      cbn [bind]; [|reflexivity].
    unfold lower_buffered, index_length. cbn [b_dispatcher d_keyring eb_keyring eb_features eb_actions eb_is_index_loaded eb_load_count
      eb_ibuf_next eb_obuf_next eb_obuf_bottom eb_bufs]. rewrite lower_index_size. reflexivity.
  Qed.

  Lemma einput_size_lower : forall ft (kr : ekeyring X) (f : efunc X), input_size (lower_action ft kr f) = Ok (einput_size ft f).
  Proof.
    intros ft kr f. unfold lower_action, einput_size. destruct ft; cbn [make_action input_size m_func lower_func f_sig lower_sig sig_params].
    - rewrite etuple_size_lower. reflexivity.
    - rewrite eparameters_size_lower. reflexivity.
  Qed.

  Lemma eput_lower : forall byte (b : ebuffered X) x, native_signed_mode p (ekr_m (eb_keyring b)) = true -> small b ->
    put p byte (lower_buffered b) x = ('(b', x', s) <- eput p byte b x;; Ok (lower_buffered b', x', s)).
  Proof.
    intros byte b x Hm Hs. unfold put, eput. cbv zeta.
    change (b_bufs (lower_buffered b)) with (eb_bufs b). change (b_ibuf_next (lower_buffered b)) with (eb_ibuf_next b).
    change (b_load_count (lower_buffered b)) with (eb_load_count b).
    change (b_is_index_loaded (lower_buffered b)) with (eb_is_index_loaded b).
    change (b_obuf_next (lower_buffered b)) with (eb_obuf_next b). change (b_obuf_bottom (lower_buffered b)) with (eb_obuf_bottom b).
    destruct (store (ibuf (eb_bufs b)) (eb_ibuf_next b) byte) as [mem|]; cbn [bind]; [|reflexivity].
    destruct (eb_load_count b) as [|count]; [reflexivity|].
    destruct (0 <? count); [reflexivity|]. destruct (eb_is_index_loaded b) eqn:El.
    - set (b1 := mk_ebuffered (eb_keyring b) (eb_features b) (eb_actions b) true count (S (eb_ibuf_next b)) (eb_obuf_next b)
                   (eb_obuf_bottom b) (set_ibuf mem (eb_bufs b))).
      change (mk_buffered (b_dispatcher (lower_buffered b)) true count (S (eb_ibuf_next b)) (eb_obuf_next b) (eb_obuf_bottom b)
                (set_ibuf mem (eb_bufs b))) with (lower_buffered b1).
      rewrite ecall_loaded_lower by auto. destruct (ecall_loaded p b1 x) as [[b2 x']|]; reflexivity.
    - rewrite eindex_lower by auto.
      destruct (get_index p (framed_dispatcher (b_dispatcher (lower_buffered b))) ibuf_source
                  (mk_frame (set_ibuf mem (eb_bufs b)) 0 0 x)) as [[w i]|]; cbn [bind]; [|reflexivity].
      replace (d_size (b_dispatcher (lower_buffered b))) with (ekr_size (eb_keyring b))
        by (unfold d_size; cbn [lower_buffered b_dispatcher d_keyring]; rewrite lower_size; reflexivity).
      destruct (i <? ekr_size (eb_keyring b)).
      + rewrite (proj1 (eaction_at_lower b i)). destruct (eaction_at b i) as [f|] eqn:Ef; cbn [bind]; [|reflexivity].
        rewrite einput_size_lower. cbn [bind]. set (n := einput_size (eb_features b) f).
        set (b2 := mk_ebuffered (eb_keyring b) (eb_features b) (eb_actions b) true n (S (eb_ibuf_next b)) (eb_obuf_next b)
                     (eb_obuf_bottom b) (set_ibuf mem (eb_bufs b))).
        change (mk_buffered (b_dispatcher (lower_buffered b)) true n (S (eb_ibuf_next b)) (eb_obuf_next b) (eb_obuf_bottom b)
                  (set_ibuf mem (eb_bufs b))) with (lower_buffered b2).
        destruct (n =? 0); [|reflexivity].
        rewrite ecall_loaded_lower by auto. destruct (ecall_loaded p b2 x) as [[b3 x']|]; reflexivity.
      + cbn [bind]. unfold index_length. cbn [lower_buffered b_dispatcher d_keyring]. rewrite lower_index_size. reflexivity.
  Qed.

  (** The callbacks are left as they are. *)
  Definition same (b b' : ebuffered X) : Prop :=
    eb_keyring b' = eb_keyring b /\ eb_features b' = eb_features b /\ eb_actions b' = eb_actions b.

  Lemma same_small : forall b b', same b b' -> small b -> small b'.
  Proof. intros b b' (_ & _ & E) H. unfold small. rewrite E. exact H. Qed.

  Lemma ecall_loaded_same : forall (b b' : ebuffered X) x x', ecall_loaded p b x = Ok (b', x') -> same b b'.
  Proof.
    intros b b' x x' H. unfold ecall_loaded in H. cbv zeta in H. ok_inv H r. destruct r as [w1 i]. ok_inv H f. ok_inv H w2.
    injection H as <- <-. repeat split.
  Qed.

  Lemma eput_same : forall byte (b b' : ebuffered X) x x' s, eput p byte b x = Ok (b', x', s) -> same b b'.
  Proof.
    intros byte b b' x x' s H. unfold eput in H. cbv zeta in H. ok_inv H mem.
    destruct (eb_load_count b) as [|count]; [discriminate|].
    destruct (0 <? count); [injection H as <- <- <-; repeat split|].
    destruct (eb_is_index_loaded b).
    - ok_inv H r. destruct r as [b2 x2]. injection H as <- <- <-. apply (ecall_loaded_same _ _ _ _ E0).
    - ok_inv H r. destruct r as [w i]. destruct (i <? ekr_size (eb_keyring b)); [|injection H as <- <- <-; repeat split].
      ok_inv H f. destruct (einput_size (eb_features b) f =? 0); [|injection H as <- <- <-; repeat split].
      ok_inv H r. destruct r as [b3 x3]. injection H as <- <- <-. apply (ecall_loaded_same _ _ _ _ E2).
  Qed.

  Lemma same_trans : forall b b1 b2, same b b1 -> same b1 b2 -> same b b2.
  Proof. intros b b1 b2 (H1 & H2 & H3) (G1 & G2 & G3). repeat split; congruence. Qed.
  Lemma same_refl : forall b, same b b.
  Proof. repeat split. Qed.

  Lemma same_mode : forall b b', same b b' -> native_signed_mode p (ekr_m (eb_keyring b)) = true ->
    native_signed_mode p (ekr_m (eb_keyring b')) = true.
  Proof. intros b b' (E & _) H. rewrite E. exact H. Qed.

  Lemma eread_index_lower : forall fuel src (b : ebuffered X) x s, native_signed_mode p (ekr_m (eb_keyring b)) = true -> small b ->
    read_index p fuel src (lower_buffered b) x s
      = ('(b', x', s') <- eread_index p fuel src b x s;; Ok (lower_buffered b', x', s'))
    /\ forall b' x' s', eread_index p fuel src b x s = Ok (b', x', s') -> same b b'.
  Proof.
    induction fuel as [|fuel IH]; intros src b x s Hm Hs; cbn [read_index eread_index];
      change (b_is_index_loaded (lower_buffered b)) with (eb_is_index_loaded b);
      destruct (negb (eb_is_index_loaded b) && is_loading s);
      try (split; [reflexivity|intros b' x' s' H; first [discriminate|injection H as <- <- <-; apply same_refl]]).
    destruct (src x) as [[x1 byte]|]; cbn [bind]; [|split; [reflexivity|intros; discriminate]].
    rewrite eput_lower by auto. destruct (eput p byte b x1) as [[[b1 x2] s1]|] eqn:E; cbn [bind]; [|split; [reflexivity|intros; discriminate]].
    pose proof (eput_same _ _ _ _ _ _ E) as Hsame.
    destruct (IH src b1 x2 s1 (same_mode _ _ Hsame Hm) (same_small _ _ Hsame Hs)) as [H1 H2]. split; [exact H1|].
    intros b' x' s' H. apply (same_trans _ b1); eauto.
  Qed.

  Lemma eread_payload_lower : forall fuel src (b : ebuffered X) x s, native_signed_mode p (ekr_m (eb_keyring b)) = true -> small b ->
    read_payload p fuel src (lower_buffered b) x s
      = ('(b', x', s') <- eread_payload p fuel src b x s;; Ok (lower_buffered b', x', s'))
    /\ forall b' x' s', eread_payload p fuel src b x s = Ok (b', x', s') -> same b b'.
  Proof.
    induction fuel as [|fuel IH]; intros src b x s Hm Hs; cbn [read_payload eread_payload];
      change (b_is_index_loaded (lower_buffered b)) with (eb_is_index_loaded b);
      destruct (eb_is_index_loaded b);
      try (split; [reflexivity|intros b' x' s' H; first [discriminate|injection H as <- <- <-; apply same_refl]]).
    destruct (src x) as [[x1 byte]|]; cbn [bind]; [|split; [reflexivity|intros; discriminate]].
    rewrite eput_lower by auto. destruct (eput p byte b x1) as [[[b1 x2] s1]|] eqn:E; cbn [bind]; [|split; [reflexivity|intros; discriminate]].
    pose proof (eput_same _ _ _ _ _ _ E) as Hsame.
    destruct (IH src b1 x2 s1 (same_mode _ _ Hsame Hm) (same_small _ _ Hsame Hs)) as [H1 H2]. split; [exact H1|].
    intros b' x' s' H. apply (same_trans _ b1); eauto.
  Qed.

  Lemma eread_from_lower : forall src (b : ebuffered X) x, native_signed_mode p (ekr_m (eb_keyring b)) = true -> small b ->
    read_from p src (lower_buffered b) x = ('(b', x', s') <- eread_from p src b x;; Ok (lower_buffered b', x', s'))
    /\ forall b' x' s', eread_from p src b x = Ok (b', x', s') -> same b b'.
  Proof.
    intros src b x Hm Hs. unfold read_from, eread_from. change (b_load_count (lower_buffered b)) with (eb_load_count b).
    destruct (eread_index_lower (S (eb_load_count b)) src b x LOADING_PACKET Hm Hs) as [H1 H2]. rewrite H1.
    destruct (eread_index p (S (eb_load_count b)) src b x LOADING_PACKET) as [[[b1 x1] s1]|]; cbn [bind];
      [|split; [reflexivity|intros; discriminate]].
    specialize (H2 b1 x1 s1 eq_refl). change (b_load_count (lower_buffered b1)) with (eb_load_count b1).
    destruct (eread_payload_lower (S (eb_load_count b1)) src b1 x1 s1 (same_mode _ _ H2 Hm) (same_small _ _ H2 Hs)) as [H3 H4].
    split; [exact H3|]. intros b' x' s' H. apply (same_trans _ b1); eauto.
  Qed.

  Lemma eget_byte_lower : forall b : ebuffered X,
    get_byte (lower_buffered b) = ('(b', c) <- eget_byte b;; Ok (lower_buffered b', c))
    /\ forall b' c, eget_byte b = Ok (b', c) -> same b b'.
  Proof.
    intros b. unfold get_byte, eget_byte. change (is_loaded (lower_buffered b)) with (eis_loaded b).
    destruct (eis_loaded b); [|split; [reflexivity|intros b' c H; injection H as <- <-; apply same_refl]].
    change (b_bufs (lower_buffered b)) with (eb_bufs b). change (b_obuf_next (lower_buffered b)) with (eb_obuf_next b).
    destruct (load (obuf (eb_bufs b)) (eb_obuf_next b)); cbn [bind]; [|split; [reflexivity|intros; discriminate]].
    split; [reflexivity|]. intros b' c H. injection H as <- <-. repeat split.
  Qed.

  Lemma ewrite_loop_lower : forall (Y : Type) fuel (dest : destination Y) (b : ebuffered X) y,
    Buffered.write_loop fuel dest (lower_buffered b) y = ('(b', y') <- ewrite_loop fuel dest b y;; Ok (lower_buffered b', y'))
    /\ forall b' y', ewrite_loop fuel dest b y = Ok (b', y') -> same b b'.
  Proof.
    intros Y. induction fuel as [|fuel IH]; intros dest b y; cbn [Buffered.write_loop ewrite_loop];
      change (is_loaded (lower_buffered b)) with (eis_loaded b); destruct (eis_loaded b);
      try (split; [reflexivity|intros b' y' H; first [discriminate|injection H as <- <-; apply same_refl]]).
    destruct (eget_byte_lower b) as [H1 H2]. rewrite H1.
    destruct (eget_byte b) as [[b1 c]|]; cbn [bind]; [|split; [reflexivity|intros; discriminate]].
    destruct (dest c y) as [y1|]; cbn [bind]; [|split; [reflexivity|intros; discriminate]].
    destruct (IH dest b1 y1) as [H3 H4]. split; [exact H3|]. intros b' y' H. apply (same_trans _ b1); eauto.
  Qed.

  Lemma ewrite_to_lower : forall (Y : Type) (dest : destination Y) (b : ebuffered X) y,
    write_to dest (lower_buffered b) y = ('(b', y') <- ewrite_to dest b y;; Ok (lower_buffered b', y'))
    /\ forall b' y', ewrite_to dest b y = Ok (b', y') -> same b b'.
  Proof. intros Y dest b y. unfold Buffered.write_to, ewrite_to. apply ewrite_loop_lower. Qed.

  Lemma eprocess_lower : forall src dest (b : ebuffered X) x, native_signed_mode p (ekr_m (eb_keyring b)) = true -> small b ->
    process p src dest (lower_buffered b) x = ('(b', x', s') <- eprocess p src dest b x;; Ok (lower_buffered b', x', s'))
    /\ forall b' x' s', eprocess p src dest b x = Ok (b', x', s') -> same b b'.
  Proof.
    intros src dest b x Hm Hs. unfold process, eprocess. destruct (eread_from_lower src b x Hm Hs) as [H1 H2]. rewrite H1.
    destruct (eread_from p src b x) as [[[b1 x1] s]|]; cbn [bind]; [|split; [reflexivity|intros; discriminate]].
    specialize (H2 b1 x1 s eq_refl).
    destruct s; try (split; [reflexivity|intros b' x' s' H; injection H as <- <- <-; exact H2]).
    destruct (ewrite_to_lower X dest b1 x1) as [H3 H4]. rewrite H3.
    destruct (ewrite_to dest b1 x1) as [[b2 x2]|]; cbn [bind]; [|split; [reflexivity|intros; discriminate]].
    split; [reflexivity|]. intros b' x' s' H. injection H as <- <- <-. apply (same_trans _ b1); eauto.
  Qed.
End Lowered.

Lemma set_nth_map : forall (A B : Type) (g : A -> B) l i a, set_nth (map g l) i (g a) = map g (set_nth l i a).
Proof. intros A B g. induction l as [|c l IH]; intros [|i] a; cbn [map set_nth]; try reflexivity. rewrite IH. reflexivity. Qed.

Lemma set_nth_Forall : forall (A : Type) (P : A -> Prop) l i a, Forall P l -> P a -> Forall P (set_nth l i a).
Proof.
  intros A P. induction l as [|c l IH]; intros [|i] a H Ha; cbn [set_nth]; auto; inversion H; subst; constructor; auto.
Qed.

Lemma ety_eqb_refl : forall t, ety_eqb t t = true.
Proof.
  induction t as [t|T|t n IH|s fs IH] using ety_ind_nested; cbn [ety_eqb].
  - apply ty_eqb_refl.
  - rewrite Nat.eqb_refl, !Z.eqb_refl. reflexivity.
  - rewrite IH, Nat.eqb_refl. reflexivity.
  - rewrite Nat.eqb_refl. cbn [andb]. induction IH as [|f fs Hf H IH']; [reflexivity|]. rewrite Hf. exact IH'.
Qed.

Lemma etys_eqb_refl : forall l, etys_eqb l l = true.
Proof. induction l as [|t l IH]; cbn [etys_eqb]; [reflexivity|]. rewrite ety_eqb_refl. exact IH. Qed.

Lemma esig_eqb_refl : forall s, esig_eqb s s = true.
Proof. intros [ps [t|]]; unfold esig_eqb; cbn [es_params es_ret]; rewrite etys_eqb_refl; [apply ety_eqb_refl|reflexivity]. Qed.

Lemma ety_eqb_eq : forall a b, ety_eqb a b = true -> a = b.
Proof.
  induction a as [t|T|t n IH|s fs IH] using ety_ind_nested; intros [u|U|u k|s' fs'] H; cbn [ety_eqb] in H; try discriminate.
  - apply ty_eqb_eq in H. congruence.
  - apply andb_prop in H as [H H3]. apply andb_prop in H as [H1 H2]. apply Nat.eqb_eq in H1. apply Z.eqb_eq in H2, H3.
    destruct T, U. cbn in *. congruence.
  - apply andb_prop in H as [H1 H2]. apply IH in H1. apply Nat.eqb_eq in H2. congruence.
  - apply andb_prop in H as [H1 H2]. apply Nat.eqb_eq in H1. subst s'. f_equal. revert fs' H2.
    induction IH as [|f fs Hf H IH']; intros [|f' fs'] H2; try discriminate; auto.
    apply andb_prop in H2 as [H2 H3]. apply Hf in H2. apply IH' in H3. congruence.
Qed.

Lemma etys_eqb_eq : forall a b, etys_eqb a b = true -> a = b.
Proof.
  induction a as [|t a IH]; intros [|u b] H; cbn [etys_eqb] in H; try discriminate; auto.
  apply andb_prop in H as [H1 H2]. apply ety_eqb_eq in H1. apply IH in H2. congruence.
Qed.

Lemma esig_eqb_eq : forall a b, esig_eqb a b = true -> a = b.
Proof.
  intros [ps r] [ps' r'] H. unfold esig_eqb in H. cbn [es_params es_ret] in H. apply andb_prop in H as [H1 H2].
  apply etys_eqb_eq in H1. destruct r as [t|], r' as [u|]; try discriminate; [apply ety_eqb_eq in H2|]; congruence.
Qed.

Section Histories.
  Variable p : platform.
  Context {X : Type}.
  Variables (kr : ekeyring X) (ft : action_features).
  Hypothesis Hm : native_signed_mode p (ekr_m kr) = true.
  Hypothesis Hsize : (Z.of_nat (length (ekr_funcs kr)) < 2 ^ 64)%Z.

  (** A dispatcher made from the keyring, some callbacks of which may have been
      replaced. *)
  Definition made (b : ebuffered X) : Prop :=
    eb_keyring b = kr /\ eb_features b = ft /\ small b /\ length (eb_actions b) = length (ekr_funcs kr).

  Lemma made_same : forall b b', made b -> same b b' -> made b'.
  Proof.
    intros b b' (H1 & H2 & H3 & H4) S. pose proof (same_small _ _ S H3). destruct S as (E1 & E2 & E3).
    unfold made. rewrite E1, E2, E3. auto.
  Qed.

  Lemma ekr_size_length : ekr_size kr = length (ekr_funcs kr).
  Proof.
    rewrite <- lower_size. destruct (RpcProofs.index_size X (lower_keyring kr)) as (_ & _ & E).
    - cbn [lower_keyring kr_funcs]. rewrite map_length. exact Hsize.
    - rewrite E. cbn [lower_keyring kr_funcs]. apply map_length.
  Qed.

  Lemma estep_lower : forall o b x, made b -> compiles kr ft o ->
    step p (lower_op o) (lower_buffered b) x
      = ('(b', x', v) <- estep p o b x;; Ok (lower_buffered b', x', lower_obs v))
    /\ forall b' x' v, estep p o b x = Ok (b', x', v) -> made b'.
  Proof.
    intros o b x Hb Hc. pose proof Hb as (Ek & Ef & Hsm & Hl).
    assert (Hmb : native_signed_mode p (ekr_m (eb_keyring b)) = true) by (rewrite Ek; exact Hm).
    destruct o as [byte| | |src|dest|src dest|i functor f|g]; cbn [lower_op step estep].
    - rewrite eput_lower by auto. destruct (eput p byte b x) as [[[b' x'] s]|] eqn:E; cbn [bind]; [|split; [reflexivity|intros; discriminate]].
      split; [reflexivity|]. intros b2 x2 v H. injection H as <- <- <-. apply (made_same b); auto. eapply eput_same; eauto.
    - destruct (eget_byte_lower b) as [H1 H2]. rewrite H1.
      destruct (eget_byte b) as [[b' c]|]; cbn [bind]; [|split; [reflexivity|intros; discriminate]].
      split; [reflexivity|]. intros b2 x2 v H. injection H as <- <- <-. apply (made_same b); eauto.
    - split; [reflexivity|]. intros b2 x2 v H. injection H as <- <- <-. exact Hb.
    - destruct (eread_from_lower p src b x Hmb Hsm) as [H1 H2]. rewrite H1.
      destruct (eread_from p src b x) as [[[b' x'] s]|]; cbn [bind]; [|split; [reflexivity|intros; discriminate]].
      split; [reflexivity|]. intros b2 x2 v H. injection H as <- <- <-. apply (made_same b); eauto.
    - destruct (ewrite_to_lower X dest b x) as [H1 H2]. rewrite H1.
      destruct (ewrite_to dest b x) as [[b' x']|]; cbn [bind]; [|split; [reflexivity|intros; discriminate]].
      split; [reflexivity|]. intros b2 x2 v H. injection H as <- <- <-. apply (made_same b); eauto.
    - destruct (eprocess_lower p src dest b x Hmb Hsm) as [H1 H2]. rewrite H1.
      destruct (eprocess p src dest b x) as [[[b' x'] s]|]; cbn [bind]; [|split; [reflexivity|intros; discriminate]].
      split; [reflexivity|]. intros b2 x2 v H. injection H as <- <- <-. apply (made_same b); eauto.
    - destruct Hc as (Hi & Hft & Hsf).
      assert (Hlt : i < length (ekr_funcs kr)) by (rewrite <- (map_length (fun nf => ef_sig (snd nf))); apply nth_error_Some; congruence).
      unfold ereplace, replace_buffered, replace. cbv zeta. rewrite !at17_nth_error.
      cbn [lower_buffered b_dispatcher d_keyring d_features]. unfold d_size. cbn [d_keyring].
      rewrite Ek, lower_size, ekr_size_length, Hi. rewrite esig_eqb_refl.
      assert (Hi' : nth_error (kr_signatures (lower_keyring kr)) i = Some (lower_sig (ef_sig f))).
      { unfold kr_signatures. cbn [lower_keyring kr_funcs]. rewrite map_map. cbn [snd lower_func f_sig].
        rewrite nth_error_map in Hi |- *. destruct (nth_error (ekr_funcs kr) i) as [nf|]; [|discriminate].
        cbn [option_map] in *. congruence. }
      rewrite Hi'.
      assert (Hes : match (if functor then ByFunctor (lower_func f) else ByUnevaluated (lower_func f)) with
                    | ByUnevaluated f | ByFunctor f => f end = lower_func f) by (destruct functor; reflexivity).
      rewrite Hes. cbn [lower_func f_sig]. rewrite (sig_eqb_refl (lower_sig (ef_sig f))).
      apply Nat.ltb_lt in Hlt. rewrite Hlt. cbn [andb].
      assert (Hst : (match eb_features b with ANY => true | WEAK_REFERENCE => negb functor end) = true).
      { rewrite Ef. destruct ft; auto. destruct functor; auto. discriminate (Hft eq_refl). }
      rewrite Hst.
      assert (Ha : forall g, assign_action
                (mk_dispatcher (lower_keyring kr) (eb_features b) (map (lower_action (eb_features b) kr) (eb_actions b))) i
                (lower_action (eb_features b) kr g)
              = Ok (mk_dispatcher (lower_keyring kr) (eb_features b)
                      (map (lower_action (eb_features b) kr) (set_nth (eb_actions b) i g)))).
      { intros g. unfold assign_action. cbn [d_actions d_keyring d_features]. rewrite map_length, Hl, Hlt, set_nth_map. reflexivity. }
      specialize (Ha f). unfold lower_action at 2 in Ha. rewrite Hl, Hlt.
      split.
      + destruct functor, (eb_features b) eqn:Eft; cbn [negb] in Hst; try discriminate;
          cbn [lower_keyring kr_e kr_m make_action] in Ha |- *; rewrite Ha; cbn [bind];
          unfold lower_buffered; cbn [eb_keyring eb_features eb_actions eb_is_index_loaded eb_load_count eb_ibuf_next eb_obuf_next
            eb_obuf_bottom eb_bufs lower_obs]; reflexivity.
      + intros b' x' v H. cbn [bind] in H. injection H as <- <- <-. unfold made, small. cbn [eb_keyring eb_features eb_actions].
        split; [reflexivity|]. split; [exact Ef|]. split; [apply set_nth_Forall; auto|].
        rewrite <- Hl. clear. revert i. induction (eb_actions b) as [|c l IH]; intros [|i]; cbn [set_nth length]; auto.
    - split; [reflexivity|]. intros b2 x2 v H. injection H as <- <- <-. exact Hb.
  Qed.

  Lemma erun_lower : forall ops b x, made b -> Forall (compiles kr ft) ops ->
    run_ops p (map lower_op ops) (lower_buffered b) x
      = ('(b', x', vs) <- erun p ops b x;; Ok (lower_buffered b', x', map lower_obs vs))
    /\ forall b' x' vs, erun p ops b x = Ok (b', x', vs) -> made b'.
  Proof.
    induction ops as [|o ops IH]; intros b x Hb Hc; cbn [map run_ops erun].
    - split; [reflexivity|]. intros b' x' vs H. injection H as <- <- <-. exact Hb.
    - inversion_clear Hc as [|? ? Ho Hc']. destruct (estep_lower o b x Hb Ho) as [H1 H2]. rewrite H1.
      destruct (estep p o b x) as [[[b1 x1] v]|]; cbn [bind]; [|split; [reflexivity|intros; discriminate]].
      specialize (H2 b1 x1 v eq_refl). destruct (IH b1 x1 H2 Hc') as [H3 H4]. rewrite H3.
      destruct (erun p ops b1 x1) as [[[b2 x2] vs]|]; cbn [bind]; [|split; [reflexivity|intros; discriminate]].
      split; [reflexivity|]. intros b' x' vs' H. injection H as <- <- <-. eauto.
  Qed.
End Histories.

Lemma emake_lower : forall (X : Type) dbl (kr : ekeyring X) ft g g',
  make_buffered dbl (lower_keyring kr) ft g g' = option_map lower_buffered (emake_buffered dbl kr ft g g').
Proof.
  intros X dbl kr ft g g'. unfold emake_buffered, make_buffered, make_double, make_single, needed_input_buffer_size,
    needed_output_buffer_size, emax_parameters.
  assert (E : map_parameters_size (kr_signatures (lower_keyring kr)) = map (fun nf => eparameters_size (ef_sig (snd nf))) (ekr_funcs kr)).
  { unfold map_parameters_size, kr_signatures. cbn [lower_keyring kr_funcs]. rewrite !map_map. apply map_ext. intros nf.
    rewrite eparameters_size_lower. reflexivity. }
  rewrite E, lower_index_size.
  assert (Ed : forall bufs, init_buffered (make_dispatcher (lower_keyring kr) ft) bufs
               = lower_buffered (mk_ebuffered kr ft (map snd (ekr_funcs kr)) false (ekr_index_size kr) 0 0 0 bufs)).
  { intros bufs. unfold init_buffered, lower_buffered, make_dispatcher, index_length. cbn [d_keyring eb_keyring eb_features eb_actions
      eb_is_index_loaded eb_load_count eb_ibuf_next eb_obuf_next eb_obuf_bottom eb_bufs]. rewrite lower_index_size.
    cbn [lower_keyring kr_funcs kr_e kr_m]. rewrite !map_map. reflexivity. }
  destruct (max17 (map (fun nf => eparameters_size (ef_sig (snd nf))) (ekr_funcs kr))) as [n|]; destruct dbl; try reflexivity.
  - rewrite Ed. reflexivity.
  - destruct (max17 [n + ekr_index_size kr; n]) as [k|]; [|reflexivity]. rewrite Ed. reflexivity.
Qed.

Lemma emake_made : forall (X : Type) dbl (kr : ekeyring X) ft g g' b, Forall (fun nf => small_sig (ef_sig (snd nf))) (ekr_funcs kr) ->
  emake_buffered dbl kr ft g g' = Some b -> made kr ft b.
Proof.
  intros X dbl kr ft g g' b Hs H. unfold emake_buffered in H. destruct (emax_parameters kr) as [n|]; [|discriminate].
  cbv zeta in H.
  destruct dbl; [|destruct (max17 [n + ekr_index_size kr; n]) as [k|]; [|discriminate]]; injection H as <-; unfold made, small;
    cbn [eb_keyring eb_features eb_actions]; rewrite map_length, Forall_map; auto.
Qed.

(** ** Every history *)

(** Whatever is done with it, the dispatcher of callbacks with floating point
    types and the dispatcher of the callbacks which take and return the same bits
    as signed integers show the same things, faults included. *)
Theorem C109_history : forall (X : Type) p dbl (kr : ekeyring X) ft g g' b ops x,
  native_signed_mode p (ekr_m kr) = true -> ekeyring_ok p kr -> Forall (compiles kr ft) ops ->
  emake_buffered dbl kr ft g g' = Some b ->
  exists b', make_buffered dbl (lower_keyring kr) ft g g' = Some b'
    /\ observe (run_ops p (map lower_op ops) b' x)
       = ('(x', vs) <- ('(_, x', vs) <- erun p ops b x;; Ok (x', vs));; Ok (x', map lower_obs vs)).
Proof.
  intros X p dbl kr ft g g' b ops x Hm Hk Hc Hb. exists (lower_buffered b). split.
  - rewrite emake_lower, Hb. reflexivity.
  - destruct (erun_lower p kr ft Hm (proj1 Hk) ops b x (emake_made X dbl kr ft g g' b (ekeyring_small X p kr Hk) Hb) Hc) as [H _].
    rewrite H. unfold observe. destruct (erun p ops b x) as [[[b1 x1] vs]|]; reflexivity.
Qed.

(** Which calls of [replace] compile: those with an index of the keyring and a callback
    of the same signature; callbacks with a state only for [ANY].  The callback then takes
    the place of the other, and nothing else changes. *)
Theorem C109_replace : forall (X : Type) p (kr : ekeyring X) (b : ebuffered X) i functor f,
  ekeyring_ok p kr -> eb_keyring b = kr -> length (eb_actions b) = length (ekr_funcs kr) ->
  (nth_error (map (fun nf => ef_sig (snd nf)) (ekr_funcs kr)) i = Some (ef_sig f) /\ (functor = true -> eb_features b = ANY)
   -> exists b', ereplace b i functor f = Some (Ok b')
      /\ (forall j, nth_error (eb_actions b') j = if j =? i then Some f else nth_error (eb_actions b) j)
      /\ eb_keyring b' = kr /\ eb_features b' = eb_features b /\ eb_is_index_loaded b' = eb_is_index_loaded b
      /\ eb_load_count b' = eb_load_count b /\ eb_ibuf_next b' = eb_ibuf_next b /\ eb_obuf_next b' = eb_obuf_next b
      /\ eb_obuf_bottom b' = eb_obuf_bottom b /\ eb_bufs b' = eb_bufs b)
  /\ (nth_error (map (fun nf => ef_sig (snd nf)) (ekr_funcs kr)) i <> Some (ef_sig f) \/ (functor = true /\ eb_features b <> ANY)
      -> ereplace b i functor f = None).
Proof.
  intros X p kr b i functor f Hk Eb Hl. unfold ereplace. rewrite at17_nth_error, Eb, (ekr_size_length kr (proj1 Hk)).
  destruct (nth_error (map (fun nf => ef_sig (snd nf)) (ekr_funcs kr)) i) as [s|] eqn:En.
  2:{ split; [intros [H _]; discriminate|reflexivity]. }
  assert (Hlt : i < length (ekr_funcs kr)) by (rewrite <- (map_length (fun nf => ef_sig (snd nf))); apply nth_error_Some; congruence).
  pose proof Hlt as Hlt'. apply Nat.ltb_lt in Hlt'. rewrite Hl, Hlt'. cbn [andb]. split.
  - intros [H Hf]. injection H as ->. rewrite esig_eqb_refl.
    replace (match eb_features b with ANY => true | WEAK_REFERENCE => negb functor end) with true.
    2:{ destruct (eb_features b); auto. destruct functor; auto. discriminate (Hf eq_refl). }
    cbn [andb]. eexists. split; [reflexivity|].
    cbn [eb_actions eb_keyring eb_features eb_is_index_loaded eb_load_count eb_ibuf_next eb_obuf_next eb_obuf_bottom eb_bufs].
    split; [|auto 12]. intros j. rewrite <- Hl in Hlt. clear - Hlt. revert i j Hlt. induction (eb_actions b) as [|a l IH]; intros [|i] [|j] H;
      cbn [length set_nth nth_error Nat.eqb] in *; try lia; auto. apply IH. lia.
  - intros H. destruct (esig_eqb s (ef_sig f)) eqn:E; [|reflexivity]. apply esig_eqb_eq in E. subst s.
    destruct H as [H|[-> H]]; [congruence|]. destruct (eb_features b); [congruence|reflexivity].
Qed.

(** ** Calls *)

(** The buffers are large enough and the sizes which the dispatcher relies on are
    those of the packets, as in C36, C37 and C53. *)
Definition esizes (s : esignature) : nat := list_sum (map esizeof (es_params s)).
Definition ewire_sizes (s : esignature) : nat := list_sum (map ewire_size (es_params s)).
Definition ewell_sized {X : Type} (dbl : bool) (kr : ekeyring X) (ft : action_features) : Prop :=
  let largest := list_max (map (fun nf => esizes (ef_sig (snd nf))) (ekr_funcs kr)) in
  Forall (fun nf =>
      let s := ef_sig (snd nf) in
      (ft = WEAK_REFERENCE -> esizes s = ewire_sizes s)
      /\ ewire_sizes s <= largest
      /\ match es_ret s with Some t => ewire_size t | None => 0 end <= if dbl then largest else largest + ekr_index_size kr)
    (ekr_funcs kr).

(** What local calls do, one after the other, and what a caller is expected to
    see of each: one status by byte of the request, then the result. *)
Inductive performs {S : Type} (p q : platform) (kr : ekeyring S)
    : list (ekey * list evalue) -> S -> list (list eobs * option evalue) -> S -> Prop :=
| performs_nil : forall s, performs p q kr [] s [] s
| performs_cons : forall name f k args s s1 r calls seen s2,
    In (name, f) (ekr_funcs kr) -> ekr_get kr name f = Some k ->
    Forall2 (eencodable p (ekr_m kr)) (es_params (ef_sig f)) args ->
    Forall2 (eencodable q (ekr_m kr)) (es_params (ef_sig f)) args ->
    ef_call f args s = (s1, r) ->
    eret_encodable p (ekr_m kr) (es_ret (ef_sig f)) r -> eret_encodable q (ekr_m kr) (es_ret (ef_sig f)) r ->
    performs p q kr calls s1 seen s2 ->
    performs p q kr ((k, args) :: calls) s
      ((repeat (SawStatus LOADING_PACKET) (ekr_index_size kr + ewire_sizes (ef_sig f) - 1) ++ [SawStatus RESOLVED_PACKET],
        option_map (fun _ => r) (es_ret (ef_sig f))) :: seen) s2.

Lemma esizes_lower : forall s, esizes s = native_sizes (lower_sig s).
Proof. intros s. unfold esizes, native_sizes. cbn [lower_sig sig_params]. rewrite map_map. f_equal. apply map_ext. apply esizeof_lower. Qed.

Lemma ewire_sizes_lower : forall s, ewire_sizes s = wire_sizes (sig_params (lower_sig s)).
Proof.
  intros s. unfold ewire_sizes, wire_sizes. cbn [lower_sig sig_params]. rewrite map_map. f_equal. apply map_ext. apply ewire_size_lower.
Qed.

Lemma ewell_sized_lower : forall (X : Type) dbl (kr : ekeyring X) ft, ewell_sized dbl kr ft -> well_sized dbl (lower_keyring kr) ft.
Proof.
  intros X dbl kr ft H. unfold well_sized, ewell_sized in *. cbv zeta in H.
  assert (El : list_max (map (fun nf => esizes (ef_sig (snd nf))) (ekr_funcs kr)) = max_native (lower_keyring kr)).
  { unfold max_native, kr_signatures. cbn [lower_keyring kr_funcs]. rewrite !map_map. f_equal. apply map_ext. intros nf. apply esizes_lower. }
  rewrite El in H. unfold kr_signatures at 1. cbn [lower_keyring kr_funcs]. rewrite map_map, Forall_map.
  eapply Forall_impl; [|exact H]. intros nf (H1 & H2 & H3). cbn [snd lower_func f_sig]. rewrite esizes_lower, ewire_sizes_lower in H1.
  rewrite ewire_sizes_lower in H2. split; [exact H1|]. split; [exact H2|].
  unfold out_capacity. rewrite lower_index_size. cbn [lower_sig sig_ret].
  destruct (es_ret (ef_sig (snd nf))) as [t|]; cbn [option_map wire_size_ret]; [rewrite <- ewire_size_lower|]; exact H3.
Qed.

Lemma lower_puts : forall (X : Type) bs, map (@lower_op X) (map EPut bs) = map Put bs.
Proof. intros X bs. rewrite map_map. reflexivity. Qed.

Lemma lower_statuses : forall vs n, map lower_obs vs = repeat (OStatus LOADING_PACKET) n ++ [OStatus RESOLVED_PACKET] ->
  vs = repeat (SawStatus LOADING_PACKET) n ++ [SawStatus RESOLVED_PACKET].
Proof.
  induction vs as [|v vs IH]; intros [|n] H; cbn [map repeat app] in *; try discriminate.
  - destruct vs; [|destruct v; discriminate]. destruct v; try discriminate. cbn in H. congruence.
  - destruct v; try discriminate. cbn [lower_obs] in H. injection H as -> H. rewrite (IH n H). reflexivity.
Qed.

Lemma ok_pair : forall (A B : Type) (a a' : A) (b b' : B), Ok (a, b) = Ok (a', b') -> a = a' /\ b = b'.
Proof. intros A B a a' b b' H. injection H. auto. Qed.

Lemma response_length : forall p e m r v, ret_encodable p m r v -> length (response e m r v) = wire_size_ret r.
Proof.
  intros p e m [t|] v H; cbn [response wire_size_ret]; [|reflexivity]. apply enc_length. apply H.
Qed.

Section Session.
  Context {S : Type}.
  Variables (p q : platform) (dbl : bool) (kr : ekeyring S) (ft : action_features).
  Hypothesis Hp : wf_platform p.
  Hypothesis Hq : wf_platform q.
  Hypothesis Hmp : native_signed_mode p (ekr_m kr) = true.
  Hypothesis Hmq : native_signed_mode q (ekr_m kr) = true.
  Hypothesis Hkp : ekeyring_ok p kr.
  Hypothesis Hkq : ekeyring_ok q kr.
  Let kr' := lower_keyring kr.
  Variables ni no : nat.
  Hypothesis Hw : kr_index_size kr' <= ni.
  Hypothesis Hf : Forall (framing_ok ft ni no (kr_index_size kr')) (kr_signatures kr').

  Lemma session_ok : forall calls s seen s2, performs p q kr calls s seen s2 ->
    forall b, made kr ft b -> represents kr' ft ni no dbl (lower_buffered b) (fresh kr') ->
    exists b', esession p q calls b s = Ok (b', s2, seen).
  Proof.
    intros cs0 s seen s2 H. induction H as [s|name f k args s s1 r cs seen s2 Hin Hk Hap Haq Hcall Hrp Hrq H IH]; intros b Hb Hr.
    { exists b. reflexivity. }
    cbn [esession].
    assert (Hin' : In (name, lower_func f) (kr_funcs kr')).
    { cbn [kr' lower_keyring kr_funcs]. apply (in_map (fun nf => (fst nf, lower_func (snd nf))) _ _ Hin). }
    assert (Hk' : kr_get kr' name (lower_func f) = Some (lower_key k)) by (unfold kr'; rewrite ekr_get_lower, Hk; reflexivity).
    assert (Hsp : esig_ok p (ekr_e kr) (ekr_m kr) (ef_sig f)).
    { destruct Hkp as [_ F]. rewrite Forall_forall in F. apply (F _ Hin). }
    assert (Hsq : esig_ok q (ekr_e kr) (ekr_m kr) (ef_sig f)).
    { destruct Hkq as [_ F]. rewrite Forall_forall in F. apply (F _ Hin). }
    destruct (eencodable_lower_list p (ekr_e kr) (ekr_m kr) _ _ Hp Hmp (proj1 Hsp) Hap) as [Hap' _].
    destruct (eencodable_lower_list q (ekr_e kr) (ekr_m kr) _ _ Hq Hmq (proj1 Hsq) Haq) as [Haq' Eraise].
    assert (Ek : ek_sig k = ef_sig f /\ ek_m k = ekr_m kr /\ ek_e k = ekr_e kr).
    { unfold ekr_get in Hk. destruct (find17 _ _ _); [|discriminate]. injection Hk as <-. auto. }
    destruct Ek as (Es & Em & Ee).
    set (args' := pairwise lower_val (es_params (ef_sig f)) args) in *.
    destruct (kr_get_nth S kr' name (lower_func f) (lower_key k) Hk' Hin') as (Hi & _ & _).
    set (i := k_index (lower_key k)) in *.
    (* the request *)
    rewrite ekey_write_lower;
      [|rewrite Em; exact Hmp|rewrite Es; apply (esig_ok_small p _ _ _ Hsp)|rewrite Es; symmetry; apply (Forall2_length Hap)].
    rewrite Es. fold args'.
    rewrite (key_write_push S (wires unit) p kr' name (lower_func f) (lower_key k) args' give_wire _ Hp
               (ekeyring_ok_lower _ _ _ Hkp) Hin' Hk' Hap').
    fold i. rewrite give_wires. cbn [bind w_out app].
    (* its bytes *)
    assert (Hcl : calls q kr' (lower_func f) args' s s1 (lower_ret (es_ret (ef_sig f)) r)).
    { split; [exact Haq'|]. split.
      - cbn [lower_func f_call]. rewrite Eraise, Hcall. reflexivity.
      - cbn [lower_func f_sig lower_sig sig_ret kr' lower_keyring kr_m]. apply (eret_lower q (ekr_e kr)); auto. apply Hsq. }
    assert (Hit : nth_error (mc_table (fresh kr')) i = Some (lower_func f)).
    { cbn [fresh mc_table]. rewrite nth_error_map, Hi. reflexivity. }
    pose proof (packet_length q kr' i (lower_func f) args' s s1 _ Hcl) as Hlen.
    assert (Hw1 : 1 <= kr_index_size kr') by (apply (RpcProofs.index_size S kr' (proj1 (ekeyring_ok_lower _ _ _ Hkq)))).
    assert (Hq0 : quiet dbl (fresh kr')) by (right; reflexivity).
    assert (Hsigs : map f_sig (mc_table (fresh kr')) = kr_signatures kr').
    { cbn [fresh mc_table]. unfold kr_signatures. rewrite map_map. reflexivity. }
    destruct (mc_feed q dbl kr' ft (ekeyring_ok_lower _ _ _ Hkq) (length (packet kr' i (lower_func f) args')) 0 i (lower_func f) args' s s1
                (lower_ret (es_ret (ef_sig f)) r) (fresh kr') Hsigs Hit Hcl eq_refl ltac:(lia) ltac:(lia) Hq0) as [Emc Hal].
    cbn [skipn] in Emc, Hal.
    pose proof (run_refines q kr' ft ni no dbl Hq (ekeyring_ok_lower _ _ _ Hkq) Hw Hf _ (lower_buffered b) (fresh kr') s Hr Hal) as Hag.
    unfold agrees in Hag. rewrite Emc in Hag. destruct Hag as (b1' & Erun & Hr1).
    destruct (erun_lower q kr ft Hmq (proj1 Hkq) (map EPut (packet kr' i (lower_func f) args')) b s Hb) as [Elow Hmade].
    { apply Forall_forall. intros o Ho. apply in_map_iff in Ho. destruct Ho as (c & <- & _). exact I. }
    rewrite lower_puts, Erun in Elow.
    destruct (erun q (map EPut (packet kr' i (lower_func f) args')) b s) as [[[b1 s1'] vs]|]; cbn [bind] in *; [|discriminate].
    injection Elow as -> -> Evs. symmetry in Evs. apply lower_statuses in Evs. specialize (Hmade b1 s1' vs eq_refl).
    (* the response *)
    destruct (ewrite_to_lower (wires unit) give_wire b1 (mk_wires [] [] tt)) as [Ew Hsame].
    rewrite (write_to_ok kr' ft ni no dbl Hw (wires unit) give_wire (lower_buffered b1) _ _ Hr1) in Ew.
    cbn [mc_out] in Ew. rewrite give_wires in Ew. cbn [bind app] in Ew.
    destruct (ewrite_to give_wire b1 (mk_wires [] [] tt)) as [[b2 w2]|]; cbn [bind] in Ew |- *; [|discriminate].
    specialize (Hsame b2 w2 eq_refl).
    pose proof (advance_all kr' ft ni no dbl Hw (lower_buffered b1) _ Hr1) as Hr2. cbn [mc_out mc_in mc_table] in Hr2.
    apply ok_pair in Ew. destruct Ew as [Eb2 Ew2]. rewrite Eb2 in Hr2. rewrite <- Ew2. cbn [w_out].
    (* its reading *)
    rewrite ekey_read_lower; [|rewrite Em; exact Hmp|rewrite Es; apply (esig_ok_small p _ _ _ Hsp)].
    rewrite Es.
    assert (Hrl : ret_encodable p (ekr_m kr) (sig_ret (lower_sig (ef_sig f))) (lower_ret (es_ret (ef_sig f)) r)).
    { cbn [lower_sig sig_ret]. apply (eret_lower p (ekr_e kr)); auto. apply Hsp. }
    rewrite (C28_returns (wires unit) p (lower_key k) take_wire (mk_wires (answer kr' (lower_func f) (lower_ret (es_ret (ef_sig f)) r)) [] tt)
               (mk_wires [] [] tt) (lower_ret (es_ret (ef_sig f)) r)); auto.
    2:{ cbn [lower_key k_sig k_e k_m]. rewrite Es, Em, Ee. apply (esig_ok_lower p _ _ _ Hsp). }
    2:{ cbn [lower_key k_sig k_m]. rewrite Es, Em. exact Hrl. }
    2:{ cbn [lower_key k_sig k_e k_m]. rewrite Es, Em, Ee. unfold answer. cbn [kr' lower_keyring kr_e kr_m lower_func f_sig].
        rewrite <- (response_length p (ekr_e kr) (ekr_m kr) _ _ Hrl).
        rewrite <- (app_nil_r (response _ _ _ _)) at 2. apply take_wires. }
    cbn [bind]. destruct (IH b2 (made_same kr ft b1 b2 Hmade Hsame) Hr2) as (b3 & E3). rewrite E3. cbn [bind].
    exists b3. rewrite Evs. do 3 f_equal.
    f_equal.
    - rewrite Hlen. unfold kr'. rewrite lower_index_size. cbn [lower_func f_sig]. rewrite <- ewire_sizes_lower. reflexivity.
    - cbn [lower_key k_sig]. rewrite Es. cbn [lower_sig sig_ret]. unfold lower_ret.
      destruct (es_ret (ef_sig f)) as [t|] eqn:Et; cbn [option_map]; [|reflexivity].
      destruct Hsp as [_ Hspr]. rewrite Et in Hspr. cbn [eret_encodable] in Hrp.
      rewrite (proj2 (eencodable_lower p (ekr_e kr) (ekr_m kr) t r Hp Hmp Hspr Hrp)). reflexivity.
  Qed.
End Session.

(** The calls, through the bytes, of a caller and a buffered dispatcher on any two
    hosts the native signed mode of which is the one of the keyring, give the
    results of the same calls made locally, bit for bit. *)
Theorem C109_session : forall (S : Type) p q dbl (kr : ekeyring S) ft g g' b calls s seen s2,
  wf_platform p -> wf_platform q ->
  native_signed_mode p (ekr_m kr) = true -> native_signed_mode q (ekr_m kr) = true ->
  ekeyring_ok p kr -> ekeyring_ok q kr -> ewell_sized dbl kr ft ->
  emake_buffered dbl kr ft g g' = Some b ->
  performs p q kr calls s seen s2 ->
  exists b', esession p q calls b s = Ok (b', s2, seen).
Proof.
  intros S p q dbl kr ft g g' b calls s seen s2 Hp Hq Hmp Hmq Hkp Hkq Hs Hb H.
  destruct (make_buffered_represents S q dbl (lower_keyring kr) ft g g' (lower_buffered b) (ekeyring_ok_lower _ _ _ Hkq)
              (ewell_sized_lower S dbl kr ft Hs)) as (ni & no & Hw & Hf & Hr).
  { rewrite emake_lower, Hb. reflexivity. }
  eapply (session_ok p q dbl kr ft Hp Hq Hmp Hmq Hkp Hkq ni no Hw Hf calls s seen s2 H); eauto.
  apply (emake_made S dbl kr ft g g' b (ekeyring_small S q kr Hkq) Hb).
Qed.

Definition ex_requests : list (ekey * list evalue) :=
  [(mk_ekey 1 0 (ef_sig ex_fadd) BIG TWOS_COMPLEMENT, [EFlt ex_one_half; EFlt ex_quarter]);
   (mk_ekey 1 1 (ef_sig ex_total) BIG TWOS_COMPLEMENT, [ex_points]);
   (mk_ekey 1 0 (ef_sig ex_fadd) BIG TWOS_COMPLEMENT, [EFlt ex_quarter; EFlt ex_quarter])].

(** 1.5 + (-0.25) = 1.25; (1.5)^2 + 1.5 = 3.75; (-0.25) + (-0.25) = -0.5. *)
Definition ex_seen : list (list eobs * option evalue) :=
  [(repeat (SawStatus LOADING_PACKET) 8 ++ [SawStatus RESOLVED_PACKET], Some (EFlt (S754_finite false 10485760 (-23))));
   (repeat (SawStatus LOADING_PACKET) 20 ++ [SawStatus RESOLVED_PACKET], Some (EFlt (S754_finite false 8444249301319680 (-51))));
   (repeat (SawStatus LOADING_PACKET) 8 ++ [SawStatus RESOLVED_PACKET], Some (EFlt (S754_finite true 8388608 (-24))))].

Lemma ex_fsized : forall dbl, ewell_sized dbl (ex_fkeyring TWOS_COMPLEMENT) ANY.
Proof.
  intros dbl. unfold ewell_sized. cbv zeta. cbn [ex_fkeyring ekr_funcs].
  repeat apply Forall_cons; [| |apply Forall_nil]; (split; [discriminate|]); destruct dbl; vm_compute; split; repeat constructor.
Qed.

Lemma performs_next : forall (S : Type) p q (kr : ekeyring S) name f k args s s1 r calls n o seen s2,
  In (name, f) (ekr_funcs kr) -> ekr_get kr name f = Some k ->
  Forall2 (eencodable p (ekr_m kr)) (es_params (ef_sig f)) args ->
  Forall2 (eencodable q (ekr_m kr)) (es_params (ef_sig f)) args ->
  ef_call f args s = (s1, r) ->
  eret_encodable p (ekr_m kr) (es_ret (ef_sig f)) r -> eret_encodable q (ekr_m kr) (es_ret (ef_sig f)) r ->
  n = ekr_index_size kr + ewire_sizes (ef_sig f) - 1 -> o = option_map (fun _ => r) (es_ret (ef_sig f)) ->
  performs p q kr calls s1 seen s2 ->
  performs p q kr ((k, args) :: calls) s
    ((repeat (SawStatus LOADING_PACKET) n ++ [SawStatus RESOLVED_PACKET], o) :: seen) s2.
Proof. intros; subst; econstructor; eauto. Qed.

Lemma ex_performs : performs pc_native pc_native (ex_fkeyring TWOS_COMPLEMENT) ex_requests [] ex_seen [(0, []); (1, []); (0, [])].
Proof.
  unfold ex_requests, ex_seen.
  assert (H1 : Forall2 (eencodable pc_native TWOS_COMPLEMENT) (es_params (ef_sig ex_total)) [ex_points]) by apply C105_example.
  apply performs_next with (name := 10) (f := ex_fadd) (s1 := [(0, [])]) (r := EFlt (S754_finite false 10485760 (-23))).
  { left. reflexivity. } { reflexivity. }
  { repeat (apply Forall2_cons; [reflexivity|]); apply Forall2_nil. } { repeat (apply Forall2_cons; [reflexivity|]); apply Forall2_nil. }
  { vm_compute. reflexivity. } { reflexivity. } { reflexivity. } { reflexivity. } { reflexivity. }
  apply performs_next with (name := 20) (f := ex_total) (s1 := [(0, []); (1, [])]) (r := EFlt (S754_finite false 8444249301319680 (-51))).
  { right. left. reflexivity. } { reflexivity. } { exact H1. } { exact H1. }
  { vm_compute. reflexivity. } { reflexivity. } { reflexivity. } { reflexivity. } { reflexivity. }
  apply performs_next with (name := 10) (f := ex_fadd) (s1 := [(0, []); (1, []); (0, [])]) (r := EFlt (S754_finite true 8388608 (-24))).
  { left. reflexivity. } { reflexivity. }
  { repeat (apply Forall2_cons; [reflexivity|]); apply Forall2_nil. } { repeat (apply Forall2_cons; [reflexivity|]); apply Forall2_nil. }
  { vm_compute. reflexivity. } { reflexivity. } { reflexivity. } { reflexivity. } { reflexivity. }
  apply performs_nil.
Qed.

(** A history with floating point values: a packet is put byte after byte, its
    response is got byte after byte; the action is then replaced by one which
    multiplies. *)
Definition ex_fmul : efunc log :=
  mk_efunc (mk_esig [EFloat binary32; EFloat binary32] (Some (EFloat binary32))) (fun args s =>
    match args with
    | [EFlt a; EFlt b] => (s ++ [(7, [])], EFlt (SFmul 24 128 a b))
    | _ => (s, EFlt S754_nan)
    end).

Example C109_example :
  native_signed_mode pc_native TWOS_COMPLEMENT = true
  /\ ekeyring_ok pc_native (ex_fkeyring TWOS_COMPLEMENT)
  /\ (forall dbl, ewell_sized dbl (ex_fkeyring TWOS_COMPLEMENT) ANY)
  /\ performs pc_native pc_native (ex_fkeyring TWOS_COMPLEMENT) ex_requests [] ex_seen [(0, []); (1, []); (0, [])]
  /\ match emake_buffered false (ex_fkeyring TWOS_COMPLEMENT) ANY (repeat 7%Z 21) (repeat 9%Z 20) with
     | Some b =>
         (match esession pc_native pc_native ex_requests b [] with
          | Ok (_, s, seen) => s = [(0, []); (1, []); (0, [])] /\ seen = ex_seen
          | Fault _ => False
          end)
         /\ match erun pc_native (map EPut [0; 63; 192; 0; 0; 190; 128; 0; 0]%Z ++ [EIsLoaded; EGet; EGet; EGet; EGet; EIsLoaded]
                                  ++ [EReplace 0 true ex_fmul] ++ map EPut [0; 63; 192; 0; 0; 190; 128; 0; 0]%Z ++ [EGet; EGet]) b [] with
            | Ok (_, s, vs) =>
                s = [(0, []); (7, [])]
                /\ vs = repeat (SawStatus LOADING_PACKET) 8 ++ [SawStatus RESOLVED_PACKET; SawBool true; SawByte 63; SawByte 160;
                          SawByte 0; SawByte 0; SawBool false; SawNothing]
                        ++ repeat (SawStatus LOADING_PACKET) 8 ++ [SawStatus RESOLVED_PACKET; SawByte 190; SawByte 192]
            | Fault _ => False
            end
     | None => False
     end.
Proof.
  split; [reflexivity|]. split; [exact ex_fkeyring_ok|]. split; [exact ex_fsized|]. split; [exact ex_performs|].
  vm_compute. auto.
Qed.

(** A multiplication can take the place of the addition of two floats, not that of another
    callback; for [WEAK_REFERENCE] not when it has a state. *)
Example C109_replace_example :
  ekeyring_ok pc_native (ex_fkeyring TWOS_COMPLEMENT)
  /\ match emake_buffered false (ex_fkeyring TWOS_COMPLEMENT) WEAK_REFERENCE [] [] with
     | Some b =>
         match ereplace b 0 false ex_fmul, ereplace b 0 true ex_fmul, ereplace b 1 false ex_fmul with
         | Some (Ok _), None, None => True
         | _, _, _ => False
         end
     | None => False
     end.
Proof. split; [exact ex_fkeyring_ok|]. vm_compute. exact I. Qed.

Print Assumptions C109_history.
Print Assumptions C109_replace.
Print Assumptions C109_session.
