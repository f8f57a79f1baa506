(** Properties C57 and C58: implicit conversions between integer types, and
    hooks whose parameter is not the type of the response. *)

From Coq Require Import List ZArith Lia Bool Arith.
From Verif Require Import Base CInt Spec SpecRpc IntModel Conditions MemFacts TypeLevel Serial TupleModel Rpc
  TypeLevelProofs IntProofs SignedProofs SerialProofs CodecFacts Bounds TupleProofs RpcProofs Hosts Closed
  Convert PropertiesInt PropertiesTuple PropertiesRpc.
Import ListNotations.
Open Scope nat_scope.

(** ** Conversion, as specified by C++: the value of the type which is equal to
    the given one modulo the number of values of the type; [bool]: whether the
    value differs from zero. *)
Definition converted (t : ty) (x y : val) : Prop :=
  match t, x, y with
  | TBool, VInt a, VInt b => (a = 0 /\ b = 0)%Z \/ (a <> 0 /\ b = 1)%Z
  | TUns w, VInt a, VInt b => (0 <= b < space w)%Z /\ exists k, (b = a + k * space w)%Z
  | TSig w, VInt a, VInt b => (- half w <= b < half w)%Z /\ exists k, (b = a + k * space w)%Z
  | _, _, _ => y = x
  end.

Definition integral (t : ty) : Prop :=
  match t with
  | TBool | TUns _ | TSig _ => True
  | TArr _ _ | TUser _ _ => False
  end.

Lemma convert_ok : forall t x y, wf_ty t -> converted t x y -> convert t x = y.
Proof.
  intros t x y Hw H. unfold convert.
  destruct t, x as [a|l], y as [b|l']; cbn [arith_ty converted wf_ty] in *; try congruence.
  - cbn [conv]. destruct H as [[-> ->]|[H ->]]; [reflexivity|]. destruct (Z.eqb_spec a 0); congruence.
  - destruct H as [H [k ->]]. f_equal. rewrite conv_unsigned. rewrite <- (Z_mod_plus_full a k).
    apply Z.mod_small. auto.
  - destruct H as [H [k E]]. f_equal. rewrite <- (conv_signed_range w b) by (auto; lia).
    apply conv_signed_eq; [lia|]. rewrite E, Z_mod_plus_full. reflexivity.
Qed.

Lemma converted_self : forall t x, has_type t x -> converted t x x.
Proof.
  intros t x H. destruct t, x; cbn [converted has_type] in *; auto.
  - destruct H as [-> | ->]; [left|right]; lia.
  - split; auto. exists 0%Z. lia.
  - split; auto. exists 0%Z. lia.
Qed.

(** Every value of an integer type has a conversion. *)
Lemma converted_exists : forall t z, wf_ty t -> integral t -> exists y, converted t (VInt z) y /\ has_type t y.
Proof.
  intros [|w|w| |] z Hw Hi; cbn [integral wf_ty converted has_type] in *; try contradiction.
  - exists (VInt (if Z.eqb z 0 then 0 else 1)). destruct (Z.eqb_spec z 0); [split; [left|left]|split; [right|right]]; lia.
  - exists (VInt (z mod space w)). pose proof (Z.mod_pos_bound z (space w) (space_pos w)).
    split; auto. split; auto. exists (- (z / space w))%Z. pose proof (Z.div_mod z (space w)). pose proof (space_pos w). nia.
  - exists (VInt (conv (CInt w true) z)). pose proof (conv_signed_bounds w z ltac:(lia)) as B.
    pose proof (conv_signed_mod w z ltac:(lia)) as M. split; auto. split; auto.
    pose proof (Z.div_mod z (space w)). pose proof (Z.div_mod (conv (CInt w true) z) (space w)).
    pose proof (space_pos w). exists (conv (CInt w true) z / space w - z / space w)%Z. nia.
Qed.

Lemma converts_iff : forall u t, converts u t = true <-> (integral u /\ integral t) \/ u = t.
Proof.
  intros u t. unfold converts. split.
  - destruct u, t; cbn [arith_ty integral]; intros H; auto; try discriminate;
      right; apply ty_eqb_eq; auto.
  - intros [[Hu Ht] | ->].
    + destruct u, t; cbn in *; auto; contradiction.
    + destruct t; cbn [arith_ty]; auto; apply ty_eqb_refl.
Qed.

(** [us] is convertible to [ts], type by type. *)
Definition accepted (us ts : list ty) : Prop :=
  Forall2 (fun u t => (integral u /\ integral t) \/ u = t) us ts.

Lemma all_convert_iff : forall us ts, all_convert us ts = true <-> accepted us ts.
Proof.
  induction us as [|u us IH]; intros [|t ts]; cbn [all_convert]; split; intros H;
    try discriminate; try (inversion H; fail); try (constructor; fail); auto.
  - apply andb_true_iff in H. destruct H. constructor; [apply converts_iff|apply IH]; auto.
  - inversion H; subst. apply andb_true_iff. split; [apply converts_iff|apply IH]; auto.
Qed.

Lemma types_at_spec : forall ts is us,
  types_at ts is = Some us <-> Forall2 (fun i u => nth_error ts i = Some u) is us.
Proof.
  intros ts. induction is as [|i is IH]; intros us; cbn [types_at].
  - split; intros H; [injection H as <-; constructor|inversion H; auto].
  - rewrite at17_nth_error. split; intros H.
    + destruct (nth_error ts i) eqn:E; [|discriminate].
      destruct (types_at ts is) eqn:E'; [|discriminate]. injection H as <-. constructor; auto. apply IH. auto.
    + inversion H as [|? ? ? l E F]; subst. rewrite E. apply IH in F. rewrite F. auto.
Qed.

(** The first [n] types. *)
Lemma types_at_seq : forall ts n us,
  types_at ts (make_index_sequence14 n) = Some us <-> n <= length ts /\ us = firstn n ts.
Proof.
  intros ts n us. rewrite types_at_spec. unfold make_index_sequence14. split.
  - intros H. assert (L : length us = n) by (apply Forall2_length in H; rewrite seq_length in H; auto).
    assert (N : forall i u, nth_error us i = Some u -> nth_error ts i = Some u).
    { intros i u Hu. assert (i < n) by (rewrite <- L; apply nth_error_Some; congruence).
      assert (Hi : nth_error (seq 0 n) i = Some i).
      { rewrite nth_error_nth' with (d := 0) by (rewrite seq_length; auto). rewrite seq_nth; auto. }
      apply (Forall2_nth2 _ _ _ _ _ _ _ _ H Hi Hu). }
    assert (Hn : n <= length ts).
    { destruct n as [|n]; [lia|]. destruct (nth_error us n) eqn:E.
      - apply N in E. assert (n < length ts) by (apply nth_error_Some; congruence). lia.
      - apply nth_error_None in E. lia. }
    split; auto. apply nth_error_ext. intros i. destruct (nth_error us i) eqn:E.
    + assert (i < n) by (rewrite <- L; apply nth_error_Some; congruence).
      rewrite nth_error_firstn. destruct (Nat.ltb_spec i n); [|lia]. symmetry. auto.
    + apply nth_error_None in E. symmetry. apply nth_error_None. rewrite firstn_length. lia.
  - intros [Hn ->]. apply Forall2_nth_intro; [rewrite seq_length, firstn_length; lia|].
    intros i a u Ha Hu. apply seq_nth_error in Ha. destruct Ha as [-> Hi].
    rewrite nth_error_firstn in Hu. destruct (Nat.ltb_spec i n); [auto|lia].
Qed.

Lemma lay_from_ok : forall p v, elements_ok p v ->
  forall k i us xs ys mem, i + k = length (v_types v) ->
  Forall2 (fun u t => (integral u /\ integral t) \/ u = t) us (skipn i (v_types v)) ->
  length xs = k -> length ys = k ->
  (forall j t x y, nth_error (skipn i (v_types v)) j = Some t -> nth_error xs j = Some x ->
     nth_error ys j = Some y -> converted t x y) ->
  lay_from p v (seq i k) us xs mem = Some (lay p v (seq i k) ys mem).
Proof.
  intros p v Hv. induction k as [|k IH]; intros i us xs ys mem Hk Ha Hx Hy Hc.
  - destruct xs; [|discriminate]. destruct ys; [|discriminate].
    rewrite skipn_all2 in Ha by lia. inversion Ha. reflexivity.
  - destruct xs as [|x xs]; [discriminate|]. destruct ys as [|y ys]; [discriminate|].
    assert (Hi : i < length (v_types v)) by lia.
    destruct (nth_error (v_types v) i) as [t|] eqn:Ht; [|apply nth_error_None in Ht; lia].
    rewrite (skipn_nth_cons _ _ _ _ Ht) in Ha, Hc. inversion Ha as [|u t' us' ts' Hu Hus]; subst.
    cbn [seq lay_from lay]. unfold set_from. rewrite at17_nth_error, Ht.
    assert (Hcv : converts u t = true) by (apply converts_iff; auto). rewrite Hcv.
    assert (Hwf : wf_ty t).
    { pose proof (elements_wf p v Hv) as W. rewrite Forall_forall in W. apply W. eapply nth_error_In; eauto. }
    rewrite (convert_ok t x y Hwf) by (apply (Hc 0); reflexivity).
    destruct (set p v i y mem) as [mem'|f]; cbn [bind]; [|reflexivity].
    apply IH; auto; try lia. intros j t0 x0 y0 H1 H2 H3. apply (Hc (S j)); auto.
Qed.

Lemma get_each_first : forall p v mem n xs, length xs = n ->
  (forall i x, nth_error xs i = Some x -> get p v i mem = Ok x) ->
  get_each p v (make_index_sequence14 n) mem = Ok xs.
Proof.
  intros p v mem n xs Hl H. apply get_each_spec. unfold make_index_sequence14.
  apply Forall2_nth_intro; [rewrite seq_length; auto|].
  intros i a x Ha Hx. apply seq_nth_error in Ha. destruct Ha as [-> _]. apply H. auto.
Qed.

(** ** C57 *)

(** Which assignments compile: the destination is not a [tuple<E, S>] without
    elements, the source has at least as many elements, and each of the first ones is either an integer given for an integer or has the
    type of the element it is copied into. *)
Theorem C57_compiles : forall p c dst src mem,
  let d := v_types (object_view dst) in let s := v_types (object_view src) in
  assign_from p c dst src mem <> None
  <-> same_type dst src
      \/ (c = Temporary /\ ~ tuple_without_elements dst /\ length d <= length s
          /\ forall i t u, nth_error d i = Some t -> nth_error s i = Some u ->
               (integral u /\ integral t) \/ u = t).
Proof.
  intros p c dst src mem d s. unfold assign_from.
  destruct (same_object_type dst src) eqn:Hty.
  { split; [intros _; left; apply same_type_iff; exact Hty|]. intros _. unfold assign. rewrite Hty. destruct dst; discriminate. }
  assert (Hacc : length d <= length s ->
     (accepted (firstn (length d) s) d
      <-> forall i t u, nth_error d i = Some t -> nth_error s i = Some u -> (integral u /\ integral t) \/ u = t)).
  { intros Hl. split; intros H.
    - intros i t u Ht Hu. apply (Forall2_nth2 _ _ _ _ _ i u t H); auto.
      assert (i < length d) by (apply nth_error_Some; congruence).
      rewrite nth_error_firstn. destruct (Nat.ltb_spec i (length d)); [auto|lia].
    - apply Forall2_nth_intro; [rewrite firstn_length; lia|]. intros i u t Hu Ht.
      assert (i < length d) by (apply nth_error_Some; congruence).
      rewrite nth_error_firstn in Hu. destruct (Nat.ltb_spec i (length d)); [|lia]. eauto. }
  split.
  - intros H. right. destruct c; try congruence. split; auto.
    destruct (has_template_assignment dst) eqn:Hne; [|congruence]. split; [apply template_assignment; auto|].
    unfold lay_tuple_from in H. fold d s in H.
    destruct (types_at s (make_index_sequence14 (length d))) as [us|] eqn:E; [|congruence].
    apply types_at_seq in E. destruct E as [E ->]. split; auto.
    destruct (all_convert (firstn (length d) s) d) eqn:A; [|congruence].
    apply Hacc; auto. apply all_convert_iff. auto.
  - intros [H|(-> & Hne & Hl & H)]; [apply same_type_iff in H; congruence|].
    apply template_assignment in Hne. rewrite Hne. unfold lay_tuple_from. fold d s.
    assert (E : types_at s (make_index_sequence14 (length d)) = Some (firstn (length d) s)).
    { apply types_at_seq. auto. }
    rewrite E. apply Hacc in H; auto. pose proof H as H'. apply all_convert_iff in H. rewrite H.
    destruct (get_each p (object_view src) (make_index_sequence14 (length d)) mem) as [xs|f] eqn:G; [|discriminate].
    apply get_each_spec in G. apply Forall2_length in G.
    assert (L : forall is us xs mem, length xs = length is ->
       Forall2 (fun i u => exists t, nth_error d i = Some t /\ converts u t = true) is us ->
       lay_from p (object_view dst) is us xs mem <> None).
    { clear. induction is as [|i is IH]; intros us xs mem Hx F; inversion F as [|? u ? us' (t & Ht & Hc) F']; subst.
      - destruct xs; [discriminate|discriminate].
      - destruct xs as [|x xs]; [discriminate|]. cbn [lay_from]. unfold set_from. rewrite at17_nth_error.
        fold d. rewrite Ht, Hc. destruct (set p (object_view dst) i (convert t x) mem); [|discriminate].
        apply IH; auto. }
    specialize (L (make_index_sequence14 (length d)) (firstn (length d) s) xs mem ltac:(auto)).
    destruct (lay_from p (object_view dst) (make_index_sequence14 (length d)) (firstn (length d) s) xs mem);
      [discriminate|]. exfalso. apply L; auto.
    apply Forall2_nth_intro; [unfold make_index_sequence14; rewrite seq_length, firstn_length; lia|].
    intros i a u Ha Hu. unfold make_index_sequence14 in Ha. apply seq_nth_error in Ha. destruct Ha as [-> Hi].
    cbn [plus]. destruct (nth_error d i) as [t|] eqn:Ht; [|apply nth_error_None in Ht; lia].
    exists t. split; auto. apply converts_iff. apply (Forall2_nth2 _ _ _ _ _ i u t H'); auto.
Qed.

(** Every element receives the conversion of the element of the source at the
    same place; what follows in the source is ignored; nothing else is
    written. *)
Theorem C57_converted : forall p dst src xs ys mem,
  wf_platform p ->
  let d := object_view dst in let s := object_view src in
  ~ same_type dst src -> ~ tuple_without_elements dst -> length (v_types d) <= length (v_types s) ->
  (forall i t u, nth_error (v_types d) i = Some t -> nth_error (v_types s) i = Some u ->
     (integral u /\ integral t) \/ u = t) ->
  elements_ok p d -> in_bounds d mem -> Forall is_byte mem ->
  (* [xs]: the values held by the first elements of [src] before *)
  length xs = length (v_types d) -> (forall i x, nth_error xs i = Some x -> get p s i mem = Ok x) ->
  (* [ys]: their conversions *)
  (forall i t x y, nth_error (v_types d) i = Some t -> nth_error xs i = Some x ->
     nth_error ys i = Some y -> converted t x y) ->
  Forall2 (encodable p (v_m d)) (v_types d) ys ->
  exists mem', assign_from p Temporary dst src mem = Some (Ok (dst, mem'))
    /\ (forall i y, nth_error ys i = Some y -> get p d i mem' = Ok y)
    /\ mem' = splice mem (v_begin d) (enc_list (v_e d) (v_m d) (v_types d) ys).
Proof.
  intros p dst src xs ys mem Hp d s Hty Hne Hl Hacc Hd Hb Hm Hx Hg Hc Hy.
  assert (Hly : length ys = length (v_types d)) by (apply Forall2_length in Hy; auto).
  unfold assign_from. rewrite same_type_false by exact Hty. apply template_assignment in Hne. rewrite Hne.
  fold d s. unfold lay_tuple_from.
  assert (E : types_at (v_types s) (make_index_sequence14 (length (v_types d)))
              = Some (firstn (length (v_types d)) (v_types s))) by (apply types_at_seq; auto).
  rewrite E.
  assert (A : accepted (firstn (length (v_types d)) (v_types s)) (v_types d)).
  { apply Forall2_nth_intro; [rewrite firstn_length; lia|]. intros i u t Hu Ht.
    assert (i < length (v_types d)) by (apply nth_error_Some; congruence).
    rewrite nth_error_firstn in Hu. destruct (Nat.ltb_spec i (length (v_types d))); [eauto|lia]. }
  pose proof A as A'. apply all_convert_iff in A'. rewrite A'.
  rewrite (get_each_first p s mem _ xs) by auto.
  unfold make_index_sequence14 at 1. rewrite (lay_from_ok p d Hd _ 0 _ xs ys); auto.
  fold (make_index_sequence14 (length (v_types d))). rewrite lay_all by auto. cbn [bind].
  eexists. split; [reflexivity|]. split; auto.
  assert (Hel : length (enc_list (v_e d) (v_m d) (v_types d) ys) = total (v_types d)).
  { apply enc_list_length. eapply encodable_has; eauto. }
  intros i y Hi. apply (get_laid p d ys); auto.
  - unfold in_bounds in *. rewrite splice_length by lia. auto.
  - apply Forall_splice; auto. apply enc_list_bytes.
  - rewrite <- Hel. apply slice_splice_same. unfold in_bounds in Hb. lia.
Qed.

(** Values which fit are preserved. *)
Theorem C57_preserved : forall p dst src xs mem,
  wf_platform p ->
  let d := object_view dst in let s := object_view src in
  ~ same_type dst src -> ~ tuple_without_elements dst -> length (v_types d) <= length (v_types s) ->
  (forall i t u, nth_error (v_types d) i = Some t -> nth_error (v_types s) i = Some u ->
     (integral u /\ integral t) \/ u = t) ->
  elements_ok p d -> in_bounds d mem -> Forall is_byte mem ->
  length xs = length (v_types d) -> (forall i x, nth_error xs i = Some x -> get p s i mem = Ok x) ->
  Forall2 (encodable p (v_m d)) (v_types d) xs ->
  exists mem', assign_from p Temporary dst src mem = Some (Ok (dst, mem'))
    /\ (forall i x, nth_error xs i = Some x -> get p d i mem' = Ok x).
Proof.
  intros p dst src xs mem Hp d s Hty Hne Hl Hacc Hd Hb Hm Hx Hg He.
  destruct (C57_converted p dst src xs xs mem) as (mem' & H1 & H2 & _); auto; [|exists mem'; auto].
  intros i t x y Ht Hi Hj. assert (x = y) by congruence. subst y. apply converted_self.
  apply encodable_has in He. apply (Forall2_nth2 _ _ _ _ _ i t x He); auto.
Qed.

(** [set] with an argument of another integer type. *)
Theorem C57_set : forall p v i t u x y mem,
  wf_platform p -> elements_ok p v -> in_bounds v mem -> Forall is_byte mem ->
  nth_error (v_types v) i = Some t -> (integral u /\ integral t) \/ u = t ->
  converted t x y -> encodable p (v_m v) t y ->
  exists mem', set_from p v i u x mem = Some (Ok mem') /\ get p v i mem' = Ok y
    /\ mem' = splice mem (pos v i) (enc (v_e v) (v_m v) t y).
Proof.
  intros p v i t u x y mem Hp Hv Hb Hm Ht Hu Hc Hy. unfold set_from. rewrite at17_nth_error, Ht.
  assert (Hcv : converts u t = true) by (apply converts_iff; auto). rewrite Hcv.
  pose proof (elements_nth p v i t Hv Ht) as [Hok _].
  rewrite (convert_ok t x y) by (auto; apply Hok).
  rewrite (set_ok p v i t y) by auto. eexists. split; [reflexivity|]. split; auto.
  pose proof (pos_bound v i t mem Hb Ht) as Hpos.
  assert (Hel : length (enc (v_e v) (v_m v) t y) = wire_size t) by (apply enc_length; apply Hy).
  apply (get_holds p v i t); auto.
  - unfold in_bounds in *. rewrite splice_length by lia. auto.
  - apply Forall_splice; auto. apply enc_bytes.
  - rewrite <- Hel. apply slice_splice_same. lia.
Qed.

(** Remote calls: the callback receives the conversions of the arguments, to
    the types of its parameters. *)
Theorem C57_remote_call : forall (S : Type) p q (kr : keyring S) ft name f k us xs args s rest,
  wf_platform p -> wf_platform q -> keyring_ok p (lift_keyring kr) -> keyring_ok q (lift_keyring kr) ->
  In (name, f) (kr_funcs kr) -> kr_get (lift_keyring kr) name (lift_func f) = Some k ->
  Forall2 (fun u t => (integral u /\ integral t) \/ u = t) us (sig_params (f_sig f)) ->
  length xs = length args ->
  (forall i t x y, nth_error (sig_params (f_sig f)) i = Some t -> nth_error xs i = Some x ->
     nth_error args i = Some y -> converted t x y) ->
  Forall2 (encodable p (kr_m kr)) (sig_params (f_sig f)) args ->
  Forall2 (encodable q (kr_m kr)) (sig_params (f_sig f)) args ->
  let (s', r) := f_call f args s in
  ret_encodable p (kr_m kr) (sig_ret (f_sig f)) r -> ret_encodable q (kr_m kr) (sig_ret (f_sig f)) r ->
  exists i packet resp,
    nth_error (kr_funcs kr) i = Some (name, f)
    /\ key_write_from p k us xs give_wire (mk_wires [] [] tt) = Some (Ok (mk_wires [] packet tt))
    /\ dispatch q (make_dispatcher (lift_keyring kr) ft) take_wire give_wire (mk_wires (packet ++ rest) [] s)
       = Ok (mk_wires rest resp s', i).
Proof.
  intros S p q kr ft name f k us xs args s rest Hp Hq Hkp Hkq Hin Hk Hus Hlen Hc Hap Haq.
  pose proof (C31_remote_call S p q kr ft name f k args s rest [] Hp Hq Hkp Hkq Hin Hk Hap Haq) as R.
  destruct (f_call f args s) as [s' r]. intros Hrp Hrq.
  destruct (R Hrp Hrq) as (i & packet & resp & Hi & Hw & Hd & _). exists i, packet, resp.
  split; auto. split; auto.
  assert (Hin' : In (name, lift_func f) (kr_funcs (lift_keyring kr))).
  { cbn [lift_keyring kr_funcs]. apply (in_map (fun nf => (fst nf, lift_func (snd nf))) _ _ Hin). }
  destruct (kr_get_nth _ _ _ _ _ Hk Hin') as (_ & _ & Ek).
  assert (Eks : k_sig k = f_sig f) by (rewrite Ek; reflexivity).
  unfold key_write_from. rewrite Eks.
  assert (A : all_convert us (sig_params (f_sig f)) = true) by (apply all_convert_iff; exact Hus).
  rewrite A.
  assert (Hwf : Forall wf_ty (sig_params (f_sig f))).
  { destruct Hkp as [_ F]. rewrite Forall_forall in F. specialize (F _ Hin'). cbn in F.
    eapply tys_wf. apply F. }
  assert (E : convert_each (sig_params (f_sig f)) xs = args).
  { clear - Hwf Hlen Hc Hap. revert xs Hlen Hc. induction Hap as [|t y ts ys Hy Hys IH]; intros xs Hlen Hc.
    - reflexivity.
    - destruct xs as [|x xs]; [discriminate|]. inversion Hwf; subst. cbn [convert_each]. f_equal.
      + apply convert_ok; auto. apply (Hc 0); reflexivity.
      + apply IH; auto. intros i t0 x0 y0 H1' H2' H3'. apply (Hc (Datatypes.S i)); auto. }
  rewrite E. f_equal. exact Hw.
Qed.

(** From [{0, {-3, 300}}] as 4-byte and 2-byte integers to [bool], [signed char]
    and [unsigned char]; the fourth element is ignored, and the two objects
    overlap. *)
Example C57_example :
  let src := View (mk_view Pointer BIG SIGNED_MAGNITUDE [TSig 4; TSig 2; TUns 2; TUns 1] 0) in
  let dst := Tuple (tuple_at LITTLE TWOS_COMPLEMENT [TBool; TSig 1; TUns 1] 2) in
  let mem := [0; 0; 0; 5; 128; 3; 1; 44; 9]%Z in
  ~ same_type dst src
  /\ get pc_native (object_view src) 0 mem = Ok (VInt 5)
  /\ get pc_native (object_view src) 1 mem = Ok (VInt (-3))
  /\ get pc_native (object_view src) 2 mem = Ok (VInt 300)
  /\ converted TBool (VInt 5) (VInt 1) /\ converted (TSig 1) (VInt (-3)) (VInt (-3))
  /\ converted (TUns 1) (VInt 300) (VInt 44)
  /\ Forall2 (encodable pc_native TWOS_COMPLEMENT) [TBool; TSig 1; TUns 1] [VInt 1; VInt (-3); VInt 44]
  /\ elements_ok pc_native (object_view dst) /\ in_bounds (object_view dst) mem
  /\ assign_from pc_native Temporary dst src mem = Some (Ok (dst, [0; 0; 1; 253; 44; 3; 1; 44; 9]%Z)).
Proof.
  cbn zeta. split; [intros H; apply same_type_iff in H; discriminate H|]. split; [vm_compute; reflexivity|]. split; [vm_compute; reflexivity|].
  split; [vm_compute; reflexivity|]. split; [right; split; [discriminate|reflexivity]|].
  split; [split; [vm_compute; split; [discriminate|reflexivity]|exists 0%Z; reflexivity]|].
  split; [split; [vm_compute; split; [discriminate|reflexivity]|exists (-1)%Z; reflexivity]|].
  split; [encs|]. split; [apply tuple_elements_ok; tyoks|]. split; [unfold in_bounds; cbn; lia|].
  vm_compute. reflexivity.
Qed.

(** Too few elements, or an array given for an integer: rejected by the
    compiler. *)
Example C57_example_rejected :
  assign_from pc_native Temporary (Tuple (tuple_at BIG TWOS_COMPLEMENT [TUns 1; TUns 1] 0))
    (Tuple (tuple_at LITTLE TWOS_COMPLEMENT [TUns 1] 2)) [1; 2; 3]%Z = None
  /\ assign_from pc_native Temporary (Tuple (tuple_at BIG TWOS_COMPLEMENT [TUns 1] 0))
       (Tuple (tuple_at LITTLE TWOS_COMPLEMENT [TArr (TUns 1) 1] 2)) [1; 2; 3]%Z = None.
Proof. split; reflexivity. Qed.

(** A request made with integers of 4 bytes, for [add(int16_t, uint8_t)]. *)
Example C57_example_call :
  converted (TSig 2) (VInt 65534) (VInt (-2)) /\ converted (TUns 1) (VInt 261) (VInt 5)
  /\ key_write_from pc_native ex_key_add [TSig 4; TSig 4] [VInt 65534; VInt 261] give_wire (mk_wires [] [] tt)
     = Some (Ok (mk_wires [] [0; 255; 254; 5]%Z tt)).
Proof.
  split; [split; [vm_compute; split; [discriminate|reflexivity]|exists (-1)%Z; reflexivity]|].
  split; [split; [vm_compute; split; [discriminate|reflexivity]|exists (-1)%Z; reflexivity]|].
  vm_compute. reflexivity.
Qed.

(** ** C58 *)

(** A hook reads what its own parameters take, whatever the key returns. *)
Theorem C58_own_signature : forall (X : Type) p ft k (f : func X) src dest x,
  wf_platform p -> sig_ok p (k_e k) (k_m k) (f_sig f) ->
  (forall x1 bs, pull src (wire_sizes (sig_params (f_sig f))) x = Ok (x1, bs) ->
     Forall is_byte bs /\ decodable_list p (k_e k) (k_m k) (sig_params (f_sig f)) bs
     /\ ret_encodable p (k_m k) (sig_ret (f_sig f))
          (snd (f_call f (dec_list (k_e k) (k_m k) (sig_params (f_sig f)) bs) x1))) ->
  run p (with_hook ft k f) src dest x =
  ('(x1, bs) <- pull src (wire_sizes (sig_params (f_sig f))) x;;
   let (x2, r) := f_call f (dec_list (k_e k) (k_m k) (sig_params (f_sig f)) bs) x1 in
   push dest (response (k_e k) (k_m k) (sig_ret (f_sig f)) r) x2).
Proof.
  intros X p ft k f src dest x Hp Hs H.
  apply (C29_read_call_write X p (with_hook ft k f) (mk_model (k_e k) (k_m k) f)); auto.
  destruct ft; reflexivity.
Qed.

(** A hook taking one value, which it records. *)
Definition recorder (t : ty) : func (wires (list val)) :=
  mk_func (mk_sig [t] None) (fun args w => (mk_wires (w_in w) (w_out w) (args ++ w_user w), VInt 0)).

(** The hook receives the value returned by the callback and takes nothing of
    what follows the response. *)
Definition hook_receives (p : platform) (ft : action_features) (k : key) (t t' : ty) : Prop :=
  forall v rest, encodable p (k_m k) t v -> Forall is_byte rest ->
    run p (with_hook ft k (recorder t')) take_wire give_wire
      (mk_wires (response (k_e k) (k_m k) (Some t) v ++ rest) [] [])
    = Ok (mk_wires rest [] [v]).

Lemma take_wires_short : forall (S : Type) n bs out (s : S), length bs < n ->
  pull take_wire n (mk_wires bs out s) = Fault NoInput.
Proof.
  intros S. induction n as [|n IH]; intros bs out s H; [lia|]. destruct bs as [|b bs]; cbn in *; auto.
  rewrite IH by lia. reflexivity.
Qed.

Lemma recorder_run : forall p ft k t bs w',
  wf_platform p -> ty_ok p (k_e k) (k_m k) t -> integral t -> Forall is_byte bs ->
  run p (with_hook ft k (recorder t)) take_wire give_wire (mk_wires bs [] []) = Ok w' ->
  wire_size t <= length bs
  /\ w' = mk_wires (skipn (wire_size t) bs) [] [dec (k_e k) (k_m k) t (firstn (wire_size t) bs)].
Proof.
  intros p ft k t bs w' Hp Hok Hi Hb H.
  assert (Em : action_model (with_hook ft k (recorder t)) = Some (mk_model (k_e k) (k_m k) (recorder t)))
    by (destruct ft; reflexivity).
  rewrite (run_call p _ _ _ _ _ _ Em) in H. cbn [m_e m_m m_func] in H.
  unfold call in H. cbn [recorder f_sig sig_params sig_ret] in H.
  rewrite read_tuple_ok in H by auto.
  assert (Ews : wire_sizes [t] = wire_size t) by (cbn; lia). rewrite Ews in H.
  destruct (Nat.lt_ge_cases (length bs) (wire_size t)) as [L|L].
  { rewrite take_wires_short in H by auto. discriminate. }
  split; auto.
  assert (Ebs : bs = firstn (wire_size t) bs ++ skipn (wire_size t) bs) by (symmetry; apply firstn_skipn).
  set (b1 := firstn (wire_size t) bs) in *. set (b2 := skipn (wire_size t) bs) in *.
  assert (L1 : length b1 = wire_size t) by (apply firstn_length_le; auto).
  rewrite Ebs in H. rewrite <- L1 in H at 1. rewrite take_wires in H. cbn [bind] in H.
  unfold invoke in H. cbn [tuple_at v_types length] in H.
  change (make_index_sequence14 1) with [0] in H. cbn [get_each] in H.
  assert (Hel : elements_ok p (tuple_at (k_e k) (k_m k) [t] 0)) by (apply tuple_elements_ok; auto).
  rewrite (get_eq p (tuple_at (k_e k) (k_m k) [t] 0) 0 t) in H by auto.
  cbn [tuple_at v_kind v_e v_m read_at] in H.
  change (pos (tuple_at (k_e k) (k_m k) [t] 0) 0) with 0 in H.
  assert (Hb1 : Forall is_byte b1).
  { rewrite Ebs in Hb. apply Forall_app in Hb. apply Hb. }
  destruct (C06_decode_integers_partial p (k_e k) (k_m k) t b1 0) as [(_ & R & _)|[(_ & _ & _ & R)|(? & _ & _ & _ & _ & _ & R)]]; auto.
  - destruct Hok as [W _]. destruct t; cbn in Hi, W; try contradiction; [left; auto|right|right]; eauto.
  - apply Hok.
  - cbn. lia.
  - rewrite R in H. cbn [bind recorder f_call w_in w_out w_user app] in H.
    rewrite slice_0_all in H by auto. congruence.
  - rewrite R in H. discriminate.
  - rewrite R in H. discriminate.
Qed.

(** The hook types which are right for a returned integer: the type itself;
    for a returned [bool], also [unsigned char] and, unless the mode is
    OFFSET_BINARY, [signed char].  Every other hook compiles too. *)
Theorem C58_exact : forall p ft k t t',
  wf_platform p -> ty_ok p (k_e k) (k_m k) t -> ty_ok p (k_e k) (k_m k) t' -> integral t -> integral t' ->
  hook_receives p ft k t t'
  <-> t' = t \/ (t = TBool /\ t' = TUns 1) \/ (t = TBool /\ t' = TSig 1 /\ k_m k <> OFFSET_BINARY).
Proof.
  intros p ft k t t' Hp Hok Hok' Hi Hi'. split.
  - intros H.
    assert (R : forall v, encodable p (k_m k) t v ->
       wire_size t' = wire_size t /\ dec (k_e k) (k_m k) t' (enc (k_e k) (k_m k) t v) = v).
    { intros v Hv. specialize (H v [] Hv ltac:(constructor)). cbn [response] in H. rewrite app_nil_r in H.
      apply recorder_run in H; auto; [|apply enc_bytes]. destruct H as [L E].
      assert (Hl : length (enc (k_e k) (k_m k) t v) = wire_size t) by (apply enc_length; apply Hv).
      assert (E1 : skipn (wire_size t') (enc (k_e k) (k_m k) t v) = []) by congruence.
      assert (E2 : length (skipn (wire_size t') (enc (k_e k) (k_m k) t v)) = 0) by (rewrite E1; auto).
      rewrite skipn_length in E2. split; [lia|].
      assert (E3 : v = dec (k_e k) (k_m k) t' (firstn (wire_size t') (enc (k_e k) (k_m k) t v))) by congruence.
      rewrite firstn_all2 in E3 by lia. auto. }
    assert (T : forall v, encodable p (k_m k) t v -> wire_size t' = wire_size t /\ has_type t' v).
    { intros v Hv. destruct (R v Hv) as [E D]. split; auto. rewrite <- D.
      apply dec_has_type; [apply Hok'| |apply enc_bytes]. rewrite E. apply enc_length. apply Hv. }
    destruct t as [|w|w| |]; try contradiction; destruct t' as [|w'|w'| |]; try contradiction; auto.
    + destruct (T (VInt 0)) as [E _]; [split; cbn; auto|]. cbn in E. subst w'. auto.
    + destruct (R (VInt 0)) as [E D]; [split; cbn; auto|]. cbn in E. subst w'. right. right.
      split; auto. split; auto. intros Em. rewrite Em in D. destruct (k_e k); vm_compute in D; discriminate.
    + destruct Hok as [W _]. cbn in W.
      destruct (T (VInt 2)) as [E B].
      { split; cbn; auto. pose proof (space_mono 1 w ltac:(lia)). change (space 1) with 256%Z in *. lia. }
      cbn in B. lia.
    + destruct Hok as [W _]. cbn in W. destruct (T (VInt 0)) as [E _].
      { split; cbn; auto. pose proof (space_pos w). lia. }
      cbn in E. subst. auto.
    + destruct Hok as [W _]. cbn in W. destruct (T (VInt (space w - 1))) as [E B].
      { split; cbn; auto. pose proof (space_pos w). lia. }
      cbn in E, B. subst w'. pose proof (space_half w ltac:(lia)). pose proof (half_mono 1 w ltac:(lia)).
      change (half 1) with 128%Z in *. lia.
    + destruct Hok as [W _]. cbn in W. pose proof (half_mono 1 w ltac:(lia)). change (half 1) with 128%Z in *.
      destruct (T (VInt 2)) as [E B]; [split; cbn; [lia|left; lia]|]. cbn in B. lia.
    + destruct Hok as [W _]. cbn in W. pose proof (half_mono 1 w ltac:(lia)). change (half 1) with 128%Z in *.
      destruct (T (VInt (-1))) as [E B]; [split; cbn; [lia|left; lia]|]. cbn in B. lia.
    + destruct Hok as [W _]. cbn in W. pose proof (half_mono 1 w ltac:(lia)). change (half 1) with 128%Z in *.
      destruct (T (VInt 0)) as [E B]; [split; cbn; [lia|left; lia]|]. cbn in E. subst. auto.
  - intros Hc v rest Hv Hr. cbn [response].
    assert (G : wire_size t' = wire_size t
       /\ dec (k_e k) (k_m k) t' (enc (k_e k) (k_m k) t v) = v
       /\ decodable p (k_e k) (k_m k) t' (enc (k_e k) (k_m k) t v)).
    { destruct Hc as [-> |[[-> ->]|(-> & -> & Hm)]].
      - split; auto. split; [apply (dec_enc p); auto; apply Hok|apply encodable_decodable; auto; apply Hok].
      - destruct Hv as [Hv _]. destruct v as [z|]; [|contradiction]. cbn in Hv.
        split; auto. split; [|exact I]. destruct Hv as [-> | ->]; destruct (k_e k); reflexivity.
      - destruct Hv as [Hv _]. destruct v as [z|]; [|contradiction]. cbn in Hv.
        split; auto. split.
        + destruct Hv as [-> | ->]; destruct (k_e k), (k_m k); try congruence; reflexivity.
        + cbn [decodable enc]. intros _ E. exfalso.
          destruct Hv as [-> | ->]; destruct (k_e k); vm_compute in E; discriminate. }
    destruct G as (Gs & Gd & Gdec).
    assert (Hl : length (enc (k_e k) (k_m k) t v) = wire_size t) by (apply enc_length; apply Hv).
    assert (Ews : wire_sizes (sig_params (f_sig (recorder t'))) = length (enc (k_e k) (k_m k) t v)) by (cbn; lia).
    assert (Edl : dec_list (k_e k) (k_m k) [t'] (enc (k_e k) (k_m k) t v) = [v]).
    { cbn [dec_list]. rewrite firstn_all2 by lia. rewrite Gd. reflexivity. }
    rewrite C58_own_signature; auto.
    + rewrite Ews, take_wires. cbn [bind]. cbn [recorder f_sig sig_params]. rewrite Edl. reflexivity.
    + split; cbn; auto.
    + rewrite Ews. intros x1 bs H. rewrite take_wires in H.
      assert (Ebs : bs = enc (k_e k) (k_m k) t v) by congruence. subst bs.
      split; [apply enc_bytes|]. split; [|exact I]. cbn [recorder f_sig sig_params decodable_list].
      rewrite firstn_all2 by lia. auto.
Qed.

(** The callback returns -5 over 4 bytes; a hook written for 2 bytes is accepted,
    gets -1 and leaves two bytes behind. *)
Example C58_example :
  sig_ret (k_sig ex_key_add) = Some (TSig 4)
  /\ run pc_native (with_hook ANY ex_key_add (recorder (TSig 2))) take_wire give_wire
       (mk_wires [255; 255; 255; 251]%Z [] []) = Ok (mk_wires [255; 251]%Z [] [VInt (-1)])
  /\ run pc_native (with_hook ANY ex_key_add (recorder (TSig 4))) take_wire give_wire
       (mk_wires [255; 255; 255; 251; 7]%Z [] []) = Ok (mk_wires [7]%Z [] [VInt (-5)]).
Proof. repeat split; vm_compute; reflexivity. Qed.

Print Assumptions C57_compiles.
Print Assumptions C57_converted.
Print Assumptions C57_preserved.
Print Assumptions C57_set.
Print Assumptions C57_remote_call.
Print Assumptions C58_own_signature.
Print Assumptions C58_exact.
