(** Property C64: user extensions whose [serialize] is any program. *)

From Coq Require Import List ZArith Lia Bool Arith.
From Verif Require Import Base CInt Spec IntModel Conditions MemFacts TypeLevel Serial TupleModel
  TypeLevelProofs IntProofs SignedProofs SerialProofs CodecFacts Bounds TupleProofs Hosts Closed PropertiesTuple
  Extension.
Import ListNotations.
Open Scope nat_scope.

(** ** Specification *)

(** What has been given to each field. *)
Definition fields : Type := list (option val).

Fixpoint give (st : fields) (i : nat) (x : val) : fields :=
  match st, i with
  | [], _ => []
  | _ :: st', 0 => Some x :: st'
  | s :: st', S i' => s :: give st' i' x
  end.

(** The program gives to the fields values which can be encoded, reads only
    fields to which it has given a value, and takes [st] to [st']. *)
Inductive evolves (p : platform) (m : signed_mode) (fs : list ty) : program -> fields -> fields -> Prop :=
| evolves_done : forall st, evolves p m fs Done st st
| evolves_set : forall i t x k st st', nth_error fs i = Some t -> encodable p m t x ->
    evolves p m fs k (give st i x) st' -> evolves p m fs (SetField i x k) st st'
| evolves_get : forall i x k st st', nth_error st i = Some (Some x) ->
    evolves p m fs (k x) st st' -> evolves p m fs (GetField i k) st st'.

(** The bytes of the fields: those of the values given, and the former ones. *)
Fixpoint fields_bytes (e : endianess) (m : signed_mode) (fs : list ty) (st : fields) (former : list Z) : list Z :=
  match fs, st with
  | t :: fs', s :: st' =>
      match s with
      | Some x => enc e m t x
      | None => firstn (wire_size t) former
      end ++ fields_bytes e m fs' st' (skipn (wire_size t) former)
  | _, _ => []
  end.

(** ** Proofs *)

Lemma firstn_exact : forall (A : Type) (l l' : list A), firstn (length l) (l ++ l') = l.
Proof. intros. rewrite firstn_app, firstn_all, Nat.sub_diag. apply app_nil_r. Qed.
Lemma skipn_exact : forall (A : Type) (l l' : list A), skipn (length l) (l ++ l') = l'.
Proof. intros. rewrite skipn_app, skipn_all, Nat.sub_diag. reflexivity. Qed.

Definition given_ok (p : platform) (m : signed_mode) (t : ty) (s : option val) : Prop :=
  match s with Some x => encodable p m t x | None => True end.

Lemma give_length : forall st i x, length (give st i x) = length st.
Proof. induction st as [|s st IH]; intros [|i] x; cbn; auto. Qed.

Lemma give_ok : forall p m fs st i t x, Forall2 (given_ok p m) fs st -> nth_error fs i = Some t -> encodable p m t x ->
  Forall2 (given_ok p m) fs (give st i x).
Proof.
  intros p m fs st i t x H. revert i. induction H; intros i Hi Hx; [destruct i; discriminate|].
  destruct i; cbn [nth_error give] in *; constructor; auto. injection Hi as ->. exact Hx.
Qed.

Lemma fields_bytes_length : forall p e m fs st former, Forall2 (given_ok p m) fs st ->
  total fs <= length former -> length (fields_bytes e m fs st former) = total fs.
Proof.
  intros p e m fs st former H. revert former. unfold total.
  induction H as [|t s fs st Hs H IH]; intros former Hl; cbn [fields_bytes map list_sum fold_right] in *; auto.
  unfold list_sum in *. cbn [fold_right] in *.
  rewrite app_length, IH by (rewrite skipn_length; lia). f_equal.
  destruct s as [x|]; [apply enc_length; apply Hs|]. rewrite firstn_length. lia.
Qed.

Lemma fields_bytes_give : forall p e m fs st former i t x, Forall2 (given_ok p m) fs st -> nth_error fs i = Some t ->
  encodable p m t x -> total fs <= length former ->
  splice (fields_bytes e m fs st former) (offset_of fs i) (enc e m t x) = fields_bytes e m fs (give st i x) former.
Proof.
  intros p e m fs st former i t x H. revert former i.
  induction H as [|u s fs st Hs H IH]; intros former i Hi Hx Hl; [destruct i; discriminate|].
  assert (Hl' : total fs <= length (skipn (wire_size u) former)).
  { rewrite skipn_length. unfold total, list_sum in *. cbn [map fold_right] in Hl. lia. }
  set (b0 := match s with Some y => enc e m u y | None => firstn (wire_size u) former end).
  assert (Hb0 : length b0 = wire_size u).
  { unfold b0. destruct s as [y|]; [apply enc_length; apply Hs|]. rewrite firstn_length.
    unfold total, list_sum in Hl. cbn [map fold_right] in Hl. lia. }
  destruct i as [|i]; cbn [nth_error give fields_bytes] in *.
  - injection Hi as ->. unfold offset_of. cbn [firstn map list_sum fold_right]. fold b0.
    assert (He : length (enc e m t x) = wire_size t) by (apply enc_length; apply Hx).
    unfold splice. cbn [firstn app Nat.add]. f_equal. rewrite He, <- Hb0. apply skipn_exact.
  - fold b0. rewrite <- (IH (skipn (wire_size u) former) i Hi Hx Hl').
    unfold offset_of. cbn [firstn map]. unfold list_sum. cbn [fold_right].
    set (o := fold_right _ _ _). unfold splice. rewrite <- Hb0.
    rewrite firstn_app_2, <- Nat.add_assoc. rewrite skipn_app.
    rewrite (skipn_all2 (n := _) b0) by lia. cbn [app].
    replace (length b0 + (o + length (enc e m t x)) - length b0) with (o + length (enc e m t x)) by lia.
    rewrite <- app_assoc. reflexivity.
Qed.

Lemma fields_bytes_slice : forall p e m fs st former i t x, Forall2 (given_ok p m) fs st -> nth_error fs i = Some t ->
  nth_error st i = Some (Some x) -> total fs <= length former ->
  slice (fields_bytes e m fs st former) (offset_of fs i) (wire_size t) = enc e m t x /\ encodable p m t x.
Proof.
  intros p e m fs st former i t x H. revert former i.
  induction H as [|u s fs st Hs H IH]; intros former i Hi Hx Hl; [destruct i; discriminate|].
  assert (Hl' : total fs <= length (skipn (wire_size u) former)).
  { rewrite skipn_length. unfold total, list_sum in *. cbn [map fold_right] in Hl. lia. }
  destruct i as [|i]; cbn [nth_error fields_bytes] in *.
  - injection Hi as ->. injection Hx as ->. split; [|exact Hs].
    unfold offset_of, slice. cbn [firstn map list_sum fold_right skipn].
    rewrite <- (enc_length e m t x) by apply Hs. apply firstn_exact.
  - destruct (IH (skipn (wire_size u) former) i Hi Hx Hl') as [E Hc]. split; auto. rewrite <- E.
    set (b0 := match s with Some y => enc e m u y | None => firstn (wire_size u) former end).
    assert (Hb0 : length b0 = wire_size u).
    { unfold b0. destruct s as [y|]; [apply enc_length; apply Hs|]. rewrite firstn_length.
      unfold total, list_sum in Hl. cbn [map fold_right] in Hl. lia. }
    unfold offset_of. cbn [firstn map]. unfold list_sum. cbn [fold_right]. fold (list_sum (map wire_size (firstn i fs))).
    unfold slice. rewrite <- Hb0, skipn_app, skipn_all2 by lia. cbn [app]. do 2 f_equal. lia.
Qed.

Lemma fields_bytes_bytes : forall p e m fs st former, Forall2 (given_ok p m) fs st -> Forall is_byte former ->
  Forall is_byte (fields_bytes e m fs st former).
Proof.
  intros p e m fs st former H. revert former.
  induction H as [|t s fs st Hs H IH]; intros former Hf; cbn [fields_bytes]; auto.
  apply Forall_app. split; [|apply IH; apply Forall_skipn'; auto].
  destruct s as [x|]; [|apply Forall_firstn'; auto]. apply enc_bytes.
Qed.

Lemma splice_inside : forall mem off bs o b, o + length b <= length bs -> off + length bs <= length mem ->
  splice (splice mem off bs) (off + o) b = splice mem off (splice bs o b).
Proof.
  intros mem off bs o b Ho Hm. apply nth_error_ext. intros i.
  rewrite nth_error_splice by (rewrite splice_length; lia).
  rewrite (nth_error_splice mem off (splice bs o b)) by lia.
  rewrite (nth_error_splice mem off bs) by lia. rewrite (splice_length bs) by lia.
  rewrite nth_error_splice by lia.
  repeat match goal with |- context [?a <? ?b] => destruct (Nat.ltb_spec a b) end; auto; try lia;
    f_equal; lia.
Qed.

Section Running.
  Variables (p : platform) (e : endianess) (m : signed_mode) (fs : list ty) (off : nat).
  Hypothesis Hp : wf_platform p.
  Hypothesis Hok : Forall (ty_ok p e m) fs.
  Let v : view := mk_view Pointer e m fs off.

  Lemma running : forall prog st st' mem mem0, evolves p m fs prog st st' -> Forall2 (given_ok p m) fs st ->
    Forall is_byte mem0 -> off + total fs <= length mem0 ->
    mem = splice mem0 off (fields_bytes e m fs st (slice mem0 off (total fs))) ->
    run_program p v prog mem = Ok (splice mem0 off (fields_bytes e m fs st' (slice mem0 off (total fs))))
    /\ Forall2 (given_ok p m) fs st'.
  Proof.
    intros prog st st' mem mem0 E. revert mem.
    assert (Hv : elements_ok p v) by (apply tuple_elements_ok; exact Hok).
    induction E as [st|i t x k st st' Hi Hx E IH|i x k st st' Hi E IH]; intros mem Hst Hb Hl Hmem; cbn [run_program].
    - subst mem. auto.
    - assert (Hsl : length (slice mem0 off (total fs)) = total fs) by (apply slice_length; auto).
      assert (Hfl : length (fields_bytes e m fs st (slice mem0 off (total fs))) = total fs).
      { apply (fields_bytes_length p); auto. lia. }
      assert (Hin : in_bounds v mem).
      { unfold in_bounds. subst mem. rewrite splice_length by lia. exact Hl. }
      rewrite (set_ok p v i t) by auto. cbn [bind]. apply IH; auto.
      + eapply give_ok; eauto.
      + subst mem. unfold pos. cbn [v v_begin v_types v_e v_m].
        pose proof (offset_of_S fs i t Hi). pose proof (offset_of_le fs (S i)).
        assert (length (enc e m t x) = wire_size t) by (apply enc_length; apply Hx).
        unfold total in *.
        rewrite splice_inside by lia. f_equal. apply (fields_bytes_give p); auto. unfold total. lia.
    - assert (Hsl : length (slice mem0 off (total fs)) = total fs) by (apply slice_length; auto).
      assert (Hfl : length (fields_bytes e m fs st (slice mem0 off (total fs))) = total fs).
      { apply (fields_bytes_length p); auto. lia. }
      assert (Hin : in_bounds v mem).
      { unfold in_bounds. subst mem. rewrite splice_length by lia. exact Hl. }
      assert (Ht : exists t, nth_error fs i = Some t).
      { destruct (nth_error fs i) eqn:En; eauto. apply nth_error_None in En.
        rewrite (Forall2_length Hst) in En. apply nth_error_None in En. congruence. }
      destruct Ht as [t Ht].
      destruct (fields_bytes_slice p e m fs st (slice mem0 off (total fs)) i t x Hst Ht Hi ltac:(lia)) as [Es Hx].
      pose proof (offset_of_S fs i t Ht). pose proof (offset_of_le fs (S i)). unfold total in *.
      assert (Hmb : Forall is_byte mem).
      { subst mem. apply Forall_splice; auto. apply (fields_bytes_bytes p); auto. apply Forall_slice; auto. }
      rewrite (get_holds p v i t x mem); auto.
      + cbn [bind]. auto.
      + subst mem. unfold pos. cbn [v v_begin v_types v_e v_m]. rewrite slice_splice_inside by lia.
        replace (off + offset_of fs i - off) with (offset_of fs i) by lia. exact Es.
  Qed.
End Running.

Lemma none_ok : forall p m fs, Forall2 (given_ok p m) fs (repeat None (length fs)).
Proof. induction fs; cbn; constructor; cbn; auto. Qed.

Lemma fields_bytes_none : forall e m fs former, length former = total fs ->
  fields_bytes e m fs (repeat None (length fs)) former = former.
Proof.
  intros e m fs. unfold total, list_sum. induction fs as [|t fs IH]; intros former Hl; cbn in *.
  - destruct former; [reflexivity|discriminate].
  - rewrite IH by (rewrite skipn_length; lia). apply firstn_skipn.
Qed.

Lemma fields_bytes_some : forall e m fs vals former, fields_bytes e m fs (map Some vals) former = enc_list e m fs vals.
Proof. induction fs as [|t fs IH]; intros [|x vals] former; cbn; f_equal; auto. Qed.

Lemma given_some : forall p m fs vals, Forall2 (given_ok p m) fs (map Some vals) -> Forall2 (encodable p m) fs vals.
Proof.
  intros p m fs vals. revert fs. induction vals as [|x vals IH]; intros fs H; inversion H; subst; constructor; auto.
Qed.

Lemma app_inv_length : forall (A : Type) (a a' b b' : list A), length a = length a' -> a ++ b = a' ++ b' -> a = a' /\ b = b'.
Proof.
  induction a as [|x a IH]; intros [|x' a'] b b' L H; try discriminate L; cbn in *; auto.
  injection H as -> H. injection L as L. destruct (IH _ _ _ L H) as [-> ->]. auto.
Qed.

Lemma repeat_firstn : forall (A : Type) (x : A) n k, n <= k -> firstn n (repeat x k) = repeat x n.
Proof. induction n; intros [|k] H; cbn; auto; [lia|]. f_equal. apply IHn. lia. Qed.
Lemma repeat_skipn : forall (A : Type) (x : A) n k, skipn n (repeat x k) = repeat x (k - n).
Proof. induction n; intros [|k]; cbn; auto. Qed.

Lemma fields_bytes_differ : forall p e m fs st k, Forall2 (given_ok p m) fs st -> total fs <= k ->
  fields_bytes e m fs st (repeat 0%Z k) = fields_bytes e m fs st (repeat 1%Z k) ->
  Forall2 (fun t s => wire_size t = 0 \/ s <> None) fs st.
Proof.
  intros p e m fs st k H. revert k. unfold total, list_sum.
  induction H as [|t s fs st Hs H IH]; intros k Hk E; cbn [fields_bytes map fold_right] in *; constructor.
  - destruct s as [x|]; [right; discriminate|]. left. rewrite !repeat_firstn in E by lia.
    apply app_inv_length in E as [E _]; [|rewrite !repeat_length; auto].
    destruct (wire_size t); [reflexivity|discriminate E].
  - rewrite !repeat_skipn in E. apply app_inv_length in E as [_ E].
    + apply (IH (k - wire_size t)); [lia|exact E].
    + destruct s; auto. rewrite !repeat_firstn, !repeat_length by lia. auto.
Qed.

Lemma fields_bytes_same : forall e m fs st former former', Forall2 (fun t s => wire_size t = 0 \/ s <> None) fs st ->
  fields_bytes e m fs st former = fields_bytes e m fs st former'.
Proof.
  intros e m fs st former former' H. revert former former'.
  induction H as [|t s fs st Hs H IH]; intros former former'; cbn [fields_bytes]; auto.
  f_equal; auto. destruct s; auto. destruct Hs as [-> | N]; [reflexivity|congruence].
Qed.

(** ** Theorems *)

(** The bytes written by an extension, whatever it does with the view. *)
Theorem C64_program : forall p e m fs prog st mem off,
  wf_platform p -> Forall (ty_ok p e m) fs ->
  evolves p m fs prog (repeat None (length fs)) st ->
  Forall is_byte mem -> off + list_sum (map wire_size fs) <= length mem ->
  write_extension p e m fs prog mem off
  = Ok (splice mem off (fields_bytes e m fs st (slice mem off (list_sum (map wire_size fs)))))
  /\ length (fields_bytes e m fs st (slice mem off (list_sum (map wire_size fs)))) = list_sum (map wire_size fs).
Proof.
  intros p e m fs prog st mem off Hp Hok E Hb Hl.
  assert (Hsl : length (slice mem off (total fs)) = total fs) by (apply slice_length; auto).
  destruct (running p e m fs off Hp Hok prog _ st mem mem E (none_ok p m fs) Hb Hl) as [R Hst].
  - rewrite fields_bytes_none by auto. rewrite splice_slice_id; auto.
  - split; [exact R|]. apply (fields_bytes_length p); auto. unfold total in *. lia.
Qed.

(** A program which gives a value to every field writes what [write_as] writes
    for the list of these values, and [unserialize] receives them. *)
Theorem C64_round_trip : forall (Obj : Type) (unserialize : list val -> Obj) p e m s fs prog vals mem off,
  wf_platform p -> Forall (ty_ok p e m) fs ->
  evolves p m fs prog (repeat None (length fs)) (map Some vals) ->
  Forall is_byte mem -> off + list_sum (map wire_size fs) <= length mem ->
  exists mem', write_extension p e m fs prog mem off = Ok mem'
    /\ mem' = splice mem off (enc_list e m fs vals)
    /\ write_as p e m (TUser s fs) (VList vals) mem off = Ok mem'
    /\ read_extension p e m fs unserialize mem' off = Ok (unserialize vals).
Proof.
  intros Obj unserialize p e m s fs prog vals mem off Hp Hok E Hb Hl.
  destruct (C64_program p e m fs prog _ mem off Hp Hok E Hb Hl) as [R L].
  rewrite fields_bytes_some in R, L.
  assert (Ha : Forall2 (encodable p m) fs vals).
  { apply given_some. eapply running in E; eauto using none_ok. apply E. }
  eexists. split; [exact R|]. split; [reflexivity|]. split.
  - rewrite (write_as_ok p e m Hp).
    + rewrite enc_user. reflexivity.
    + apply ty_ok_user. exact Hok.
    + apply encodable_user. exact Ha.
    + rewrite wire_size_user. exact Hl.
  - unfold read_extension, invoke. cbn [v_types].
    rewrite (get_each_all p (mk_view Pointer e m fs off) _ vals).
    + reflexivity.
    + cbn. symmetry. apply (Forall2_length Ha).
    + intros i x Hx. apply (get_laid p _ vals); auto.
      * apply (tuple_elements_ok p e m fs off Hok).
      * unfold in_bounds. cbn [v_begin v_types]. unfold total. rewrite splice_length; rewrite ?L; exact Hl.
      * apply Forall_splice; auto. rewrite <- (fields_bytes_some e m fs vals []).
        apply (fields_bytes_bytes p); auto. clear -Ha. induction Ha; cbn; constructor; auto.
      * cbn. unfold total. rewrite <- L at 1. apply slice_splice_same. lia.
Qed.

(** The bytes do not depend on what the memory contained exactly when every
    field which occupies some bytes has been given a value. *)
Theorem C64_determined : forall p e m fs prog st,
  wf_platform p -> Forall (ty_ok p e m) fs ->
  evolves p m fs prog (repeat None (length fs)) st ->
  let n := list_sum (map wire_size fs) in
  (forall mem mem' off, Forall is_byte mem -> Forall is_byte mem' -> off + n <= length mem -> off + n <= length mem' ->
     exists r r', write_extension p e m fs prog mem off = Ok r /\ write_extension p e m fs prog mem' off = Ok r'
       /\ slice r off n = slice r' off n)
  <-> Forall2 (fun t s => wire_size t = 0 \/ s <> None) fs st.
Proof.
  intros p e m fs prog st Hp Hok E n. split.
  - intros H.
    assert (Hb : forall z k, (0 <= z < 256)%Z -> Forall is_byte (repeat z k)).
    { intros z k Hz. apply Forall_forall. intros y Hy. apply repeat_spec in Hy. subst. exact Hz. }
    pose proof (Hb 0%Z n ltac:(lia)) as H0. pose proof (Hb 1%Z n ltac:(lia)) as H1.
    destruct (H (repeat 0%Z n) (repeat 1%Z n) 0 H0 H1) as (r & r' & R & R' & S);
      try (rewrite repeat_length; lia).
    destruct (C64_program p e m fs prog st (repeat 0%Z n) 0 Hp Hok E H0) as [Q L]; [rewrite repeat_length; unfold n; lia|].
    destruct (C64_program p e m fs prog st (repeat 1%Z n) 0 Hp Hok E H1) as [Q' L']; [rewrite repeat_length; unfold n; lia|].
    fold n in Q, Q', L, L'.
    assert (Hst : Forall2 (given_ok p m) fs st).
    { eapply (running p e m fs 0 Hp Hok prog _ st _ (repeat 0%Z n) E (none_ok p m fs) H0); [|reflexivity].
      rewrite repeat_length. unfold n, total. lia. }
    assert (Hs : forall z, slice (repeat z n) 0 n = repeat z n).
    { intros z. unfold slice. cbn [skipn]. apply repeat_firstn. lia. }
    rewrite !Hs in *.
    apply (fields_bytes_differ p e m fs st n Hst); [unfold n, total; lia|].
    assert (Hr : r = splice (repeat 0%Z n) 0 (fields_bytes e m fs st (repeat 0%Z n))) by congruence.
    assert (Hr' : r' = splice (repeat 1%Z n) 0 (fields_bytes e m fs st (repeat 1%Z n))) by congruence.
    assert (Hq : forall z b, length b = n -> slice (splice (repeat z n) 0 b) 0 n = b).
    { intros z b Lb. rewrite <- Lb at 2. apply slice_splice_same. rewrite repeat_length. lia. }
    rewrite Hr, Hr', !Hq in S by auto. exact S.
  - intros H mem mem' off Hm Hm' Hl Hl'.
    destruct (C64_program p e m fs prog st mem off Hp Hok E Hm Hl) as [R L].
    destruct (C64_program p e m fs prog st mem' off Hp Hok E Hm' Hl') as [R' L'].
    exists (splice mem off (fields_bytes e m fs st (slice mem off n))),
           (splice mem' off (fields_bytes e m fs st (slice mem' off n))).
    split; [exact R|]. split; [exact R'|].
    assert (Hs : forall mm, off + n <= length mm -> length (fields_bytes e m fs st (slice mm off n)) = n ->
      slice (splice mm off (fields_bytes e m fs st (slice mm off n))) off n = fields_bytes e m fs st (slice mm off n)).
    { intros mm Hmm Lm. set (b := fields_bytes e m fs st (slice mm off n)) in *.
      rewrite <- Lm. apply slice_splice_same. lia. }
    rewrite !Hs; auto. apply fields_bytes_same. exact H.
Qed.

(** ** Examples *)

(** test/snippet/serialization2: [object_t] is [{x, y, z}]. *)
Definition object_fields : list ty := [TSig 2; TSig 2; TUns 4].
Definition object_program (x y z : Z) : program :=
  SetField 0 (VInt x) (SetField 1 (VInt y) (SetField 2 (VInt z) Done)).

(** The same fields, in another order, one of them twice, with a checksum of
    those which are read back. *)
Definition object_program' (x y z : Z) : program :=
  SetField 2 (VInt 0) (SetField 1 (VInt y) (SetField 0 (VInt x)
    (GetField 0 (fun a => GetField 1 (fun b =>
       match a, b with
       | VInt x', VInt y' => SetField 2 (VInt (z + x' + y')) Done
       | _, _ => Done
       end))))).

Lemma object_fields_ok : Forall (ty_ok pc_native BIG TWOS_COMPLEMENT) object_fields.
Proof. unfold object_fields. list_cases; unfold ty_ok; cbn; unfold sig_host_ok; intuition (try lia; try discriminate). Qed.

Example C64_example :
  evolves pc_native TWOS_COMPLEMENT object_fields (object_program (-2) 3 70000) (repeat None 3)
    (map Some [VInt (-2); VInt 3; VInt 70000])
  /\ write_extension pc_native BIG TWOS_COMPLEMENT object_fields (object_program (-2) 3 70000) (repeat 170%Z 10) 1
     = Ok [170; 255; 254; 0; 3; 0; 1; 17; 112; 170]%Z.
Proof.
  split; [|vm_compute; reflexivity]. unfold object_program.
  eapply evolves_set; [reflexivity|encs|]. eapply evolves_set; [reflexivity|encs|].
  eapply evolves_set; [reflexivity|encs|]. apply evolves_done.
Qed.

Example C64_example' :
  evolves pc_native TWOS_COMPLEMENT object_fields (object_program' (-2) 3 70000) (repeat None 3)
    (map Some [VInt (-2); VInt 3; VInt 70001])
  /\ write_extension pc_native BIG TWOS_COMPLEMENT object_fields (object_program' (-2) 3 70000) (repeat 170%Z 10) 1
     = Ok [170; 255; 254; 0; 3; 0; 1; 17; 113; 170]%Z.
Proof.
  split; [|vm_compute; reflexivity]. unfold object_program'.
  eapply evolves_set; [reflexivity|encs|]. eapply evolves_set; [reflexivity|encs|].
  eapply evolves_set; [reflexivity|encs|]. eapply evolves_get; [reflexivity|]. eapply evolves_get; [reflexivity|].
  eapply evolves_set; [reflexivity|encs|]. apply evolves_done.
Qed.

(** A [serialize] which forgets a field: the bytes of the field are those which
    the memory contained, and tuple.hpp 317 does not initialise the storage of
    a tuple. *)
Theorem C64_forgotten_refuted :
  let prog := SetField 0 (VInt (-2)) (SetField 2 (VInt 5) Done) in
  exists st, evolves pc_native TWOS_COMPLEMENT object_fields prog (repeat None 3) st
  /\ write_extension pc_native BIG TWOS_COMPLEMENT object_fields prog (repeat 0%Z 8) 0 = Ok [255; 254; 0; 0; 0; 0; 0; 5]%Z
  /\ write_extension pc_native BIG TWOS_COMPLEMENT object_fields prog (repeat 170%Z 8) 0
     = Ok [255; 254; 170; 170; 0; 0; 0; 5]%Z.
Proof.
  cbv zeta. eexists. split.
  - eapply evolves_set; [reflexivity|encs|]. eapply evolves_set; [reflexivity|encs|]. apply evolves_done.
  - split; vm_compute; reflexivity.
Qed.

Print Assumptions C64_program.
Print Assumptions C64_round_trip.
Print Assumptions C64_determined.
Print Assumptions C64_forgotten_refuted.
