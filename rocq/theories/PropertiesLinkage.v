(** Property C94: programs whose translation units define the macros about the
    platform in different ways. *)

From Coq Require Import List ZArith Bool Arith Lia ZifyBool ZifyNat.
From Verif Require Import Base CInt IntModel Spec Conditions TypeLevel Serial
  MemFacts IntProofs SignedProofs TypeLevelProofs SerialProofs CodecFacts Hosts Linkage.
Import ListNotations.
Open Scope nat_scope.

(** The translation units of one program: they are compiled for the same host, and
    what they declare about it is true. *)
Definition units (h : platform) (us : list platform) : Prop :=
  us <> []
  /\ forall u, In u us -> wf_platform u /\ p_int_size u = p_int_size h /\ p_endianess u = p_endianess h.

(** Every function comes from one of them. *)
Definition made_of (us : list platform) (L : linked) : Prop :=
  (forall c e, In (at_from_endianess L c e) us) /\ (forall c e, In (at_to_endianess L c e) us)
  /\ (forall w m, In (at_from_signed_mode L w m) us) /\ (forall w m, In (at_to_signed_mode L w m) us).

(** Signed integers of [w] bytes in the format [e], [m] do not depend on which. *)
Definition indifferent (h : platform) (us : list platform) (e : endianess) (m : signed_mode) (w : nat) : Prop :=
  w = 8 \/ p_endianess h = LITTLE
  \/ forall a b, In a us -> In b us -> native_endianess a e = native_signed_mode b m.

(** The same for all the signed integers in a type. *)
Fixpoint indifferent_ty (h : platform) (us : list platform) (e : endianess) (m : signed_mode) (t : ty) : Prop :=
  match t with
  | TBool | TUns _ => True
  | TSig w => indifferent h us e m w
  | TArr t _ => indifferent_ty h us e m t
  | TUser _ fs => fold_right (fun f acc => indifferent_ty h us e m f /\ acc) True fs
  end.

(** [write_as] and [read_as] are defined for this value and these bytes in each
    of the translation units. *)
Definition writable (us : list platform) (m : signed_mode) (t : ty) (v : val) : Prop :=
  forall u, In u us -> encodable u m t v.
Definition readable (us : list platform) (e : endianess) (m : signed_mode) (t : ty) (bs : list Z) : Prop :=
  forall u, In u us -> decodable u e m t bs.

Lemma indifferent_user : forall h us e m s fs,
  indifferent_ty h us e m (TUser s fs) <-> Forall (indifferent_ty h us e m) fs.
Proof.
  intros h us e m s. cbn [indifferent_ty]. induction fs as [|f fs IH]; cbn [fold_right].
  - split; auto.
  - rewrite IH. split; [intros [A B]; auto|]. intros A. inversion A; auto.
Qed.

(** One of the functions of [a] for the endianess and one of [b] for the
    representation of signed integers: as if there were a translation unit with the
    macro of each. *)
Definition hybrid (a b : platform) : platform :=
  mk_platform (p_int_size b) (p_endianess b) (p_decl_endianess a) (p_decl_signed_mode b) (p_indet b).

Lemma hybrid_wf : forall a b, wf_platform a -> wf_platform b -> p_endianess a = p_endianess b ->
  wf_platform (hybrid a b).
Proof.
  intros a b [A1 A2 A3 A4] [B1 B2 B3 B4] E. constructor; cbn; auto.
  destruct (p_decl_endianess a); auto. congruence.
Qed.

Lemma promote_hybrid : forall a b T, p_int_size a = p_int_size b -> promote (hybrid a b) T = promote a T.
Proof. intros a b T E. unfold promote, hybrid. cbn. rewrite E. reflexivity. Qed.

Lemma to_loop_hybrid : forall a b T e mem off n k i x, p_int_size a = p_int_size b ->
  to_endianess_loop (hybrid a b) T e mem off n k i x = to_endianess_loop a T e mem off n k i x.
Proof.
  intros a b T e mem off n k i x E. revert mem i x. induction k as [|k IH]; intros mem i x; cbn [to_endianess_loop]; auto.
  rewrite promote_hybrid by auto.
  destruct (store mem (off + byte_index e n i) (conv (CInt 1 false) (c_and x 255))); auto. cbn [bind].
  destruct (c_shr (promote a T) x 8); auto. cbn [bind]. apply IH.
Qed.

Lemma from_loop_hybrid : forall a b T e mem off n k i s r, p_int_size a = p_int_size b ->
  from_endianess_loop (hybrid a b) T e mem off n k i s r = from_endianess_loop a T e mem off n k i s r.
Proof.
  intros a b T e mem off n k i s r E. revert i s r. induction k as [|k IH]; intros i s r; cbn [from_endianess_loop]; auto.
  rewrite promote_hybrid by auto.
  destruct (load mem (off + byte_index e n i)); auto. cbn [bind].
  destruct (c_shl (promote a T) (conv T a0) s); auto. cbn [bind]. apply IH.
Qed.

Lemma to_endianess_hybrid : forall a b T e mem off x n,
  p_int_size a = p_int_size b -> p_endianess a = p_endianess b ->
  to_endianess a T e mem off x n = to_endianess (hybrid a b) T e mem off x n.
Proof.
  intros a b T e mem off x n E F. unfold to_endianess. rewrite to_loop_hybrid by auto.
  change (native_endianess (hybrid a b) e) with (native_endianess a e).
  unfold obj_bytes. change (p_endianess (hybrid a b)) with (p_endianess b). rewrite F. reflexivity.
Qed.

Lemma from_endianess_hybrid : forall a b T e mem off n,
  p_int_size a = p_int_size b -> p_endianess a = p_endianess b ->
  from_endianess a T e mem off n = from_endianess (hybrid a b) T e mem off n.
Proof.
  intros a b T e mem off n E F. unfold from_endianess, from_endianess_impl. rewrite from_loop_hybrid by auto.
  change (native_endianess (hybrid a b) e) with (native_endianess a e).
  unfold obj_bytes, obj_value. change (p_endianess (hybrid a b)) with (p_endianess b). rewrite F. reflexivity.
Qed.

Section Linked.
  Variable h : platform.
  Variable us : list platform.
  Hypothesis Hus : units h us.
  Lemma unit_wf : forall u, In u us -> wf_platform u.
  Proof. intros u Hu. apply Hus; auto. Qed.

  Lemma units_same : forall a b, In a us -> In b us -> p_int_size a = p_int_size b /\ p_endianess a = p_endianess b.
  Proof.
    intros a b Ha Hb. destruct Hus as [_ H]. destruct (H a Ha) as (_ & -> & ->). destruct (H b Hb) as (_ & -> & ->). auto.
  Qed.

  Lemma some_unit : exists u, In u us.
  Proof. destruct Hus as [N _]. destruct us as [|u us']; [congruence|]. exists u. left. auto. Qed.

  Variable L : linked.
  Hypothesis HL : made_of us L.
  Variable e : endianess.
  Variable m : signed_mode.

  Lemma hybrid_host : forall a b w, In a us -> In b us -> indifferent h us e m w -> sig_host_ok (hybrid a b) e m w.
  Proof.
    intros a b w Ha Hb [I|[I|I]]; [left; auto|right; left|right; right].
    - cbn [hybrid p_endianess]. destruct Hus as [_ H]. destruct (H b Hb) as (_ & _ & ->). auto.
    - unfold native_endianess, native_signed_mode, hybrid; cbn. apply I; auto.
  Qed.

  Lemma writable_type : forall t v, writable us m t v -> has_type t v.
  Proof. intros t v H. destruct some_unit as [u Hu]. apply (H u Hu). Qed.

  Lemma writable_types : forall fs vs, Forall2 (writable us m) fs vs -> Forall2 has_type fs vs.
  Proof. induction 1; constructor; auto using writable_type. Qed.

  Lemma linked_write_sig : forall w z mem off,
    1 <= w <= 8 -> (- half w <= z < half w)%Z -> indifferent h us e m w ->
    sig_encodable (at_to_signed_mode L w m) m w z -> off + w <= length mem ->
    linked_write L e m (TSig w) (VInt z) mem off = Ok (splice mem off (wire_bytes e w (repr m w z))).
  Proof.
    intros w z mem off Hw Hz Hi Hs Hlen. cbn [linked_write sizeof].
    destruct HL as (_ & HE & _ & HS). specialize (HE ull e). specialize (HS w m).
    set (a := at_to_endianess L ull e) in *. set (b := at_to_signed_mode L w m) in *.
    destruct (units_same a b HE HS) as [S1 S2].
    rewrite <- (write_signed_ok (hybrid a b) e m w z mem off); auto.
    - change (to_signed_mode (hybrid a b) w m z) with (to_signed_mode b w m z).
      destruct (to_signed_mode b w m z); auto. cbn [bind]. apply to_endianess_hybrid; auto.
    - apply hybrid_wf; auto using unit_wf.
    - apply hybrid_host; auto.
  Qed.

  Lemma linked_read_sig : forall w mem off,
    1 <= w <= 8 -> indifferent h us e m w -> Forall is_byte mem ->
    sig_decodable (at_from_signed_mode L w m) m w (wire_value e (slice mem off w)) -> off + w <= length mem ->
    linked_read L e m (TSig w) mem off = Ok (VInt (unrepr m w (wire_value e (slice mem off w)))).
  Proof.
    intros w mem off Hw Hi Hb Hs Hlen. cbn [linked_read sizeof].
    destruct HL as (HE & _ & HS & _). specialize (HE ull e). specialize (HS w m).
    set (a := at_from_endianess L ull e) in *. set (b := at_from_signed_mode L w m) in *.
    destruct (units_same a b HE HS) as [S1 S2].
    assert (R : (tmp <- from_endianess a ull e mem off w;; from_signed_mode b w m tmp)
                = Ok (unrepr m w (wire_value e (slice mem off w)))).
    { rewrite <- (read_signed_ok (hybrid a b) e m w mem off); auto.
      - rewrite (from_endianess_hybrid a b); auto.
      - apply hybrid_wf; auto using unit_wf.
      - apply hybrid_host; auto. }
    destruct (from_endianess a ull e mem off w) as [tmp|]; [|discriminate]. cbn [bind] in R |- *.
    rewrite R. reflexivity.
  Qed.

  (** ** Values of any type, as in SerialProofs.v *)

  Definition lwrite_fields (fs : list ty) (vs : list val) (off : nat) :=
    fix go (l : list ty) (i : nat) (mem : list Z) {struct l} : res (list Z) :=
      match l with
      | [] => Ok mem
      | f :: l' =>
          match nth_error vs i with
          | None => Fault TypeMismatch
          | Some v =>
              o <- element_offset fs i;;
              mem' <- linked_write L e m f v mem (off + o);;
              go l' (S i) mem'
          end
      end.

  Definition lread_fields (fs : list ty) (mem : list Z) (off : nat) :=
    fix go (l : list ty) (i : nat) {struct l} : res (list val) :=
      match l with
      | [] => Ok []
      | f :: l' =>
          o <- element_offset fs i;;
          v <- linked_read L e m f mem (off + o);;
          vs <- go l' (S i);;
          Ok (v :: vs)
      end.

  Lemma lwrite_fields_ok : forall fs vs off l i mem,
    Forall layout_ok fs -> Forall2 (writable us m) fs vs ->
    Forall (fun t => forall v mem off, writable us m t v -> off + wire_size t <= length mem ->
              linked_write L e m t v mem off = Ok (splice mem off (enc e m t v))) l ->
    skipn i fs = l ->
    off + list_sum (map wire_size fs) <= length mem ->
    lwrite_fields fs vs off l i mem
    = Ok (splice mem (off + offset_of fs i) (enc_list e m l (skipn i vs))).
  Proof.
    intros fs vs off l. induction l as [|f l IH]; intros i mem Hl Henc Hw Hsk Hlen;
      cbn [lwrite_fields enc_list].
    - rewrite splice_nil. reflexivity.
    - inversion Hw as [|? ? Hwf Hwl]; subst.
      destruct (skipn_cons_nth _ _ _ _ _ Hsk) as [Hi Hsk'].
      destruct (Forall2_nth _ _ _ _ _ _ _ Henc Hi) as (v & Hv & Hev). rewrite Hv.
      assert (Hilt : i < length fs) by (apply nth_error_Some; congruence).
      rewrite element_offset_ok by (auto; lia). cbn [bind].
      pose proof (offset_of_S fs i f Hi) as HS. pose proof (offset_of_le fs (S i)) as Hle.
      rewrite Hwf by (auto; lia). cbn [bind].
      fold (lwrite_fields fs vs off).
      assert (Hel : length (enc e m f v) = wire_size f) by (apply enc_length; apply writable_type; auto).
      rewrite (IH (S i)); auto.
      2:{ rewrite splice_length; lia. }
      f_equal.
      replace (skipn i vs) with (v :: skipn (S i) vs).
      2:{ clear -Hv. revert i Hv. induction vs; intros [|i] Hv; try discriminate; simpl in *.
          - injection Hv as ->. reflexivity.
          - apply IHvs; auto. }
      cbn [enc_list].
      replace (off + offset_of fs (S i)) with (off + offset_of fs i + length (enc e m f v)) by lia.
      apply splice_splice_app.
      assert (Forall2 has_type l (skipn (S i) vs)).
      { rewrite <- Hsk'.
        pose proof (writable_types _ _ Henc) as Ht.
        clear -Ht. generalize (S i). induction Ht; intros j; destruct j; simpl; auto. }
      rewrite enc_list_length by auto.
      assert (list_sum (map wire_size fs) = offset_of fs (S i) + list_sum (map wire_size l)).
      { unfold offset_of. rewrite <- Hsk', <- list_sum_app, <- map_app, firstn_skipn. reflexivity. }
      lia.
  Qed.

  Definition lwrite_loop (t' : ty) (vs : list val) (off : nat) :=
    fix loop (k i : nat) (mem : list Z) {struct k} : res (list Z) :=
      match k with
      | 0 => Ok mem
      | S k' =>
          match nth_error vs i with
          | None => Fault TypeMismatch
          | Some v =>
              mem' <- linked_write L e m t' v mem (off + i * sizeof t');;
              loop k' (S i) mem'
          end
      end.

  Definition lread_loop (t' : ty) (mem : list Z) (off : nat) :=
    fix loop (k i : nat) {struct k} : res (list val) :=
      match k with
      | 0 => Ok []
      | S k' =>
          v <- linked_read L e m t' mem (off + i * sizeof t');;
          vs <- loop k' (S i);;
          Ok (v :: vs)
      end.

  Definition lwrite_loop_to (n : nat) (t' : ty) (vs : list val) (off : nat) :=
    fix loop (k i : nat) (mem : list Z) {struct k} : res (list Z) :=
      match k with
      | 0 => Ok mem
      | S k' =>
          if n <=? i then Fault OutOfBounds
          else
            match nth_error vs i with
            | None => Fault TypeMismatch
            | Some v =>
                mem' <- linked_write L e m t' v mem (off + i * sizeof t');;
                loop k' (S i) mem'
            end
      end.

  Lemma lwrite_loop_within : forall n t' vs off k i mem, i + k <= n ->
    lwrite_loop_to n t' vs off k i mem = lwrite_loop t' vs off k i mem.
  Proof.
    intros n t' vs off. induction k as [|k IH]; intros i mem H; cbn [lwrite_loop_to lwrite_loop]; auto.
    destruct (Nat.leb_spec n i); [lia|]. destruct (nth_error vs i) as [v|]; auto.
    destruct (linked_write L e m t' v mem (off + i * sizeof t')) as [mem'|]; auto. cbn [bind]. apply IH. lia.
  Qed.

  Lemma lwrite_arr : forall t' n vs mem off, 1 <= n -> 1 <= sizeof t' ->
    linked_write L e m (TArr t' n) (VList vs) mem off = lwrite_loop t' vs off n 0 mem.
  Proof.
    intros t' n vs mem off Hn Ht.
    transitivity (lwrite_loop_to n t' vs off (sizeof (TArr t' n) / sizeof t') 0 mem); [reflexivity|].
    rewrite arr_iterations by auto. apply lwrite_loop_within. lia.
  Qed.

  Lemma lwrite_loop_ok : forall t' vs off,
    sizeof t' = wire_size t' -> Forall (writable us m t') vs ->
    (forall v mem off, writable us m t' v -> off + wire_size t' <= length mem ->
       linked_write L e m t' v mem off = Ok (splice mem off (enc e m t' v))) ->
    forall k i mem, i + k = length vs ->
    off + length vs * wire_size t' <= length mem ->
    lwrite_loop t' vs off k i mem
    = Ok (splice mem (off + i * wire_size t') (flat_map (enc e m t') (skipn i vs))).
  Proof.
    intros t' vs off Hsz Henc Hw. induction k as [|k IH]; intros i mem Hik Hlen; cbn [lwrite_loop].
    - rewrite skipn_all2 by lia. cbn [flat_map]. rewrite splice_nil. reflexivity.
    - destruct (nth_error vs i) as [v|] eqn:Hv.
      2:{ apply nth_error_None in Hv. lia. }
      assert (Hev : writable us m t' v) by (rewrite Forall_forall in Henc; apply Henc; eapply nth_error_In; eauto).
      assert (Hb : (i + S k) * wire_size t' = i * wire_size t' + wire_size t' + k * wire_size t') by lia.
      rewrite <- Hik in Hlen. rewrite Hb in Hlen.
      rewrite Hsz, Hw by (auto; lia). cbn [bind]. fold (lwrite_loop t' vs off).
      assert (Hel : length (enc e m t' v) = wire_size t') by (apply enc_length; apply writable_type; auto).
      rewrite IH; try lia.
      2:{ rewrite splice_length by lia. rewrite <- Hik. lia. }
      f_equal.
      assert (Hsk : skipn i vs = v :: skipn (S i) vs).
      { clear -Hv. revert i Hv. induction vs; intros [|i] Hv; try discriminate; simpl in *.
        - injection Hv as ->. reflexivity.
        - apply IHvs; auto. }
      rewrite Hsk. cbn [flat_map].
      replace (off + S i * wire_size t') with (off + i * wire_size t' + length (enc e m t' v)) by lia.
      apply splice_splice_app.
      assert (Hfl : forall l, Forall (writable us m t') l -> length (flat_map (enc e m t') l) = length l * wire_size t').
      { induction 1; cbn [flat_map length]; auto. rewrite app_length, IHForall, enc_length; auto using writable_type. }
      rewrite Hfl.
      + rewrite skipn_length. replace (length vs - S i) with k by lia. lia.
      + clear -Henc. revert vs Henc. induction (S i); intros vs Henc; simpl; auto.
        destruct Henc; simpl; auto.
  Qed.

  Lemma writable_arr : forall t n vs, writable us m (TArr t n) (VList vs) ->
    length vs = n /\ Forall (writable us m t) vs.
  Proof.
    intros t n vs H. split.
    - destruct some_unit as [u Hu]. exact (proj1 (proj1 (encodable_arr u m t n vs) (H u Hu))).
    - rewrite Forall_forall. intros v Hv u Hu. pose proof (proj1 (encodable_arr u m t n vs) (H u Hu)) as [_ F].
      rewrite Forall_forall in F. auto.
  Qed.

  Lemma writable_user : forall s fs vs, writable us m (TUser s fs) (VList vs) -> Forall2 (writable us m) fs vs.
  Proof.
    intros s fs vs H.
    assert (G : forall u, In u us -> Forall2 (encodable u m) fs vs) by (intros u Hu; apply (encodable_user u m s); auto).
    clear H. destruct some_unit as [u0 Hu0].
    assert (Hl : length fs = length vs) by (apply (Forall2_length (G u0 Hu0))).
    revert vs G Hl. induction fs as [|f fs IH]; intros [|v vs] G Hl; try discriminate; constructor.
    - intros u Hu. pose proof (G u Hu) as F. inversion F; auto.
    - apply IH; [|cbn in Hl; lia]. intros u Hu. pose proof (G u Hu) as F. inversion F; auto.
  Qed.

  Lemma linked_write_ok : forall t v mem off,
    wf_ty t -> layout_ok t -> indifferent_ty h us e m t -> writable us m t v -> off + wire_size t <= length mem ->
    linked_write L e m t v mem off = Ok (splice mem off (enc e m t v)).
  Proof.
    induction t using ty_ind_nested; intros v mem off Hwf Hlay Hi Henc Hlen; pose proof (writable_type _ _ Henc) as Ht.
    - destruct v as [z|]; [|contradiction]. cbn [linked_write sizeof].
      change 1 with (csizeof CBool). rewrite to_endianess_unsigned; auto.
      apply (unit_wf _ (proj1 (proj2 HL) CBool e)).
    - destruct v as [z|]; [|contradiction]. cbn [linked_write sizeof]. cbn [wf_ty wire_size] in *.
      change w with (csizeof (CInt w false)) at 3.
      assert (A : wf_platform (at_to_endianess L (CInt w false) e)) by (apply unit_wf; apply (proj1 (proj2 HL))).
      rewrite to_endianess_unsigned; cbn [is_uns]; auto.
    - destruct v as [z|]; [|contradiction]. cbn [wf_ty wire_size indifferent_ty has_type enc] in *.
      apply linked_write_sig; auto.
      destruct HL as (_ & _ & _ & HS). apply (Henc _ (HS w m)).
    - destruct v as [|vs]; [contradiction|].
      cbn [layout_ok indifferent_ty] in *. destruct Hlay as (Hlay & Hsz & Hn).
      destruct (writable_arr _ _ _ Henc) as [<- Hvs].
      assert (Hs1 : 1 <= sizeof t).
      { cbn [wf_ty] in Hwf. tauto. }
      rewrite lwrite_arr by auto. rewrite lwrite_loop_ok; auto.
      + rewrite Nat.mul_0_l, Nat.add_0_r. reflexivity.
      + intros v mem' off' Hv Hl. apply IHt; auto. cbn [wf_ty] in Hwf. tauto.
    - destruct v as [|vs]; [contradiction|].
      apply wf_ty_user in Hwf. apply layout_ok_user in Hlay. apply indifferent_user in Hi.
      apply writable_user in Henc.
      change (linked_write L e m (TUser s fs) (VList vs) mem off) with (lwrite_fields fs vs off fs 0 mem).
      rewrite enc_user. rewrite wire_size_user in Hlen.
      rewrite lwrite_fields_ok with (l := fs); auto.
      + rewrite offset_of_0, Nat.add_0_r. reflexivity.
      + rewrite Forall_forall in *. intros t Hin v mem' off' Hv Hl. apply H; auto.
  Qed.

  Lemma readable_arr : forall t n bs, readable us e m (TArr t n) bs ->
    Forall (readable us e m t) (chunks (wire_size t) n bs).
  Proof.
    intros t n bs H. rewrite Forall_forall. intros c Hc u Hu. pose proof (H u Hu) as F. cbn [decodable] in F.
    rewrite Forall_forall in F. auto.
  Qed.

  Lemma lread_loop_ok : forall t' mem off,
    sizeof t' = wire_size t' ->
    (forall off, off + wire_size t' <= length mem -> readable us e m t' (slice mem off (wire_size t')) ->
       linked_read L e m t' mem off = Ok (dec e m t' (slice mem off (wire_size t')))) ->
    forall k i,
    Forall (readable us e m t') (map (fun j => slice mem (off + j * wire_size t') (wire_size t')) (seq i k)) ->
    off + (i + k) * wire_size t' <= length mem ->
    lread_loop t' mem off k i
    = Ok (map (fun j => dec e m t' (slice mem (off + j * wire_size t') (wire_size t'))) (seq i k)).
  Proof.
    intros t' mem off Hsz Hr. induction k as [|k IH]; intros i Hdec Hlen; cbn [lread_loop seq map]; auto.
    cbn [seq map] in Hdec. inversion Hdec; subst.
    assert (Hb : (i + S k) * wire_size t' = i * wire_size t' + wire_size t' + k * wire_size t') by lia.
    rewrite Hsz, Hr by (auto; lia). cbn [bind]. fold (lread_loop t' mem off).
    rewrite IH; auto. lia.
  Qed.

  Definition readable_list (ts : list ty) (bs : list Z) : Prop := forall u, In u us -> decodable_list u e m ts bs.

  Lemma lread_fields_ok : forall fs mem off l i,
    Forall layout_ok fs ->
    Forall (fun t => forall off, off + wire_size t <= length mem ->
              readable us e m t (slice mem off (wire_size t)) ->
              linked_read L e m t mem off = Ok (dec e m t (slice mem off (wire_size t)))) l ->
    skipn i fs = l ->
    off + list_sum (map wire_size fs) <= length mem ->
    readable_list l (slice mem (off + offset_of fs i) (list_sum (map wire_size l))) ->
    lread_fields fs mem off l i
    = Ok (dec_list e m l (slice mem (off + offset_of fs i) (list_sum (map wire_size l)))).
  Proof.
    intros fs mem off l. induction l as [|f l IH]; intros i Hl Hr Hsk Hlen Hdec;
      cbn [lread_fields dec_list]; auto.
    inversion Hr as [|? ? Hrf Hrl]; subst.
    destruct (skipn_cons_nth _ _ _ _ _ Hsk) as [Hi Hsk'].
    assert (Hilt : i < length fs) by (apply nth_error_Some; congruence).
    rewrite element_offset_ok by (auto; lia). cbn [bind].
    pose proof (offset_of_S fs i f Hi) as HS. pose proof (offset_of_le fs (S i)) as Hle.
    unfold readable_list in Hdec. cbn [decodable_list map] in Hdec.
    change (list_sum (wire_size f :: map wire_size l)) with (wire_size f + list_sum (map wire_size l)) in *.
    cbn [map]. change (list_sum (wire_size f :: map wire_size l)) with (wire_size f + list_sum (map wire_size l)) in *.
    rewrite firstn_slice in * by lia. rewrite skipn_slice in *.
    replace (wire_size f + list_sum (map wire_size l) - wire_size f) with (list_sum (map wire_size l)) in * by lia.
    rewrite Hrf by (try (intros u Hu; apply (Hdec u Hu)); auto; lia). cbn [bind]. fold (lread_fields fs mem off).
    replace (off + offset_of fs i + wire_size f) with (off + offset_of fs (S i)) in * by lia.
    rewrite IH by (auto; intros u Hu; apply (Hdec u Hu)). reflexivity.
  Qed.

  Lemma linked_read_ok : forall t mem off,
    wf_ty t -> layout_ok t -> indifferent_ty h us e m t -> Forall is_byte mem -> off + wire_size t <= length mem ->
    readable us e m t (slice mem off (wire_size t)) ->
    linked_read L e m t mem off = Ok (dec e m t (slice mem off (wire_size t))).
  Proof.
    induction t using ty_ind_nested; intros mem off Hwf Hlay Hi Hmem Hlen Hdec.
    - pose proof HL as (HE & _). specialize (HE CBool e). set (a := at_from_endianess L CBool e) in *.
      assert (R : read_as a e m TBool mem off = Ok (dec e m TBool (slice mem off (wire_size TBool)))).
      { apply read_as_ok; auto using unit_wf. unfold ty_ok. cbn. auto. }
      rewrite <- R. reflexivity.
    - pose proof HL as (HE & _). specialize (HE (CInt w false) e). set (a := at_from_endianess L (CInt w false) e) in *.
      assert (R : read_as a e m (TUns w) mem off = Ok (dec e m (TUns w) (slice mem off (wire_size (TUns w))))).
      { apply read_as_ok; auto using unit_wf. unfold ty_ok. cbn [host_ok layout_ok]. auto. }
      rewrite <- R. reflexivity.
    - cbn [wf_ty wire_size indifferent_ty dec] in *. apply linked_read_sig; auto.
      destruct HL as (_ & _ & HS & _). apply (Hdec _ (HS w m)).
    - cbn [layout_ok indifferent_ty] in *. destruct Hlay as (Hlay & Hsz & Hn).
      pose proof (readable_arr _ _ _ Hdec) as Hc. cbn [wire_size dec] in *.
      assert (Hch : chunks (wire_size t) n (slice mem off (n * wire_size t))
                    = map (fun j => slice mem (off + j * wire_size t) (wire_size t)) (seq 0 n)).
      { rewrite <- chunks_slice. rewrite Nat.mul_0_l, Nat.add_0_r. reflexivity. }
      rewrite Hch in *.
      change (linked_read L e m (TArr t n) mem off) with (vs <- lread_loop t mem off n 0;; Ok (VList vs)).
      rewrite lread_loop_ok; auto.
      + cbn [bind]. rewrite map_map. reflexivity.
      + intros off' Hl Hd. apply IHt; auto. cbn [wf_ty] in Hwf. tauto.
    - apply wf_ty_user in Hwf. apply layout_ok_user in Hlay. apply indifferent_user in Hi.
      change (linked_read L e m (TUser s fs) mem off) with (vs <- lread_fields fs mem off fs 0;; Ok (VList vs)).
      rewrite dec_user, wire_size_user in *.
      rewrite lread_fields_ok; auto.
      + cbn [bind]. rewrite offset_of_0, Nat.add_0_r. reflexivity.
      + rewrite Forall_forall in *. intros t Hin off' Hl Hd. apply H; auto.
        rewrite Forall_forall. auto.
      + rewrite offset_of_0, Nat.add_0_r. intros u Hu. apply (decodable_user u e m s). apply Hdec. auto.
  Qed.
End Linked.

(** ** C94 *)

(** Whatever the bodies the linker keeps, what is written is the encoding and what
    is read is what the bytes denote: a value written by a part of the program is
    read by any other one ([L'], for instance with other calls inlined), even from
    another program on another host.  Unsigned integers need no condition. *)
Theorem C94_linked : forall h us L h' us' L' e m t v mem off,
  units h us -> made_of us L -> units h' us' -> made_of us' L' ->
  wf_ty t -> layout_ok t -> indifferent_ty h us e m t -> indifferent_ty h' us' e m t ->
  writable us m t v -> writable us' m t v ->
  Forall is_byte mem -> off + wire_size t <= length mem ->
  exists mem', linked_write L e m t v mem off = Ok mem'
    /\ mem' = splice mem off (enc e m t v)
    /\ linked_read L' e m t mem' off = Ok v.
Proof.
  intros h us L h' us' L' e m t v mem off Hu HL Hu' HL' Hwf Hlay Hi Hi' Hw Hw' Hb Hlen.
  exists (splice mem off (enc e m t v)).
  split; [apply (linked_write_ok h us); auto|]. split; auto.
  assert (Ht : has_type t v) by (apply (writable_type h' us' Hu' m t v); auto).
  assert (El : length (enc e m t v) = wire_size t) by (apply enc_length; auto).
  assert (Es : slice (splice mem off (enc e m t v)) off (wire_size t) = enc e m t v).
  { rewrite <- El. apply slice_splice_same. lia. }
  destruct (some_unit h' us' Hu') as [u Hu0].
  rewrite (linked_read_ok h' us' Hu' L' HL' e m t).
  - rewrite Es. f_equal. apply (dec_enc u); auto.
  - auto.
  - auto.
  - auto.
  - apply Forall_splice; auto using enc_bytes.
  - rewrite splice_length; lia.
  - rewrite Es. intros u' Hu1. apply encodable_decodable; auto.
Qed.

(** The condition is the weakest one: it holds as soon as every program which can be
    made of the translation units writes the signed integers of [w] bytes
    correctly. *)
Theorem C94_exact : forall h us e m w,
  units h us -> 1 <= w <= 8 ->
  (forall L, made_of us L -> forall z, (- half w < z < half w)%Z ->
     forall mem off, off + w <= length mem ->
     linked_write L e m (TSig w) (VInt z) mem off = Ok (splice mem off (wire_bytes e w (repr m w z))))
  <-> (w = 8 \/ p_endianess h = LITTLE
       \/ forall a b, In a us -> In b us -> native_endianess a e = native_signed_mode b m).
Proof.
  intros h us e m w Hu Hw. split.
  - intros H. destruct (Nat.eq_dec w 8) as [|N8]; auto.
    destruct (p_endianess h) eqn:Eh; auto. right. right. intros a b Ha Hb.
    set (L := mk_linked (fun _ _ => a) (fun _ _ => a) (fun _ _ => b) (fun _ _ => b)).
    assert (HL : made_of us L) by (repeat split; intros; auto).
    destruct (units_same h us Hu a b Ha Hb) as [S1 S2].
    assert (S : sig_host_ok (hybrid a b) e m w).
    { apply (sig_host_necessary (hybrid a b) e m w (repeat 0%Z w) 0); auto.
      - apply hybrid_wf; auto; apply (unit_wf h us Hu); auto.
      - rewrite repeat_length. lia.
      - intros z Hz. rewrite <- (H L HL z Hz) by (rewrite repeat_length; lia).
        cbn [write_as linked_write sizeof L at_to_signed_mode at_to_endianess].
        change (to_signed_mode (hybrid a b) w m z) with (to_signed_mode b w m z).
        destruct (to_signed_mode b w m z); auto. cbn [bind]. symmetry. apply to_endianess_hybrid; auto. }
    destruct S as [S|[S|S]]; [congruence| |].
    + cbn [hybrid p_endianess] in S. destruct Hu as [_ Hu]. destruct (Hu b Hb) as (_ & _ & E). congruence.
    + exact S.
  - intros H L HL z Hz mem off Hlen. apply (linked_write_sig h us Hu L HL e m w z mem off); auto; [lia|].
    left. lia.
Qed.

(** Being right alone is not enough: on a big endian host a translation unit with
    both macros and one with none both write all the values correctly, and so do
    the programs made of several of the same kind; a program made of one of
    each may write anything else, including memory which was not initialised. *)
Theorem C94_alone_refuted : exists h us e m w,
  units h us /\ 1 <= w <= 8
  /\ (forall u, In u us -> forall z, (- half w < z < half w)%Z -> forall mem off, off + w <= length mem ->
        write_as u e m (TSig w) (VInt z) mem off = Ok (splice mem off (wire_bytes e w (repr m w z))))
  /\ wire_bytes e w (repr m w 1) = [0%Z; 1%Z]
  /\ (exists L, made_of us L /\ linked_write L e m (TSig w) (VInt 1) [9%Z; 9%Z] 0 = Ok [0%Z; 0%Z])
  /\ (exists L, made_of us L
        /\ linked_write L e m (TSig w) (VInt 1) [9%Z; 9%Z] 0 = Ok [p_indet h 6; p_indet h 7])
  /\ (exists L, made_of us L
        /\ linked_read L e m (TSig w) [0%Z; 1%Z] 0 = Ok (VInt 0)).
Proof.
  exists ppc_native, [ppc_native; ppc_portable], BIG, TWOS_COMPLEMENT, 2.
  split.
  { split; [discriminate|]. intros u [<-|[<-|[]]]; auto using ppc_native_wf, ppc_portable_wf. }
  split; [lia|]. split.
  { intros u Hu z Hz mem off Hl. apply write_sig; auto.
    - destruct Hu as [<-|[<-|[]]]; auto using ppc_native_wf, ppc_portable_wf.
    - lia.
    - lia.
    - destruct Hu as [<-|[<-|[]]]; right; right; reflexivity.
    - left. lia. }
  split; [vm_compute; reflexivity|].
  split; [|split].
  - exists (mk_linked (fun _ _ => ppc_native) (fun _ _ => ppc_native) (fun _ _ => ppc_portable) (fun _ _ => ppc_portable)).
    split; [repeat split; intros; cbn; auto|]. vm_compute. reflexivity.
  - exists (mk_linked (fun _ _ => ppc_portable) (fun _ _ => ppc_portable) (fun _ _ => ppc_native) (fun _ _ => ppc_native)).
    split; [repeat split; intros; cbn; auto|]. vm_compute. reflexivity.
  - exists (mk_linked (fun _ _ => ppc_portable) (fun _ _ => ppc_portable) (fun _ _ => ppc_native) (fun _ _ => ppc_native)).
    split; [repeat split; intros; cbn; auto|]. vm_compute. reflexivity.
Qed.

(** With one translation unit it is the model of Serial.v. *)
Lemma linked_one : forall u e m t v mem off,
  linked_write (mk_linked (fun _ _ => u) (fun _ _ => u) (fun _ _ => u) (fun _ _ => u)) e m t v mem off
  = write_as u e m t v mem off
  /\ linked_read (mk_linked (fun _ _ => u) (fun _ _ => u) (fun _ _ => u) (fun _ _ => u)) e m t mem off
     = read_as u e m t mem off.
Proof.
  intros. split; reflexivity.
Qed.

(** A record on a little endian host, three translation units: with both macros,
    with none, with one. *)
Example C94_example :
  let us := [pc_native; pc_portable; mk_platform 4 LITTLE (Some LITTLE) None garbage] in
  let L := mk_linked (fun c _ => match c with CBool => pc_portable | _ => pc_native end) (fun _ _ => pc_portable)
             (fun w _ => if w <? 4 then pc_native else pc_portable) (fun w _ => if w <? 4 then pc_portable else pc_native) in
  let t := TUser 8 [TSig 2; TBool; TArr (TSig 4) 2] in
  let v := VList [VInt (-2)%Z; VInt 1%Z; VList [VInt (-2147483647)%Z; VInt 5%Z]] in
  units pc_native us /\ made_of us L /\ wf_ty t /\ layout_ok t /\ indifferent_ty pc_native us LITTLE TWOS_COMPLEMENT t
  /\ writable us TWOS_COMPLEMENT t v
  /\ linked_write L LITTLE TWOS_COMPLEMENT t v (repeat 9%Z 12) 1
     = Ok [9; 254; 255; 1; 1; 0; 0; 128; 5; 0; 0; 0]%Z
  /\ linked_read L LITTLE TWOS_COMPLEMENT t [9; 254; 255; 1; 1; 0; 0; 128; 5; 0; 0; 0]%Z 1 = Ok v.
Proof.
  cbv zeta. split.
  { split; [discriminate|]. intros u [<-|[<-|[<-|[]]]]; auto using pc_native_wf, pc_portable_wf.
    split; [|split; reflexivity]. constructor; cbn; auto using garbage_byte; lia. }
  split.
  { repeat split; intros; cbn [at_from_endianess at_to_endianess at_from_signed_mode at_to_signed_mode];
      try destruct c; try destruct (w <? 4); cbn; auto. }
  split; [cbn; lia|]. split; [cbn; lia|].
  split; [cbn; unfold indifferent; cbn; auto 10|].
  split.
  { intros u Hu. unfold encodable, sig_encodable. cbn [has_type all_signed fold_right length].
    change (half 2) with 32768%Z. change (half 4) with 2147483648%Z.
    repeat match goal with
    | |- Forall _ [] => apply Forall_nil
    | |- Forall _ (_ :: _) => apply Forall_cons
    | |- _ /\ _ => split
    end; cbn; try (left; lia); try lia; auto. }
  split; vm_compute; reflexivity.
Qed.

Print Assumptions C94_linked.
Print Assumptions C94_exact.
Print Assumptions C94_alone_refuted.
