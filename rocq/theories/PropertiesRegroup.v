(** Property C89: the grouping of the parameters of a callback does not show on
    the wire; when a caller and a callee which disagree on the parameters still
    understand each other. *)

From Coq Require Import List ZArith Bool Arith Lia ZifyBool ZifyNat.
From Verif Require Import Base CInt Spec IntModel Conditions MemFacts TypeLevel Serial TupleModel
  TypeLevelProofs IntProofs SignedProofs SerialProofs CodecFacts Bounds TupleProofs SpecRpc Rpc RpcProofs
  Hosts Closed PropertiesTypes PropertiesInt PropertiesTuple PropertiesRpc PropertiesFormats.
Import ListNotations.
Open Scope nat_scope.

(** ** The integers inside of types and of values *)

Fixpoint integers (t : ty) : list ty :=
  match t with
  | TArr t n => concat (repeat (integers t) n)
  | TUser _ fs => flat_map integers fs
  | t => [t]
  end.

Fixpoint numbers (v : val) : list Z :=
  match v with
  | VInt z => [z]
  | VList vs => flat_map numbers vs
  end.

(** An integer written as [a] in one format is read as the same number as [b]
    in the other, whatever it is.  A [bool] may be read as an integer of one
    byte, except in offset binary, in which the byte 0 is not zero. *)
Definition agree (e : endianess) (m : signed_mode) (e' : endianess) (m' : signed_mode) (a b : ty) : Prop :=
  match a, b with
  | TBool, TBool => True
  | TBool, TUns w => w = 1
  | TBool, TSig w => w = 1 /\ m' <> OFFSET_BINARY
  | TUns w, TUns w' => w = w' /\ (e = e' \/ w = 1)
  | TSig w, TSig w' => w = w' /\ m = m' /\ (e = e' \/ w = 1)
  | _, _ => False
  end.

Definition understood (e : endianess) (m : signed_mode) (e' : endianess) (m' : signed_mode) (ts ts' : list ty)
    : Prop :=
  Forall2 (agree e m e' m') (flat_map integers ts) (flat_map integers ts').

(** ** Reduction to lists of integers *)

Definition leaf (t : ty) : Prop := match t with TBool | TUns _ | TSig _ => True | _ => False end.

Lemma integers_arr : forall t n, integers (TArr t n) = flat_map integers (repeat t n).
Proof. intros. cbn [integers]. induction n; cbn; f_equal; auto. Qed.

Lemma Forall_repeat : forall (A : Type) (P : A -> Prop) a n, P a -> Forall P (repeat a n).
Proof. intros A P a n H. induction n; cbn; auto. Qed.

Lemma integers_leaf : forall t, Forall leaf (integers t).
Proof.
  assert (L : forall ts, Forall (fun t => Forall leaf (integers t)) ts -> Forall leaf (flat_map integers ts)).
  { intros ts H. induction H; cbn [flat_map]; auto. apply Forall_app. auto. }
  induction t using ty_ind_nested; try (cbn; repeat constructor; fail).
  - rewrite integers_arr. apply L, Forall_repeat. auto.
  - cbn [integers]. auto.
Qed.

Lemma integers_wf : forall t, wf_ty t -> Forall wf_ty (integers t).
Proof.
  assert (L : forall ts, Forall (fun t => wf_ty t -> Forall wf_ty (integers t)) ts -> Forall wf_ty ts ->
            Forall wf_ty (flat_map integers ts)).
  { intros ts H W. induction H; cbn [flat_map]; auto. inversion W; subst. apply Forall_app. auto. }
  induction t using ty_ind_nested; intros W; try (cbn [integers]; constructor; [exact W|constructor]; fail).
  - rewrite integers_arr. apply L; apply Forall_repeat; auto. apply W.
  - cbn [integers]. apply wf_ty_user in W. auto.
Qed.

Lemma sizes_repeat : forall t n, list_sum (map wire_size (repeat t n)) = n * wire_size t.
Proof. intros. induction n; cbn [repeat map list_sum fold_right Nat.mul]; [reflexivity|]. f_equal. exact IHn. Qed.

Lemma integers_size : forall t, wire_sizes (integers t) = wire_size t.
Proof.
  assert (A : forall a b, wire_sizes (a ++ b) = wire_sizes a + wire_sizes b).
  { intros. unfold wire_sizes. rewrite map_app, list_sum_app. reflexivity. }
  assert (L : forall ts, Forall (fun t => wire_sizes (integers t) = wire_size t) ts ->
            wire_sizes (flat_map integers ts) = list_sum (map wire_size ts)).
  { intros ts H. induction H; cbn [flat_map]; auto. rewrite A, IHForall, H. reflexivity. }
  induction t using ty_ind_nested; try (cbn; lia).
  - rewrite integers_arr, L by (apply Forall_repeat; auto). apply sizes_repeat.
  - cbn [integers]. rewrite wire_size_user. auto.
Qed.

Lemma integers_sizes : forall ts, wire_sizes (flat_map integers ts) = wire_sizes ts.
Proof.
  intros ts. pose proof (integers_size (TUser 0 ts)) as H. rewrite wire_size_user in H. exact H.
Qed.

Lemma enc_arr : forall e m t vs, enc_list e m (repeat t (length vs)) vs = flat_map (enc e m t) vs.
Proof. intros. induction vs; cbn; f_equal; auto. Qed.

Lemma dec_arr : forall e m t n bs, dec e m (TArr t n) bs = VList (dec_list e m (repeat t n) bs).
Proof.
  intros. cbn [dec]. f_equal. revert bs. induction n; intros; cbn [chunks map repeat dec_list]; auto.
  f_equal. auto.
Qed.

Lemma enc_list_app : forall e m a b u v, length a = length u ->
  enc_list e m (a ++ b) (u ++ v) = enc_list e m a u ++ enc_list e m b v.
Proof.
  induction a as [|t a IH]; intros b [|x u] v H; try discriminate; cbn [app enc_list]; auto.
  rewrite <- app_assoc. f_equal. apply IH. cbn in H. lia.
Qed.

Lemma dec_list_app : forall e m a b bs,
  dec_list e m (a ++ b) bs = dec_list e m a (firstn (wire_sizes a) bs) ++ dec_list e m b (skipn (wire_sizes a) bs).
Proof.
  intros e m a b. induction a as [|t a IH]; intros bs; cbn [app dec_list]; auto.
  change (wire_sizes (t :: a)) with (wire_size t + wire_sizes a).
  rewrite IH. cbn [app]. rewrite firstn_firstn, Nat.min_l by lia. f_equal.
  rewrite skipn_skipn. f_equal. f_equal.
  rewrite <- firstn_skipn_comm. reflexivity.
Qed.

Lemma numbers_count : forall t v, has_type t v -> length (numbers v) = length (integers t).
Proof.
  assert (L : forall ts, Forall (fun t => forall v, has_type t v -> length (numbers v) = length (integers t)) ts ->
            forall vs, Forall2 has_type ts vs -> length (flat_map numbers vs) = length (flat_map integers ts)).
  { intros ts H vs F. induction F; auto. inversion H; subst. cbn [flat_map]. rewrite !app_length. f_equal; auto. }
  induction t using ty_ind_nested; intros [z|vs] Hv; try destruct Hv; auto.
  - rewrite integers_arr. cbn [numbers]. apply L; [apply Forall_repeat; auto|].
    subst n. clear IHt. induction H0; cbn [repeat length]; constructor; auto.
  - cbn [integers numbers]. apply L; auto. apply (has_type_user s). auto.
Qed.

Lemma enc_flat : forall e m t v, has_type t v ->
  enc e m t v = enc_list e m (integers t) (map VInt (numbers v)).
Proof.
  intros e m.
  assert (L : forall ts, Forall (fun t => forall v, has_type t v ->
              enc e m t v = enc_list e m (integers t) (map VInt (numbers v))) ts ->
            forall vs, Forall2 has_type ts vs ->
            enc_list e m ts vs = enc_list e m (flat_map integers ts) (map VInt (flat_map numbers vs))).
  { intros ts H vs F. induction F as [|t v ts vs Hv F IH]; auto. inversion H; subst.
    cbn [flat_map enc_list]. rewrite map_app, enc_list_app by (rewrite map_length; symmetry; apply numbers_count; auto).
    f_equal; auto. }
  induction t using ty_ind_nested; intros [z|vs] Hv; try (destruct Hv; fail);
    try (cbn [integers numbers map enc_list]; rewrite app_nil_r; reflexivity).
  - destruct Hv as [Hn Hv]. rewrite integers_arr. cbn [numbers enc]. rewrite <- enc_arr, Hn.
    apply L; [apply Forall_repeat; auto|].
    subst n. clear IHt. induction Hv; cbn [repeat length]; constructor; auto.
  - cbn [integers numbers]. rewrite enc_user. apply L; auto. apply (has_type_user s). auto.
Qed.

Lemma enc_list_flat : forall e m ts vs, Forall2 has_type ts vs ->
  enc_list e m ts vs = enc_list e m (flat_map integers ts) (map VInt (flat_map numbers vs)).
Proof.
  intros e m ts vs H. rewrite <- (enc_user e m 0). apply (enc_flat e m (TUser 0 ts)).
  apply has_type_user. auto.
Qed.

Lemma dec_list_firstn : forall e m ts bs n, wire_sizes ts <= n ->
  dec_list e m ts (firstn n bs) = dec_list e m ts bs.
Proof.
  intros e m. induction ts as [|t ts IH]; intros bs n H; cbn [dec_list]; auto.
  change (wire_sizes (t :: ts)) with (wire_size t + wire_sizes ts) in H.
  rewrite firstn_firstn, Nat.min_l by lia. f_equal.
  replace n with (wire_size t + (n - wire_size t)) by lia. rewrite <- firstn_skipn_comm. apply IH. lia.
Qed.

Lemma dec_flat : forall e m t bs, length bs = wire_size t ->
  map VInt (numbers (dec e m t bs)) = dec_list e m (integers t) bs.
Proof.
  intros e m.
  assert (L : forall ts, Forall (fun t => forall bs, length bs = wire_size t ->
              map VInt (numbers (dec e m t bs)) = dec_list e m (integers t) bs) ts ->
            forall bs, length bs = wire_sizes ts ->
            map VInt (flat_map numbers (dec_list e m ts bs)) = dec_list e m (flat_map integers ts) bs).
  { intros ts H. induction H as [|t ts Ht H IH]; intros bs Hl; auto.
    change (wire_sizes (t :: ts)) with (wire_size t + wire_sizes ts) in Hl.
    cbn [flat_map dec_list]. rewrite map_app, dec_list_app, integers_size. f_equal.
    - apply Ht. apply firstn_length_le. lia.
    - apply IH. rewrite skipn_length. lia. }
  induction t using ty_ind_nested; intros bs Hl;
    try (cbn [dec numbers map integers dec_list]; rewrite firstn_all2 by lia; reflexivity).
  - rewrite integers_arr, dec_arr. cbn [numbers]. apply L; [apply Forall_repeat; auto|].
    rewrite Hl. symmetry. apply sizes_repeat.
  - cbn [integers]. rewrite dec_user. cbn [numbers]. apply L; auto.
Qed.

Lemma dec_list_flat : forall e m ts bs, length bs = wire_sizes ts ->
  map VInt (flat_map numbers (dec_list e m ts bs)) = dec_list e m (flat_map integers ts) bs.
Proof.
  intros e m ts bs H. pose proof (dec_flat e m (TUser 0 ts) bs) as F. rewrite dec_user in F. apply F.
  rewrite wire_size_user. auto.
Qed.

(** Numbers in the range of their types. *)
Definition fits (p : platform) (m : signed_mode) (t : ty) (z : Z) : Prop := encodable p m t (VInt z).

Lemma numbers_fit : forall p m t v, encodable p m t v -> Forall2 (fits p m) (integers t) (numbers v).
Proof.
  intros p m.
  assert (L : forall ts, Forall (fun t => forall v, encodable p m t v ->
              Forall2 (fits p m) (integers t) (numbers v)) ts ->
            forall vs, Forall2 (encodable p m) ts vs ->
            Forall2 (fits p m) (flat_map integers ts) (flat_map numbers vs)).
  { intros ts H vs F. induction F; cbn [flat_map]; auto. inversion H; subst. apply Forall2_app; auto. }
  induction t using ty_ind_nested; intros [z|vs] Hv; try (destruct Hv as [[] _]; fail);
    try (cbn [integers numbers]; constructor; [exact Hv|constructor]; fail).
  - apply encodable_arr in Hv. destruct Hv as [Hn Hv]. rewrite integers_arr. cbn [numbers].
    apply L; [apply Forall_repeat; auto|].
    subst n. clear IHt. induction Hv; cbn [repeat length]; constructor; auto.
  - cbn [integers numbers]. apply encodable_user in Hv. auto.
Qed.

Lemma numbers_fit_list : forall p m ts vs, Forall2 (encodable p m) ts vs ->
  Forall2 (fits p m) (flat_map integers ts) (flat_map numbers vs).
Proof. intros p m ts vs H. apply (numbers_fit p m (TUser 0 ts) (VList vs)). apply encodable_user. auto. Qed.

Lemma fit_encodable : forall p m t v, has_type t v -> Forall2 (fits p m) (integers t) (numbers v) ->
  encodable p m t v.
Proof.
  intros p m.
  assert (L : forall ts, Forall (fun t => forall v, has_type t v ->
              Forall2 (fits p m) (integers t) (numbers v) -> encodable p m t v) ts ->
            forall vs, Forall2 has_type ts vs ->
            Forall2 (fits p m) (flat_map integers ts) (flat_map numbers vs) -> Forall2 (encodable p m) ts vs).
  { intros ts H vs F. induction F as [|t v ts vs Hv F IH]; intros G; auto. inversion H; subst.
    cbn [flat_map] in G. apply Forall2_app_inv_l in G. destruct G as (z1 & z2 & F1 & F2 & E).
    assert (Hl : length z1 = length (numbers v)).
    { rewrite <- (Forall2_length F1). symmetry. apply numbers_count. auto. }
    assert (E1 : z1 = numbers v).
    { apply (f_equal (firstn (length (numbers v)))) in E. rewrite !firstn_app_len in E by auto. auto. }
    subst z1. apply app_inv_head in E. subst z2. constructor; auto. }
  induction t using ty_ind_nested; intros [z|vs] Hv F; try (destruct Hv; fail);
    try (cbn [integers numbers] in F; inversion F; subst; auto; fail).
  - destruct Hv as [Hn Hv]. rewrite integers_arr in F. cbn [numbers] in F. apply encodable_arr. split; auto.
    assert (G : Forall2 (encodable p m) (repeat t n) vs).
    { apply L; auto; [apply Forall_repeat; auto|]. subst n. clear IHt F.
      induction Hv; cbn [repeat length]; constructor; auto. }
    clear -G. revert vs G. induction n; intros vs G; inversion G; subst; constructor; auto.
  - cbn [integers numbers] in F. apply encodable_user. apply L; auto. apply (has_type_user s). auto.
Qed.

Lemma fit_encodable_list : forall p m ts vs, Forall2 has_type ts vs ->
  Forall2 (fits p m) (flat_map integers ts) (flat_map numbers vs) -> Forall2 (encodable p m) ts vs.
Proof.
  intros p m ts vs H F. apply (encodable_user p m 0). apply fit_encodable; auto. apply has_type_user. auto.
Qed.

(** They can be grouped. *)
Lemma regroup : forall p m t zs, Forall2 (fits p m) (integers t) zs ->
  exists v, encodable p m t v /\ numbers v = zs.
Proof.
  intros p m.
  assert (L : forall ts, Forall (fun t => forall zs, Forall2 (fits p m) (integers t) zs ->
              exists v, encodable p m t v /\ numbers v = zs) ts ->
            forall zs, Forall2 (fits p m) (flat_map integers ts) zs ->
            exists vs, Forall2 (encodable p m) ts vs /\ flat_map numbers vs = zs).
  { intros ts H. induction H as [|t ts Ht H IH]; intros zs F.
    - inversion F. exists []. split; auto.
    - cbn [flat_map] in F. apply Forall2_app_inv_l in F. destruct F as (z1 & z2 & F1 & F2 & ->).
      destruct (Ht _ F1) as (v & Hv & <-). destruct (IH _ F2) as (vs & Hvs & <-).
      exists (v :: vs). split; auto. }
  induction t using ty_ind_nested; intros zs F;
    try (cbn [integers] in F; inversion F as [|? z ? ? Hz F']; inversion F'; subst; exists (VInt z); auto; fail).
  - rewrite integers_arr in F. destruct (L (repeat t n) (Forall_repeat _ _ _ _ IHt) zs F) as (vs & Hvs & <-).
    exists (VList vs). split; auto. apply encodable_arr.
    split; [rewrite <- (Forall2_length Hvs); apply repeat_length|].
    clear -Hvs. revert vs Hvs. induction n; intros vs H; inversion H; subst; constructor; auto.
  - cbn [integers] in F. destruct (L fs H zs F) as (vs & Hvs & <-).
    exists (VList vs). split; auto. apply encodable_user. auto.
Qed.

Lemma regroup_list : forall p m ts zs, Forall2 (fits p m) (flat_map integers ts) zs ->
  exists vs, Forall2 (encodable p m) ts vs /\ flat_map numbers vs = zs.
Proof.
  intros p m ts zs F. destruct (regroup p m (TUser 0 ts) zs F) as ([z|vs] & Hv & E).
  - destruct Hv as [[] _].
  - exists vs. split; auto. apply encodable_user in Hv. auto.
Qed.

(** ** One integer *)

Lemma agree_enc : forall p q e m e' m' a b z, wf_ty a -> agree e m e' m' a b -> fits p m a z -> fits q m' a z ->
  wf_ty b /\ fits q m' b z /\ enc e m a (VInt z) = enc e' m' b (VInt z).
Proof.
  intros p q e m e' m' a b z W A Hp Hq.
  destruct a as [|w|w| |], b as [|w'|w'| |]; cbn [agree enc wf_ty] in *; try contradiction.
  - split; auto. split; auto. apply wire_bytes_1.
  - subst w'. destruct Hp as [[->| ->] _]; (split; [lia|]); (split; [|apply wire_bytes_1]);
      (split; [vm_compute; intuition congruence|exact I]).
  - destruct A as [-> A].
    assert (E : repr m' 1 z = z).
    { destruct Hp as [[->| ->] _]; destruct m'; auto; congruence. }
    rewrite E. destruct Hp as [[->| ->] _]; (split; [lia|]); (split; [|apply wire_bytes_1]);
      (split; [vm_compute; intuition congruence|left; vm_compute; auto]).
  - destruct A as [<- A]. split; auto. split; auto. destruct A as [->| ->]; auto. apply wire_bytes_1.
  - destruct A as (<- & -> & A). split; auto. split; auto. destruct A as [->| ->]; auto. apply wire_bytes_1.
Qed.

(** The number whose bytes are all 1. *)
Definition ones (m : signed_mode) (t : ty) : Z :=
  match t with
  | TBool => 1
  | TUns w => wire_value LITTLE (repeat 1%Z w)
  | TSig w => unrepr m w (wire_value LITTLE (repeat 1%Z w))
  | _ => 0
  end.

Lemma ones_enc : forall e m t, leaf t -> wf_ty t -> enc e m t (VInt (ones m t)) = repeat 1%Z (wire_size t).
Proof.
  intros e m t L W. destruct t; try destruct L; cbn [wf_ty] in W.
  - destruct e; reflexivity.
  - destruct (widths w W) as [->|[->|[->|[->|[->|[->|[->| ->]]]]]]]; destruct e; vm_compute; reflexivity.
  - destruct (widths w W) as [->|[->|[->|[->|[->|[->|[->| ->]]]]]]]; destruct e, m; vm_compute; reflexivity.
Qed.

Lemma ones_fits : forall p m m' t, leaf t -> wf_ty t -> fits p m t (ones m' t).
Proof.
  intros p m m' t L W. destruct t; try destruct L; cbn [wf_ty] in W; split; cbn [has_type all_signed ones]; auto.
  - destruct (widths w W) as [->|[->|[->|[->|[->|[->|[->| ->]]]]]]]; vm_compute; split; congruence.
  - destruct (widths w W) as [->|[->|[->|[->|[->|[->|[->| ->]]]]]]]; destruct m'; vm_compute; split; congruence.
  - left. destruct (widths w W) as [->|[->|[->|[->|[->|[->|[->| ->]]]]]]]; destruct m'; vm_compute; congruence.
Qed.

Lemma ones_dec : forall e m t, leaf t -> wf_ty t -> dec e m t (repeat 1%Z (wire_size t)) = VInt (ones m t).
Proof.
  intros e m t L W. destruct t; try destruct L; cbn [wf_ty] in W.
  - destruct e; reflexivity.
  - destruct (widths w W) as [->|[->|[->|[->|[->|[->|[->| ->]]]]]]]; destruct e; vm_compute; reflexivity.
  - destruct (widths w W) as [->|[->|[->|[->|[->|[->|[->| ->]]]]]]]; destruct e, m; vm_compute; reflexivity.
Qed.

Lemma ones_differ : forall m m' a b, leaf a -> leaf b -> wf_ty a -> wf_ty b -> ones m a = ones m' b ->
  wire_size a = wire_size b.
Proof.
  intros m m' a b La Lb Wa Wb H.
  assert (T : forall t, leaf t -> wf_ty t -> exists k, In k [1; 2; 3; 4; 5; 6; 7; 8] /\ In t [TBool; TUns k; TSig k]
                                                /\ wire_size t = match t with TBool => 1 | _ => k end).
  { intros t L W. destruct t; try destruct L; cbn [wf_ty] in W.
    - exists 1. cbn. auto.
    - exists w. split; [cbn; lia|]. cbn. auto.
    - exists w. split; [cbn; lia|]. cbn. auto. }
  destruct (T a La Wa) as (k & Hk & Ha & _). destruct (T b Lb Wb) as (k' & Hk' & Hb & _).
  assert (C : forallb (fun m => forallb (fun m' => forallb (fun k => forallb (fun k' => forallb (fun a => forallb (fun b =>
                negb (Z.eqb (ones m a) (ones m' b)) || Nat.eqb (wire_size a) (wire_size b))
                [TBool; TUns k'; TSig k']) [TBool; TUns k; TSig k]) [1; 2; 3; 4; 5; 6; 7; 8]) [1; 2; 3; 4; 5; 6; 7; 8])
                [SIGNED_MAGNITUDE; ONES_COMPLEMENT; TWOS_COMPLEMENT; OFFSET_BINARY])
                [SIGNED_MAGNITUDE; ONES_COMPLEMENT; TWOS_COMPLEMENT; OFFSET_BINARY] = true)
    by (vm_compute; reflexivity).
  assert (M : forall m, In m [SIGNED_MAGNITUDE; ONES_COMPLEMENT; TWOS_COMPLEMENT; OFFSET_BINARY]).
  { intros []; cbn; auto. }
  rewrite forallb_forall in C. specialize (C m (M m)). rewrite forallb_forall in C. specialize (C m' (M m')).
  rewrite forallb_forall in C. specialize (C k Hk). rewrite forallb_forall in C. specialize (C k' Hk').
  rewrite forallb_forall in C. specialize (C a Ha). rewrite forallb_forall in C. specialize (C b Hb).
  rewrite H, Z.eqb_refl in C. cbn [negb orb] in C. apply Nat.eqb_eq. auto.
Qed.

Lemma small_fits : forall p m w z, 1 <= w <= 8 -> (-1 <= z <= 1)%Z -> fits p m (TSig w) z.
Proof.
  intros p m w z Hw Hz. assert (1 < half w)%Z.
  { destruct (widths w Hw) as [->|[->|[->|[->|[->|[->|[->| ->]]]]]]]; reflexivity. }
  split; cbn [has_type all_signed]; try lia. left. lia.
Qed.

Lemma exchange_agree : forall p q e m e' m' a b, leaf a -> leaf b -> wf_ty a -> wf_ty b ->
  wire_size a = wire_size b ->
  (forall z, fits p m a z -> fits q m' a z -> dec e' m' b (enc e m a (VInt z)) = VInt z) ->
  agree e m e' m' a b.
Proof.
  intros p q e m e' m' a b La Lb Wa Wb Hw H.
  destruct a as [|w|w| |]; try destruct La; destruct b as [|w'|w'| |]; try destruct Lb;
    cbn [wire_size wf_ty agree] in *; try subst w'; auto.
  - split; auto. intros ->. specialize (H 0%Z). cbn in H.
    assert (E : VInt (-128) = VInt 0); [|discriminate].
    rewrite <- H; [destruct e, e'; reflexivity|split; cbn; auto|split; cbn; auto].
  - subst w. specialize (H 2%Z).
    assert (E : VInt 1 = VInt 2); [|discriminate].
    rewrite <- H; [destruct e, e'; reflexivity| |]; (split; [vm_compute; intuition congruence|exact I]).
  - split; auto. apply uns_differ; auto.
    assert (F : forall p m, fits p m (TUns w) 1).
    { intros. assert (1 < space w)%Z.
      { destruct (widths w Wa) as [->|[->|[->|[->|[->|[->|[->| ->]]]]]]]; reflexivity. }
      split; cbn [has_type all_signed]; auto; lia. }
    specialize (H 1%Z (F _ _) (F _ _)). cbn [dec enc] in H. congruence.
  - specialize (H (space w - 1)%Z).
    assert (F : forall p m, fits p m (TUns w) (space w - 1)).
    { intros. pose proof (space_pos w). split; cbn [has_type all_signed]; auto; lia. }
    specialize (H (F _ _) (F _ _)). clear F.
    destruct (widths w Wa) as [->|[->|[->|[->|[->|[->|[->| ->]]]]]]]; destruct e, e', m'; vm_compute in H; discriminate.
  - subst w. specialize (H (-1)%Z (small_fits _ _ 1 (-1) Wa ltac:(lia)) (small_fits _ _ 1 (-1) Wa ltac:(lia))).
    destruct e, e', m; vm_compute in H; discriminate.
  - specialize (H (-1)%Z (small_fits _ _ w (-1) Wa ltac:(lia)) (small_fits _ _ w (-1) Wa ltac:(lia))).
    destruct (widths w Wa) as [->|[->|[->|[->|[->|[->|[->| ->]]]]]]]; destruct e, e', m; vm_compute in H; discriminate.
  - assert (E : forall z, (-1 <= z <= 1)%Z -> unrepr m' w (wire_value e' (wire_bytes e w (repr m w z))) = z).
    { intros z Hz. specialize (H z (small_fits _ _ w _ Wa Hz) (small_fits _ _ w _ Wa Hz)).
      cbn [dec enc] in H. congruence. }
    assert (O : e = e' \/ w = 1) by (apply (sig_order_differ e e' m m' w); auto; apply E; lia).
    split; auto. split; auto. apply (sig_mode_differ e e' m m' w); auto. apply E. lia.
Qed.

(** ** Lists of integers *)

Lemma understood_enc : forall p q e m e' m' l l' zs, Forall wf_ty l -> Forall2 (agree e m e' m') l l' ->
  Forall2 (fits p m) l zs -> Forall2 (fits q m') l zs ->
  Forall2 (fits q m') l' zs /\ enc_list e m l (map VInt zs) = enc_list e' m' l' (map VInt zs).
Proof.
  intros p q e m e' m' l l' zs W A. revert zs. induction A as [|a b l l' Hab A IH]; intros zs Hp Hq.
  - inversion Hp; subst; auto.
  - inversion Hp; subst. inversion Hq; subst. inversion W; subst.
    destruct (agree_enc p q e m e' m' a b y) as (_ & F & E); auto.
    destruct (IH H5 l'0) as [F' E']; auto. split; auto.
    cbn [map enc_list]. rewrite E, E'. reflexivity.
Qed.

Lemma exchange_understood : forall p q e m e' m' l l', Forall leaf l -> Forall leaf l' ->
  Forall wf_ty l -> Forall wf_ty l' -> wire_sizes l = wire_sizes l' ->
  (forall zs, Forall2 (fits p m) l zs -> Forall2 (fits q m') l zs ->
     dec_list e' m' l' (enc_list e m l (map VInt zs)) = map VInt zs) ->
  Forall2 (agree e m e' m') l l'.
Proof.
  intros p q e m e' m'. induction l as [|a l IH]; intros l' L L' W W' Hs H.
  - specialize (H [] (Forall2_nil _) (Forall2_nil _)). destruct l'; [constructor|discriminate].
  - inversion L as [|? ? La Ll]; subst. inversion W as [|? ? Wa Wl]; subst.
    assert (O : forall p m' l, Forall leaf l -> Forall wf_ty l -> Forall2 (fits p m') l (map (ones m) l)).
    { clear. intros p m' l L W. induction L; cbn [map]; constructor; inversion W; subst; auto.
      apply ones_fits; auto. }
    pose proof (H (map (ones m) (a :: l)) (O _ _ _ L W) (O _ _ _ L W)) as H1.
    destruct l' as [|b l']; [discriminate|].
    inversion L' as [|? ? Lb Ll']; subst. inversion W' as [|? ? Wb Wl']; subst.
    assert (E : enc_list e m (a :: l) (map VInt (map (ones m) (a :: l))) = repeat 1%Z (wire_sizes (a :: l))).
    { clear -L W. induction L; auto. inversion W; subst. cbn [map enc_list]. rewrite ones_enc by auto.
      rewrite IHL by auto. change (wire_sizes (x :: l0)) with (wire_size x + wire_sizes l0).
      rewrite repeat_app. reflexivity. }
    rewrite E, Hs in H1. cbn [dec_list] in H1.
    change (wire_sizes (b :: l')) with (wire_size b + wire_sizes l') in *.
    change (wire_sizes (a :: l)) with (wire_size a + wire_sizes l) in *.
    rewrite repeat_app in H1. rewrite firstn_app_len in H1 by apply repeat_length.
    rewrite ones_dec in H1 by auto. cbn [map] in H1. injection H1 as H1 _.
    assert (Hw : wire_size a = wire_size b) by (symmetry; apply (ones_differ m' m); auto).
    assert (Len : forall t z, fits p m t z -> length (enc e m t (VInt z)) = wire_size t).
    { intros t z F. apply enc_length. apply F. }
    constructor.
    + apply (exchange_agree p q); auto. intros z Hp Hq.
      specialize (H (z :: map (ones m) l)). cbn [map enc_list dec_list] in H.
      rewrite firstn_app_len in H by (rewrite Len; auto).
      assert (X : forall x y (u v : list val), x :: u = y :: v -> x = y) by congruence.
      eapply X. apply H; constructor; auto.
    + apply IH; auto; [lia|]. intros zs Hp Hq.
      specialize (H (ones m a :: zs)). cbn [map enc_list dec_list] in H.
      rewrite skipn_app_len in H by (rewrite Len; auto; apply ones_fits; auto).
      assert (X : forall (x y : val) u v, x :: u = y :: v -> u = v) by congruence.
      eapply X. apply H; constructor; auto; apply ones_fits; auto.
Qed.

(** The same for parameters: what is written is the encoding of arguments of
    the types of the other side, made of the same numbers. *)
Lemma understood_args : forall p q e m e' m' ts ts' args, Forall wf_ty ts ->
  understood e m e' m' ts ts' ->
  Forall2 (encodable p m) ts args -> Forall2 (encodable q m') ts args ->
  exists args', Forall2 (encodable q m') ts' args' /\ flat_map numbers args' = flat_map numbers args
                /\ enc_list e m ts args = enc_list e' m' ts' args'.
Proof.
  intros p q e m e' m' ts ts' args W U Hp Hq.
  assert (W' : Forall wf_ty (flat_map integers ts)).
  { clear -W. induction W; cbn [flat_map]; auto. apply Forall_app. split; auto. apply integers_wf. auto. }
  destruct (understood_enc p q e m e' m' _ _ (flat_map numbers args) W' U) as [F E];
    try apply numbers_fit_list; auto.
  destruct (regroup_list q m' ts' _ F) as (args' & Ha & Hn).
  exists args'. split; auto. split; auto.
  rewrite enc_list_flat, E by (eapply encodable_has; eauto). rewrite <- Hn.
  symmetry. apply enc_list_flat. eapply encodable_has; eauto.
Qed.

Lemma args_understood : forall p q e m e' m' ts ts', Forall wf_ty ts -> Forall wf_ty ts' ->
  wire_sizes ts = wire_sizes ts' ->
  (forall args, Forall2 (encodable p m) ts args -> Forall2 (encodable q m') ts args ->
     flat_map numbers (dec_list e' m' ts' (enc_list e m ts args)) = flat_map numbers args) ->
  understood e m e' m' ts ts'.
Proof.
  intros p q e m e' m' ts ts' W W' Hs H. unfold understood.
  assert (Wi : forall ts, Forall wf_ty ts -> Forall wf_ty (flat_map integers ts)).
  { clear. intros ts W. induction W; cbn [flat_map]; auto. apply Forall_app. split; auto. apply integers_wf. auto. }
  assert (Li : forall ts, Forall leaf (flat_map integers ts)).
  { clear. intros ts. induction ts; cbn [flat_map]; auto. apply Forall_app. split; auto. apply integers_leaf. }
  apply (exchange_understood p q); auto; [rewrite !integers_sizes; auto|].
  intros zs Hp Hq.
  destruct (regroup_list p m ts zs Hp) as (args & Ha & <-).
  assert (Hq' : Forall2 (encodable q m') ts args).
  { apply (fit_encodable_list q m'); auto. eapply encodable_has; eauto. }
  rewrite <- enc_list_flat by (eapply encodable_has; eauto).
  rewrite <- dec_list_flat; [rewrite H; auto|].
  rewrite <- Hs. apply enc_list_length. eapply encodable_has; eauto.
Qed.

(** ** C89 *)

(** Two callbacks whose parameters are made of the same integers, grouped
    differently (an array or its elements, an object or its fields).  Their
    requests, in the same format, are the same exactly when the arguments are
    made of the same numbers. *)
Theorem C89_same_packets : forall (S S' : Type) p (kr : keyring S) (kr' : keyring S') i name name' f f' k k' args args',
  wf_platform p -> keyring_ok p kr -> keyring_ok p kr' ->
  kr_e kr' = kr_e kr -> kr_m kr' = kr_m kr -> kr_index_size kr' = kr_index_size kr ->
  nth_error (kr_funcs kr) i = Some (name, f) -> nth_error (kr_funcs kr') i = Some (name', f') ->
  kr_get kr name f = Some k -> kr_get kr' name' f' = Some k' ->
  flat_map integers (sig_params (f_sig f')) = flat_map integers (sig_params (f_sig f)) ->
  Forall2 (encodable p (kr_m kr)) (sig_params (f_sig f)) args ->
  Forall2 (encodable p (kr_m kr)) (sig_params (f_sig f')) args' ->
  (flat_map numbers args' = flat_map numbers args
   <-> key_write p k args give_wire (mk_wires [] [] tt) = key_write p k' args' give_wire (mk_wires [] [] tt)).
Proof.
  intros S S' p kr kr' i name name' f f' k k' args args' Hp Hk Hk' He Hm Hw Hi Hi' Hg Hg' Hint Ha Ha'.
  rewrite (packet_sent p kr i name f k args) by auto.
  rewrite (packet_sent p kr' i name' f' k' args') by (auto; rewrite Hm; auto).
  rewrite He, Hm, Hw. unfold request.
  rewrite (enc_list_flat _ _ _ args) by (eapply encodable_has; eauto).
  rewrite (enc_list_flat _ _ _ args') by (eapply encodable_has; eauto).
  rewrite Hint. split; intros H.
  - rewrite H. reflexivity.
  - injection H as H. apply app_inv_head in H.
    assert (Wf : Forall wf_ty (flat_map integers (sig_params (f_sig f)))).
    { assert (W : Forall wf_ty (sig_params (f_sig f))).
      { destruct Hk as [_ F]. rewrite Forall_forall in F. eapply tys_wf. apply (F (name, f) (nth_error_In _ _ Hi)). }
      clear -W. induction W; cbn [flat_map]; auto. apply Forall_app. split; auto. apply integers_wf. auto. }
    assert (D : forall zs, Forall2 (fits p (kr_m kr)) (flat_map integers (sig_params (f_sig f))) zs ->
              dec_list (kr_e kr) (kr_m kr) (flat_map integers (sig_params (f_sig f)))
                (enc_list (kr_e kr) (kr_m kr) (flat_map integers (sig_params (f_sig f))) (map VInt zs)) = map VInt zs).
    { intros zs F. apply (dec_list_enc_list p); auto. clear -F. induction F; cbn [map]; constructor; auto. }
    pose proof (D _ (numbers_fit_list p (kr_m kr) _ _ Ha)) as D1.
    pose proof (numbers_fit_list p (kr_m kr) _ _ Ha') as F2. rewrite Hint in F2.
    pose proof (D _ F2) as D2. rewrite H in D1. rewrite D1 in D2.
    clear -D2. revert D2. generalize (flat_map numbers args) (flat_map numbers args').
    induction l as [|z l IH]; intros [|z' l'] E; try discriminate; auto.
    cbn [map] in E. injection E as -> E. f_equal. auto.
Qed.

(** A caller and a callee which disagree on the format and on the parameters of
    callback [i].  All its requests run the callback of the callee on the
    numbers of the caller, and leave what follows them in the stream, if and only if
    the integers of the parameters agree one by one. *)
Theorem C89_requests : forall p q e m e' m' sig sig',
  wf_platform p -> wf_platform q -> sig_ok p e m sig -> sig_ok q e' m' sig' ->
  (understood e m e' m' (sig_params sig) (sig_params sig')
   <->
   forall (S S' : Type) (kr : keyring S) (kr' : keyring S') i name name' f f' k ft args s rest,
     keyring_ok p kr -> keyring_ok q kr' ->
     kr_e kr = e -> kr_m kr = m -> kr_e kr' = e' -> kr_m kr' = m' ->
     kr_index_size kr' = kr_index_size kr -> e = e' \/ kr_index_size kr = 1 ->
     nth_error (kr_funcs kr) i = Some (name, f) -> nth_error (kr_funcs kr') i = Some (name', f') ->
     f_sig f = sig -> f_sig f' = sig' -> kr_get kr name f = Some k ->
     Forall2 (encodable p m) (sig_params sig) args -> Forall2 (encodable q m') (sig_params sig) args ->
     (forall args', ret_encodable q m' (sig_ret sig') (snd (f_call f' args' s))) ->
     Forall is_byte rest ->
     exists packet args' out,
       key_write p k args give_wire (mk_wires [] [] tt) = Ok (mk_wires [] packet tt)
       /\ Forall2 has_type (sig_params sig') args' /\ flat_map numbers args' = flat_map numbers args
       /\ dispatch q (make_dispatcher (lift_keyring kr') ft) take_wire give_wire (mk_wires (packet ++ rest) [] s)
          = Ok (mk_wires rest out (fst (f_call f' args' s)), i)).
Proof.
  intros p q e m e' m' sig sig' Hp Hq Hs Hs'. split.
  - intros U S S' kr kr' i name name' f f' k ft args s rest Hk Hk' <- <- <- <- Hw Hx Hi Hi' <- <- Hg Hap Haq Hr Hb.
    destruct (understood_args p q _ _ _ _ _ _ args (tys_wf _ _ _ _ (proj1 Hs)) U Hap Haq) as (args' & Ha' & Hn & E).
    eexists. exists args'. eexists. split; [apply (packet_sent p kr i name f k args); auto|].
    split; [eapply encodable_has; eauto|]. split; auto.
    replace (request (kr_e kr) (kr_m kr) (kr_index_size kr) i (sig_params (f_sig f)) args)
      with (request (kr_e kr') (kr_m kr') (kr_index_size kr') i (sig_params (f_sig f')) args').
    + apply (request_served q kr' ft i name' f' args' s rest Hq Hk' Hi'); auto.
    + unfold request. rewrite E, Hw. f_equal. destruct Hx as [->| ->]; auto. apply wire_bytes_1.
  - intros H.
    set (kr := mk_keyring e m (recorders [sig])). set (kr' := mk_keyring e' m' (recorders [sig'])).
    assert (Kp : keyring_ok p kr) by (apply (sigs_ok _ p e m [sig]); [reflexivity|reflexivity|auto]).
    assert (Kq : keyring_ok q kr') by (apply (sigs_ok _ q e' m' [sig']); [reflexivity|reflexivity|auto]).
    assert (R : forall args rest, Forall2 (encodable p m) (sig_params sig) args ->
              Forall2 (encodable q m') (sig_params sig) args -> Forall is_byte rest ->
              wire_sizes (sig_params sig) = wire_sizes (sig_params sig')
              /\ flat_map numbers (dec_list e' m' (sig_params sig')
                   (firstn (wire_sizes (sig_params sig')) (enc_list e m (sig_params sig) args ++ rest)))
                 = flat_map numbers args).
    { intros args rest Hap Haq Hb.
      destruct (H _ _ kr kr' 0 0 0 (recorder sig) (recorder sig') (mk_key 1 0 sig e m) ANY args [] rest)
        as (packet & args' & out & H1 & H2 & H3 & H4); auto.
      { intros args'. cbn [recorder f_sig f_call snd]. destruct Hs' as [_ Hr].
        destruct (sig_ret sig'); cbn [ret_encodable ret_ty_ok] in *; auto. apply default_ok. apply Hr. }
      rewrite (packet_sent p kr 0 0 (recorder sig) _ args) in H1 by auto.
      injection H1 as <-. unfold request in H4. rewrite <- app_assoc in H4.
      rewrite dispatch_wires in H4;
        [|auto|auto|apply wire_bytes_length|apply wire_bytes_bytes].
      change (kr_index_size kr) with 1 in H4. cbn [kr' kr_funcs kr_e kr_m kr f_sig recorder] in H4.
      assert (Ez : Z.to_nat (wire_value e' (wire_bytes e 1 (Z.of_nat 0))) = 0) by (destruct e, e'; reflexivity).
      rewrite Ez in H4. cbn [recorders combine seq map length nth_error snd] in H4.
      apply bind_ok in H4. destruct H4 as (x & Hc & H4). injection H4 as ->.
      fold (recorder sig') in Hc.
      set (inp := enc_list e m (sig_params sig) args ++ rest) in *.
      assert (Hl : length inp = wire_sizes (sig_params sig) + length rest).
      { unfold inp. rewrite app_length. f_equal. apply enc_list_length. eapply encodable_has; eauto. }
      assert (Hib : Forall is_byte inp) by (apply Forall_app; split; auto; apply enc_list_bytes).
      destruct (Nat.lt_ge_cases (length inp) (wire_sizes (sig_params sig'))) as [Hlt|Hge].
      { rewrite (call_pull_fault q _ _ _ (lift_func (recorder sig')) _ _ _ NoInput) in Hc; auto; [discriminate|].
        apply pull_short. rewrite lift_sig. auto. }
      rewrite <- (firstn_skipn (wire_sizes (sig_params sig')) inp) in Hc, Hib.
      apply Forall_app in Hib. destruct Hib as [Hib _].
      apply call_wires_inv in Hc; auto; [|apply firstn_length_le; auto].
      cbn [w_in w_user recorder f_call fst f_sig] in Hc. destruct Hc as [Hc1 Hc2].
      apply (f_equal (@length Z)) in Hc1. rewrite skipn_length in Hc1.
      split; [lia|]. injection Hc2 as <-. auto. }
    assert (D : Forall2 (encodable p m) (sig_params sig) (map default_val (sig_params sig))
                /\ Forall2 (encodable q m') (sig_params sig) (map default_val (sig_params sig))).
    { pose proof (tys_wf _ _ _ _ (proj1 Hs)) as W. clear -W.
      induction W; cbn [map]; split; constructor; try apply IHW; apply default_ok; auto. }
    destruct (R _ [] (proj1 D) (proj2 D) (Forall_nil _)) as [Sz _].
    apply (args_understood p q); auto; try (eapply tys_wf; [apply Hs] || eapply tys_wf; apply Hs').
    intros args Hap Haq. destruct (R args [] Hap Haq (Forall_nil _)) as [_ E].
    rewrite app_nil_r, firstn_all2 in E; auto.
    assert (L : length (enc_list e m (sig_params sig) args) = wire_sizes (sig_params sig)).
    { apply enc_list_length. eapply encodable_has; eauto. }
    lia.
Qed.

(** The same for responses. *)
Theorem C89_responses : forall p q e m e' m' t t' k,
  wf_platform p -> wf_platform q -> ty_ok p e m t -> ty_ok q e' m' t' ->
  sig_ret (k_sig k) = Some t' -> k_e k = e' -> k_m k = m' ->
  (understood e m e' m' [t] [t']
   <->
   forall v rest, encodable p m t v -> encodable q m' t v -> Forall is_byte rest ->
     exists resp v',
       insert p e m give_wire t v (mk_wires [] [] tt) = Ok (mk_wires [] resp tt)
       /\ key_read q k take_wire (mk_wires (resp ++ rest) [] tt) = Ok (mk_wires rest [] tt, Some v')
       /\ has_type t' v' /\ numbers v' = numbers v).
Proof.
  intros p q e m e' m' t t' k Hp Hq Ht Ht' Hk <- <-.
  assert (One : forall (P : ty -> val -> Prop) t v, Forall2 P [t] [v] <-> P t v).
  { intros P a v. split; [intros F; inversion F; auto|intros; repeat constructor; auto]. }
  split.
  - intros U v rest Hvp Hvq Hb.
    destruct (understood_args p q _ _ _ _ _ _ [v] ltac:(constructor; [apply Ht|constructor]) U) as (vs & Hvs & Hn & E);
      try (apply One; auto).
    inversion Hvs as [|? v' ? l Hv' F]; subst. inversion F; subst.
    cbn [flat_map enc_list] in Hn, E. rewrite !app_nil_r in Hn, E.
    exists (enc e m t v), v'. split; [rewrite insert_ok by auto; apply give_wires|].
    split; [|split; auto; apply Hv'].
    rewrite E. assert (Hel : length (enc (k_e k) (k_m k) t' v') = wire_size t') by (apply enc_length; apply Hv').
    rewrite (C28_returns _ q k take_wire _ (mk_wires rest [] tt) v'); rewrite ?Hk; auto.
    cbn [wire_size_ret response]. apply pull_wires. auto.
  - intros H.
    assert (R : forall v, encodable p m t v -> encodable q (k_m k) t v ->
              wire_size t = wire_size t' /\ numbers (dec (k_e k) (k_m k) t' (enc e m t v)) = numbers v).
    { intros v Hvp Hvq.
      assert (Hel : length (enc e m t v) = wire_size t) by (apply enc_length; apply Hvp).
      destruct (H v [] Hvp Hvq (Forall_nil _)) as (resp & v' & H1 & H2 & H3 & H4).
      rewrite insert_ok in H1 by auto. rewrite give_wires in H1. injection H1 as <-.
      cbn [app] in H2. rewrite app_nil_r in H2.
      unfold key_read in H2. rewrite Hk, read_tuple_ok in H2 by auto.
      assert (Ew : wire_sizes [t'] = wire_size t') by (cbn; lia). rewrite Ew in H2.
      destruct (Nat.lt_ge_cases (wire_size t) (wire_size t')) as [Hlt|Hge].
      { rewrite pull_short in H2 by (cbn [w_in]; lia). discriminate. }
      rewrite <- (firstn_skipn (wire_size t') (enc e m t v)) in H2.
      rewrite pull_wires in H2 by (apply firstn_length_le; lia). cbn [bind] in H2.
      apply bind_ok in H2. destruct H2 as (v'' & H2 & H5).
      assert (Es : skipn (wire_size t') (enc e m t v) = []) by congruence.
      apply (f_equal (@length Z)) in Es. rewrite skipn_length in Es. cbn [length] in Es.
      split; [lia|]. rewrite firstn_all2 in H2 by lia.
      apply (read_element_inv q (k_e k) (k_m k) [t'] _ 0 t') in H2; auto using enc_bytes; [|cbn; lia].
      rewrite slice_0_all in H2 by lia. congruence. }
    destruct (R (default_val t)) as [Sz _]; try (apply default_ok; apply Ht).
    apply (args_understood p q).
    + constructor; auto. apply Ht.
    + constructor; auto. apply Ht'.
    + cbn. lia.
    + intros args Ha Hb. inversion Ha as [|? v ? l Hv F]; subst. inversion F; subst.
      apply One in Hb. destruct (R v Hv Hb) as [_ E].
      cbn [enc_list dec_list flat_map]. rewrite !app_nil_r. rewrite firstn_all2; [auto|].
      rewrite enc_length by apply Hv. lia.
Qed.

(** [f(std::uint16_t (&)[2], bool)] called, [g(struct { std::uint16_t, std::uint16_t }, std::uint8_t)] run. *)
Definition ex_called : func (list (list val)) := recorder (mk_sig [TArr (TUns 2) 2; TBool] (Some (TSig 4))).
Definition ex_run : func (list (list val)) := recorder (mk_sig [TUser 4 [TUns 2; TUns 2]; TUns 1] None).
Definition ex_caller : keyring (list (list val)) := mk_keyring BIG OFFSET_BINARY [(0, ex_called)].
Definition ex_callee : keyring (list (list val)) := mk_keyring BIG TWOS_COMPLEMENT [(0, ex_run)].
Definition ex_called_key : key := mk_key 1 0 (f_sig ex_called) BIG OFFSET_BINARY.

Example C89_requests_example :
  keyring_ok pc_native ex_caller /\ keyring_ok avr_portable ex_callee
  /\ kr_get ex_caller 0 ex_called = Some ex_called_key
  /\ understood BIG OFFSET_BINARY BIG TWOS_COMPLEMENT (sig_params (f_sig ex_called)) (sig_params (f_sig ex_run))
  /\ key_write pc_native ex_called_key [VList [VInt 258; VInt 772]; VInt 1] give_wire (mk_wires [] [] tt)
     = Ok (mk_wires [] [0; 1; 2; 3; 4; 1]%Z tt)
  /\ dispatch avr_portable (make_dispatcher (lift_keyring ex_callee) ANY) take_wire give_wire
       (mk_wires [0; 1; 2; 3; 4; 1; 9]%Z [] [])
     = Ok (mk_wires [9]%Z [] [[VList [VInt 258; VInt 772]; VInt 1]], 0)
  /\ ~ understood BIG OFFSET_BINARY LITTLE OFFSET_BINARY (sig_params (f_sig ex_called)) (sig_params (f_sig ex_run))
  /\ ~ understood BIG OFFSET_BINARY BIG OFFSET_BINARY (sig_params (f_sig ex_run)) (sig_params (f_sig ex_called)).
Proof.
  assert (K : forall p e m s, (forall t, In t [TUns 2; TUns 1; TBool; TSig 4] -> ty_ok p e m t) ->
            In s [f_sig ex_called; f_sig ex_run] -> sig_ok p e m s).
  { intros p e m s H [<-|[<-|[]]]; split; cbn [f_sig ex_called ex_run recorder sig_params sig_ret ret_ty_ok].
    - constructor; [|constructor; auto].
      + apply ty_ok_arr. split; [apply H; cbn; auto|]. cbn. repeat split; auto; lia.
      + apply H. cbn. auto.
    - apply H. cbn. auto.
    - constructor; [|constructor; auto].
      + apply ty_ok_user. repeat constructor; apply H; cbn; auto.
      + apply H. cbn. auto.
    - exact I. }
  assert (T1 : forall t, In t [TUns 2; TUns 1; TBool; TSig 4] -> ty_ok pc_native BIG OFFSET_BINARY t).
  { intros t [<-|[<-|[<-|[<-|[]]]]]; (split; [cbn; auto; lia|split; [|exact I]]); try exact I; unfold host_ok, sig_host_ok; cbn; auto. }
  assert (T2 : forall t, In t [TUns 2; TUns 1; TBool; TSig 4] -> ty_ok avr_portable BIG TWOS_COMPLEMENT t).
  { intros t [<-|[<-|[<-|[<-|[]]]]]; (split; [cbn; auto; lia|split; [|exact I]]); try exact I; unfold host_ok, sig_host_ok; cbn; auto. }
  split; [split; [reflexivity|]; repeat constructor; apply K; cbn; auto|].
  split; [split; [reflexivity|]; repeat constructor; apply K; cbn; auto|].
  split; [vm_compute; reflexivity|]. split; [unfold understood; cbn; repeat constructor; auto|].
  split; [vm_compute; reflexivity|]. split; [vm_compute; reflexivity|].
  split; intros U; unfold understood in U; cbn in U.
  - inversion U as [|? ? ? ? X _]. destruct X as [_ [X|X]]; discriminate.
  - inversion U as [|? ? ? ? _ U1]. inversion U1 as [|? ? ? ? _ U2]. inversion U2 as [|? ? ? ? X _]. destruct X.
Qed.

(** Both keys write the same packet. *)
Example C89_same_packets_example :
  let k' := mk_key 1 0 (mk_sig [TUns 2; TUns 2; TBool] None) BIG OFFSET_BINARY in
  flat_map integers (sig_params (k_sig k')) = flat_map integers (sig_params (f_sig ex_called))
  /\ key_write pc_native ex_called_key [VList [VInt 258; VInt 772]; VInt 1] give_wire (mk_wires [] [] tt)
     = key_write pc_native k' [VInt 258; VInt 772; VInt 1] give_wire (mk_wires [] [] tt).
Proof. vm_compute. auto. Qed.

(** A [bool] response read as an [int8_t]: [true] is 1, except in offset binary. *)
Example C89_responses_example :
  understood LITTLE TWOS_COMPLEMENT BIG SIGNED_MAGNITUDE [TBool] [TSig 1]
  /\ insert pc_native LITTLE TWOS_COMPLEMENT give_wire TBool (VInt 1) (mk_wires [] [] tt) = Ok (mk_wires [] [1]%Z tt)
  /\ key_read avr_portable (mk_key 1 0 (mk_sig [] (Some (TSig 1))) BIG SIGNED_MAGNITUDE) take_wire
       (mk_wires [1; 7]%Z [] tt) = Ok (mk_wires [7]%Z [] tt, Some (VInt 1))
  /\ key_read avr_portable (mk_key 1 0 (mk_sig [] (Some (TSig 1))) BIG OFFSET_BINARY) take_wire
       (mk_wires [1; 7]%Z [] tt) = Ok (mk_wires [7]%Z [] tt, Some (VInt (-127))).
Proof.
  split; [|split; [|split]; vm_compute; reflexivity].
  unfold understood. cbn. repeat constructor. discriminate.
Qed.

Print Assumptions C89_same_packets.
Print Assumptions C89_requests.
Print Assumptions C89_responses.
