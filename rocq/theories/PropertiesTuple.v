(** Properties C13 to C23: tuples and views. *)

From Coq Require Import List ZArith Lia Bool Arith.
From Verif Require Import Base CInt Spec IntModel Conditions MemFacts TypeLevel Serial TupleModel
  TypeLevelProofs IntProofs SignedProofs SerialProofs CodecFacts Bounds TupleProofs Hosts Closed.
Import ListNotations.
Open Scope nat_scope.

Lemma tuple_elements_ok : forall p e m ts b, Forall (ty_ok p e m) ts -> elements_ok p (tuple_at e m ts b).
Proof.
  intros p e m ts b H. unfold elements_ok, tuple_at. cbn [v_types v_e v_m v_kind].
  eapply Forall_impl; [|exact H]. cbn. intros t Ht. split; auto. discriminate.
Qed.

(** The same tuple is used by most of the examples. *)
Definition ex_types : list ty := [TSig 2; TBool; TArr (TUns 2) 2; TUser 8 [TUns 1; TSig 4]].
Definition ex_values : list val :=
  [VInt (-2); VInt 1; VList [VInt 258; VInt 3]; VList [VInt 7; VInt (-1)]].
Definition ex_bytes : list Z := [128; 2; 1; 1; 2; 0; 3; 7; 128; 0; 0; 1]%Z.

Lemma ex_types_ok : forall p, p_endianess p = LITTLE -> Forall (ty_ok p BIG SIGNED_MAGNITUDE) ex_types.
Proof.
  intros p Hp. unfold ex_types. list_cases; unfold ty_ok; cbn; unfold sig_host_ok; intuition lia.
Qed.

Lemma ex_values_ok : Forall2 (encodable pc_native SIGNED_MAGNITUDE) ex_types ex_values.
Proof. encs. Qed.

(** ** C13 *)

Theorem C13_concatenation : forall p e m ts args storage,
  wf_platform p -> Forall (ty_ok p e m) ts -> Forall2 (encodable p m) ts args ->
  length storage = tuple_size ts ->
  tuple_size ts = list_sum (map wire_size ts)
  /\ exists storage',
       construct p e m ts args storage = Ok storage'
       /\ content (tuple_at e m ts 0) storage' = Ok (enc_list e m ts args).
Proof.
  intros p e m ts args storage Hp Hok Ha Hl.
  pose proof (tuple_elements_ok p e m ts 0 Hok) as Hv.
  pose proof (tuple_size_total p _ Hv) as Hs. cbn [tuple_at v_types] in Hs.
  split; auto. unfold construct. exists (enc_list e m ts args).
  assert (Hel : length (enc_list e m ts args) = tuple_size ts).
  { rewrite Hs. apply enc_list_length. eapply encodable_has; eauto. }
  pose proof (lay_all p (tuple_at e m ts 0) args storage Hp Hv) as L. cbn [tuple_at v_types v_begin v_e v_m] in L.
  rewrite L; auto.
  2:{ unfold in_bounds, total in *. cbn [tuple_at v_begin v_types] in *. lia. }
  rewrite splice_all by congruence. split; auto.
  rewrite content_eq. cbn [tuple_at v_begin v_types]. rewrite load_range_ok by lia.
  rewrite slice_0_all; auto.
Qed.

(** The encoding of a list of values is a concatenation. *)
Theorem C13_encoding_is_concatenation : forall e m ts vs, length ts = length vs ->
  enc_list e m ts vs = concat (map (fun tv => enc e m (fst tv) (snd tv)) (combine ts vs)).
Proof.
  intros e m. induction ts as [|t ts IH]; intros [|v vs] H; try discriminate; cbn; auto.
  f_equal. apply IH. auto.
Qed.

(** [operator[]] gives the bytes between [begin()] and [end()]. *)
Theorem C13_subscript : forall v mem bs i b,
  content v mem = Ok bs -> nth_error bs i = Some b -> byte_at v i mem = Ok b.
Proof.
  intros v mem bs i b H Hi. rewrite content_eq in H. unfold byte_at. revert H Hi. generalize (v_begin v) (tuple_size (v_types v)).
  intros off n. revert off bs i. induction n as [|n IH]; intros off bs i H Hi; cbn [load_range] in H.
  - injection H as <-. destruct i; discriminate.
  - destruct (load mem off) as [a|] eqn:E; cbn [bind] in H; [|discriminate].
    destruct (load_range mem (S off) n) as [l|] eqn:L; cbn [bind] in H; [|discriminate]. injection H as <-.
    destruct i as [|i]; cbn in Hi.
    + injection Hi as <-. rewrite Nat.add_0_r. exact E.
    + replace (off + S i) with (S off + i) by lia. apply (IH _ _ _ L Hi).
Qed.

Example C13_example :
  Forall (ty_ok pc_native BIG SIGNED_MAGNITUDE) ex_types
  /\ Forall2 (encodable pc_native SIGNED_MAGNITUDE) ex_types ex_values
  /\ construct pc_native BIG SIGNED_MAGNITUDE ex_types ex_values (repeat 99%Z 12) = Ok ex_bytes
  /\ content (tuple_at BIG SIGNED_MAGNITUDE ex_types 0) ex_bytes = Ok ex_bytes
  /\ byte_at (tuple_at BIG SIGNED_MAGNITUDE ex_types 0) 3 ex_bytes = Ok (nth 3 ex_bytes 0%Z).
Proof.
  split; [apply ex_types_ok; reflexivity|]. split; [apply ex_values_ok|]. vm_compute. repeat split.
Qed.

(** ** C14 *)

Theorem C14_get_constructed : forall p e m ts args storage,
  wf_platform p -> Forall (ty_ok p e m) ts -> Forall2 (encodable p m) ts args ->
  length storage = tuple_size ts ->
  exists storage', construct p e m ts args storage = Ok storage'
    /\ forall i x, nth_error args i = Some x -> get p (tuple_at e m ts 0) i storage' = Ok x.
Proof.
  intros p e m ts args storage Hp Hok Ha Hl.
  pose proof (tuple_elements_ok p e m ts 0 Hok) as Hv.
  destruct (C13_concatenation p e m ts args storage Hp Hok Ha Hl) as (Hs & st & Hc & Hcon).
  exists st. split; auto. intros i x Hx.
  assert (Hst : st = enc_list e m ts args).
  { unfold construct in Hc. pose proof (lay_all p (tuple_at e m ts 0) args storage Hp Hv) as L.
    cbn [tuple_at v_types v_begin v_e v_m] in L. rewrite L in Hc; auto.
    2:{ unfold in_bounds, total in *. cbn [tuple_at v_begin v_types] in *. lia. }
    rewrite splice_all in Hc; [congruence|].
    rewrite enc_list_length by (eapply encodable_has; eauto). lia. }
  assert (Hel : length st = list_sum (map wire_size ts)).
  { rewrite Hst. apply enc_list_length. eapply encodable_has; eauto. }
  apply (get_laid p (tuple_at e m ts 0) args); auto.
  - unfold in_bounds, total in *. cbn [tuple_at v_begin v_types] in *. lia.
  - rewrite Hst. apply enc_list_bytes.
  - cbn [tuple_at v_begin v_types v_e v_m]. rewrite slice_0_all; auto.
Qed.

Example C14_example : forall i x, nth_error ex_values i = Some x ->
  get pc_native (tuple_at BIG SIGNED_MAGNITUDE ex_types 0) i ex_bytes = Ok x.
Proof.
  intros [|[|[|[|[|i]]]]] x H; cbn in H; try discriminate; injection H as <-; vm_compute; reflexivity.
Qed.

(** ** C15, C16, C17: for tuples and views, over any memory *)

Theorem C15_set_get : forall p v i t x mem,
  wf_platform p -> elements_ok p v -> in_bounds v mem -> Forall is_byte mem ->
  nth_error (v_types v) i = Some t -> encodable p (v_m v) t x ->
  exists mem', set p v i x mem = Ok mem' /\ get p v i mem' = Ok x.
Proof.
  intros p v i t x mem Hp Hv Hb Hm Hi Hx.
  rewrite (set_ok p v i t) by auto. eexists. split; eauto.
  pose proof (pos_bound v i t mem Hb Hi) as Hpos.
  assert (Hel : length (enc (v_e v) (v_m v) t x) = wire_size t) by (apply enc_length; apply Hx).
  apply (get_holds p v i t); auto.
  - unfold in_bounds. rewrite splice_length by lia. auto.
  - apply Forall_splice; auto. apply enc_bytes.
  - rewrite <- Hel. apply slice_splice_same. lia.
Qed.

Theorem C16_set_frame : forall p v i t x mem mem',
  wf_platform p -> elements_ok p v -> in_bounds v mem ->
  nth_error (v_types v) i = Some t -> encodable p (v_m v) t x ->
  set p v i x mem = Ok mem' ->
  (* same outcome of the other elements, be it a value or a fault *)
  (forall j, j <> i -> get p v j mem' = get p v j mem)
  (* no other byte changes *)
  /\ length mem' = length mem
  /\ (let o := v_begin v + list_sum (map wire_size (firstn i (v_types v))) in
      forall a, a < o \/ o + wire_size t <= a -> nth_error mem' a = nth_error mem a).
Proof.
  intros p v i t x mem mem' Hp Hv Hb Hi Hx Hs.
  rewrite (set_ok p v i t) in Hs by auto. injection Hs as <-.
  pose proof (pos_bound v i t mem Hb Hi) as Hpos.
  assert (Hel : length (enc (v_e v) (v_m v) t x) = wire_size t) by (apply enc_length; apply Hx).
  split; [|split].
  - intros j Hj. destruct (nth_error (v_types v) j) as [u|] eqn:Hu.
    + apply (get_local p v j u); auto. apply agree_splice_outside; [lia|].
      destruct (pos_disjoint v i j t u Hi Hu ltac:(auto)); lia.
    + unfold get. rewrite at17_nth_error, Hu. reflexivity.
  - apply splice_length. lia.
  - intros o a Ha. change o with (pos v i) in Ha. rewrite nth_error_splice by lia.
    destruct (Nat.ltb_spec a (pos v i)); auto.
    destruct (Nat.ltb_spec a (pos v i + length (enc (v_e v) (v_m v) t x))); auto. lia.
Qed.

Theorem C17_last_writer_wins : forall p v i t x y mem,
  wf_platform p -> elements_ok p v -> in_bounds v mem ->
  nth_error (v_types v) i = Some t -> encodable p (v_m v) t x -> encodable p (v_m v) t y ->
  (mem' <- set p v i x mem;; set p v i y mem') = set p v i y mem.
Proof.
  intros p v i t x y mem Hp Hv Hb Hi Hx Hy.
  pose proof (pos_bound v i t mem Hb Hi) as Hpos.
  pose proof (enc_length (v_e v) (v_m v) t x (proj1 Hx)).
  pose proof (enc_length (v_e v) (v_m v) t y (proj1 Hy)).
  rewrite !(set_ok p v i t) by auto. cbn [bind]. rewrite (set_ok p v i t); auto.
  - f_equal. apply splice_splice_same; lia.
  - unfold in_bounds. rewrite splice_length by lia. auto.
Qed.

Theorem C17_commute : forall p v i j t u x y mem,
  wf_platform p -> elements_ok p v -> in_bounds v mem -> i <> j ->
  nth_error (v_types v) i = Some t -> nth_error (v_types v) j = Some u ->
  encodable p (v_m v) t x -> encodable p (v_m v) u y ->
  (mem' <- set p v i x mem;; set p v j y mem') = (mem' <- set p v j y mem;; set p v i x mem').
Proof.
  intros p v i j t u x y mem Hp Hv Hb Hne Hi Hj Hx Hy.
  pose proof (pos_bound v i t mem Hb Hi) as Hpi. pose proof (pos_bound v j u mem Hb Hj) as Hpj.
  pose proof (enc_length (v_e v) (v_m v) t x (proj1 Hx)).
  pose proof (enc_length (v_e v) (v_m v) u y (proj1 Hy)).
  rewrite (set_ok p v i t), (set_ok p v j u) by auto. cbn [bind].
  rewrite (set_ok p v j u), (set_ok p v i t); auto.
  - f_equal. destruct (pos_disjoint v i j t u Hi Hj Hne); apply splice_splice_comm; lia.
  - unfold in_bounds. rewrite splice_length by lia. auto.
  - unfold in_bounds. rewrite splice_length by lia. auto.
Qed.

(** A client program: a sequence of sets. *)
Fixpoint set_all (p : platform) (v : view) (ops : list (nat * val)) (mem : list Z) : res (list Z) :=
  match ops with
  | [] => Ok mem
  | (i, x) :: ops' => mem' <- set p v i x mem;; set_all p v ops' mem'
  end.

(** The last value given to element [i]. *)
Fixpoint last_set (i : nat) (ops : list (nat * val)) : option val :=
  match ops with
  | [] => None
  | (j, x) :: ops' =>
      match last_set i ops' with
      | Some y => Some y
      | None => if j =? i then Some x else None
      end
  end.

Theorem C17_histories : forall p v ops mem,
  wf_platform p -> elements_ok p v -> in_bounds v mem -> Forall is_byte mem ->
  Forall (fun op => exists t, nth_error (v_types v) (fst op) = Some t /\ encodable p (v_m v) t (snd op)) ops ->
  exists mem', set_all p v ops mem = Ok mem'
    /\ length mem' = length mem
    /\ (forall a, a < v_begin v \/ v_begin v + list_sum (map wire_size (v_types v)) <= a ->
          nth_error mem' a = nth_error mem a)
    /\ forall i, get p v i mem' = match last_set i ops with
                                  | Some x => Ok x
                                  | None => get p v i mem
                                  end.
Proof.
  intros p v ops mem Hp Hv Hb Hm Hops. revert mem Hb Hm.
  induction Hops as [|[j x] ops (t & Hj & Hx) Hops IH]; intros mem Hb Hm; cbn [set_all last_set].
  - exists mem. auto.
  - cbn [fst snd] in Hj, Hx.
    destruct (C15_set_get p v j t x mem Hp Hv Hb Hm Hj Hx) as (m1 & Hs & Hg).
    destruct (C16_set_frame p v j t x mem m1 Hp Hv Hb Hj Hx Hs) as (F1 & F2 & F3).
    rewrite Hs. cbn [bind].
    assert (Hb1 : in_bounds v m1) by (unfold in_bounds; rewrite F2; exact Hb).
    assert (Hm1 : Forall is_byte m1).
    { rewrite (set_ok p v j t) in Hs by auto. injection Hs as <-. apply Forall_splice; auto. apply enc_bytes. }
    destruct (IH m1 Hb1 Hm1) as (m2 & Hs2 & L2 & A2 & G2).
    exists m2. split; auto. split; [congruence|]. split.
    + intros a Ha. rewrite A2 by auto. apply F3. fold (offset_of (v_types v) j).
      pose proof (offset_of_S _ _ _ Hj). pose proof (offset_of_le (v_types v) (S j)). lia.
    + intros i. rewrite G2. destruct (last_set i ops) as [y|]; auto.
      destruct (Nat.eqb_spec j i) as [->|Hne]; auto.
Qed.

Example C15_C16_C17_example :
  let v := mk_view Iterator LITTLE TWOS_COMPLEMENT [TSig 2; TUns 1; TSig 4] 3 in
  elements_ok pc_portable v /\ in_bounds v (repeat 9%Z 12)
  /\ set_all pc_portable v [(0, VInt (-2)); (2, VInt 5); (0, VInt 1)] (repeat 9%Z 12)
     = Ok [9; 9; 9; 1; 0; 9; 5; 0; 0; 0; 9; 9]%Z
  /\ last_set 0 [(0, VInt (-2)); (2, VInt 5); (0, VInt 1)] = Some (VInt 1).
Proof.
  cbn zeta. split; [|split; [unfold in_bounds; cbn; lia|vm_compute; auto]].
  repeat constructor; cbn; auto; try lia; right; left; reflexivity.
Qed.

(** ** C18 *)

(** Every integer inside of a value is zero. *)
Fixpoint all_zero (v : val) : Prop :=
  match v with
  | VInt z => z = 0%Z
  | VList vs => fold_right (fun x acc => all_zero x /\ acc) True vs
  end.

Lemma default_ok : forall p m t, wf_ty t -> encodable p m t (default_val t) /\ all_zero (default_val t).
Proof.
  intros p m. induction t using ty_ind_nested; intros Hwf; cbn [default_val all_zero].
  - split; auto. split; cbn; auto.
  - split; auto. split; cbn [has_type all_signed]; auto. pose proof (space_pos w). lia.
  - cbn [wf_ty] in Hwf. pose proof (half_pos w ltac:(lia)). split; auto. split; cbn [has_type all_signed]; try lia.
    left. lia.
  - destruct (IHt (proj2 (proj2 Hwf))) as [H1 H2]. split.
    + apply encodable_arr. rewrite repeat_length. split; auto. apply Forall_forall. intros x Hx.
      apply repeat_spec in Hx. subst. auto.
    + clear Hwf H1 IHt; induction n as [|n IH]; cbn; auto.
  - apply (wf_ty_user s) in Hwf. split.
    + apply encodable_user. induction H; cbn [map]; constructor; inversion Hwf; subst; auto. apply H; auto.
    + induction H; cbn [map fold_right]; auto. inversion Hwf; subst. split; auto. apply H; auto.
Qed.

Theorem C18_default_zero : forall p e m ts storage,
  wf_platform p -> Forall (ty_ok p e m) ts -> length storage = tuple_size ts ->
  exists storage', default_construct p e m ts storage = Ok storage'
    /\ forall i t, nth_error ts i = Some t ->
         exists x, get p (tuple_at e m ts 0) i storage' = Ok x /\ has_type t x /\ all_zero x.
Proof.
  intros p e m ts storage Hp Hok Hl.
  assert (Ha : Forall2 (encodable p m) ts (map default_val ts)).
  { clear Hl. induction Hok; cbn [map]; constructor; auto. apply default_ok. apply H. }
  destruct (C14_get_constructed p e m ts (map default_val ts) storage Hp Hok Ha Hl) as (st & Hc & Hg).
  exists st. split; auto. intros i t Hi. exists (default_val t).
  assert (Hwf : wf_ty t) by (rewrite Forall_forall in Hok; apply Hok; eapply nth_error_In; eauto).
  destruct (default_ok p m t Hwf) as [[D1 _] D2].
  split; [|split; auto]. apply Hg. rewrite nth_error_map, Hi. reflexivity.
Qed.

(** Zero is not a null pattern in offset binary. *)
Example C18_example :
  Forall (ty_ok pc_native LITTLE OFFSET_BINARY) [TSig 2; TUns 1]
  /\ default_construct pc_native LITTLE OFFSET_BINARY [TSig 2; TUns 1] [9; 9; 9]%Z = Ok [0; 128; 0]%Z
  /\ get pc_native (tuple_at LITTLE OFFSET_BINARY [TSig 2; TUns 1] 0) 0 [0; 128; 0]%Z = Ok (VInt 0).
Proof.
  split; [|vm_compute; auto]. repeat constructor; cbn; auto; try lia; right; left; reflexivity.
Qed.

(** ** C19 *)

(** The functor is called once, on the values of the elements in order, and
    its result and effects on the world are those of [invoke]. *)
Theorem C19_invoke : forall (X A : Type) p v (f : list val -> X -> X * A) mem x r,
  invoke p v f mem x = Ok r <->
  exists args, length args = length (v_types v)
    /\ (forall i a, nth_error args i = Some a -> get p v i mem = Ok a)
    /\ r = f args x.
Proof.
  intros X A p v f mem x r. unfold invoke. split.
  - intros H. apply bind_ok in H. destruct H as (args & Ha & H). exists args.
    apply get_each_spec in Ha. unfold make_index_sequence14 in Ha.
    pose proof (Forall2_length Ha) as Hl. rewrite seq_length in Hl.
    split; [auto|]. split; [|congruence].
    intros i a Hi. destruct (nth_error (seq 0 (length (v_types v))) i) as [j|] eqn:Hj.
    + pose proof (seq_nth_error _ _ _ _ Hj) as [E _]. cbn in E. subst j.
      apply (Forall2_nth2 _ _ _ _ _ i i a Ha Hj Hi).
    + apply nth_error_None in Hj. rewrite seq_length in Hj.
      assert (i < length args) by (apply nth_error_Some; congruence). lia.
  - intros (args & Hl & Hg & ->). rewrite (get_each_all p v mem args); auto.
Qed.

Example C19_example :
  invoke pc_native (tuple_at BIG SIGNED_MAGNITUDE ex_types 0)
    (fun args calls => (args :: calls, length args)) ex_bytes []
  = Ok ([ex_values], 4).
Proof. vm_compute. reflexivity. Qed.

(** ** C20 *)

Theorem C20_sub_view : forall p e m ts b I L mem,
  Forall (ty_ok p e m) ts -> ts <> [] -> I + L <= length ts ->
  b + list_sum (map wire_size ts) <= length mem ->
  exists w, sub_view (tuple_at e m ts b) I L = Some w
    /\ content w mem = Ok (slice mem (b + list_sum (map wire_size (firstn I ts)))
                                     (list_sum (map wire_size (firstn L (skipn I ts)))))
    /\ (forall J, J < L -> get p w J mem = get p (tuple_at e m ts b) (I + J) mem)
    /\ (forall J x, J < L -> set p w J x mem = set p (tuple_at e m ts b) (I + J) x mem)
    /\ (forall J, L <= J -> get p w J mem = Fault TypeMismatch).
Proof.
  intros p e m ts b I L mem Hok Hne HIL Hb.
  pose proof (tuple_elements_ok p e m ts b Hok) as Hv.
  pose proof (elements_layout p _ Hv) as Hlay. cbn [tuple_at v_types] in Hlay.
  unfold sub_view. cbn [tuple_at v_types v_e v_m v_begin].
  rewrite clip17_ok by (rewrite map_length; lia). rewrite clip17_ok by lia.
  eexists. split; [destruct ts; [congruence|reflexivity]|].
  cbn [skipn]. rewrite sum17_list_sum, map_serialization_size, firstn_map by auto.
  fold (offset_of ts I).
  set (w := mk_view Pointer e m (firstn L (skipn I ts)) (b + offset_of ts I)).
  assert (Hw : elements_ok p w).
  { unfold elements_ok, w. cbn. apply Forall_forall. intros t Ht.
    assert (In t ts).
    { rewrite <- (firstn_skipn I ts). apply in_or_app. right.
      rewrite <- (firstn_skipn L (skipn I ts)). apply in_or_app. left. auto. }
    rewrite Forall_forall in Hok. split; [auto|discriminate]. }
  assert (Htl : length (firstn L (skipn I ts)) = L) by (rewrite firstn_length, skipn_length; lia).
  assert (Hn : forall J, J < L -> nth_error (firstn L (skipn I ts)) J = nth_error ts (I + J)).
  { intros J HJ. rewrite nth_error_firstn, nth_error_skipn. destruct (Nat.ltb_spec J L); [auto|lia]. }
  assert (Hpos : forall J, J < L -> pos w J = pos (tuple_at e m ts b) (I + J)).
  { intros J HJ. unfold pos, w. cbn [tuple_at v_begin v_types].
    assert (O : offset_of ts (I + J) = offset_of ts I + offset_of (firstn L (skipn I ts)) J).
    { unfold offset_of. rewrite <- list_sum_app, <- map_app. f_equal. f_equal.
      rewrite firstn_firstn. replace (Nat.min J L) with J by lia.
      clear. revert I. induction ts as [|t ts IH]; intros [|I]; cbn; auto.
      - destruct J; reflexivity.
      - f_equal. apply IH. }
    lia. }
  split; [|split; [|split]].
  - rewrite content_eq. rewrite (tuple_size_total p w Hw). unfold total, w. cbn [v_begin v_types].
    rewrite load_range_ok; auto.
    pose proof (offset_total ts I) as T1. pose proof (offset_total (skipn I ts) L) as T2.
    unfold total, offset_of in *. lia.
  - intros J HJ. destruct (nth_error ts (I + J)) as [t|] eqn:Ht.
    + assert (Hwt : nth_error (v_types w) J = Some t) by (cbn [w v_types]; rewrite Hn; auto).
      rewrite (get_eq p w J t), (get_eq p (tuple_at e m ts b) (I + J) t) by auto.
      rewrite Hpos by auto. reflexivity.
    + apply nth_error_None in Ht. lia.
  - intros J x HJ. destruct (nth_error ts (I + J)) as [t|] eqn:Ht.
    + assert (Hwt : nth_error (v_types w) J = Some t) by (cbn [w v_types]; rewrite Hn; auto).
      rewrite (set_eq p w J t), (set_eq p (tuple_at e m ts b) (I + J) t) by auto.
      rewrite Hpos by auto. reflexivity.
    + apply nth_error_None in Ht. lia.
  - intros J HJ. unfold get, w. cbn [v_types]. rewrite at17_nth_error.
    assert (E : nth_error (firstn L (skipn I ts)) J = None) by (apply nth_error_None; lia).
    rewrite E. reflexivity.
Qed.

(** The ranges which are accepted at compile time are those within the tuple, which
    must have elements: [tuple<E, S>] has no member [view]. *)
Theorem C20_range_checked : forall e m ts b I L,
  sub_view (tuple_at e m ts b) I L <> None <-> ts <> [] /\ I + L <= length ts.
Proof.
  intros e m ts b I L. unfold sub_view. cbn [tuple_at v_types]. destruct ts as [|t ts]; [intuition congruence|].
  destruct (Nat.le_gt_cases (I + L) (length (t :: ts))) as [H|H].
  - rewrite clip17_ok by (rewrite map_length; lia). rewrite clip17_ok by lia. split; [split; [discriminate|auto]|discriminate].
  - split; [|lia]. intros N. exfalso. apply N. destruct L as [|L].
    + replace (clip17 (map serialization_size (t :: ts)) 0 I) with (@None (list nat)); [reflexivity|].
      symmetry. unfold clip17, make_index_sequence14. apply clip17_seq_none; rewrite ?map_length; lia.
    + replace (clip17 (t :: ts) I (S L)) with (@None (list ty)).
      { destruct (clip17 _ 0 I); reflexivity. }
      symmetry. unfold clip17, make_index_sequence14. apply clip17_seq_none; lia.
Qed.

Example C20_example :
  exists w, sub_view (tuple_at BIG SIGNED_MAGNITUDE ex_types 0) 1 2 = Some w
    /\ content w ex_bytes = Ok [1; 1; 2; 0; 3]%Z
    /\ get pc_native w 1 ex_bytes = Ok (VList [VInt 258; VInt 3]).
Proof. eexists. split; [reflexivity|]. vm_compute. auto. Qed.

(** ** C21 *)

(** A [tuple<E, S>]. *)
Definition tuple_without_elements (o : object) : Prop := exists v, o = Tuple v /\ v_types v = [].

Lemma template_assignment : forall o, ~ tuple_without_elements o <-> has_template_assignment o = true.
Proof.
  intros [v|v]; cbn.
  - destruct (v_types v) as [|t ts] eqn:E.
    + split; [|discriminate]. intros H. exfalso. apply H. exists v. auto.
    + split; [reflexivity|]. intros _ (w & Hw & Hn). injection Hw as <-. congruence.
  - split; [reflexivity|]. intros _ (w & Hw & _). discriminate.
Qed.

(** Assigning a temporary of another type: whatever the formats, and wherever
    the two objects are in memory. *)
Theorem C21_conversion_partial : forall p dst src xs mem,
  wf_platform p ->
  let d := object_view dst in let s := object_view src in
  v_types d = v_types s -> ~ same_type dst src -> ~ tuple_without_elements dst ->
  elements_ok p d -> in_bounds d mem -> Forall is_byte mem ->
  (* [xs]: the values held by [src] before *)
  length xs = length (v_types s) -> (forall i x, nth_error xs i = Some x -> get p s i mem = Ok x) ->
  Forall2 (encodable p (v_m d)) (v_types d) xs ->
  exists mem', assign p Temporary dst src mem = Some (Ok (dst, mem'))
    /\ (forall i x, nth_error xs i = Some x -> get p d i mem' = Ok x)
    /\ mem' = splice mem (v_begin d) (enc_list (v_e d) (v_m d) (v_types d) xs).
Proof.
  intros p dst src xs mem Hp d s Hts Hty Hne Hd Hb Hm Hl Hg Hx. unfold assign. rewrite same_type_false by exact Hty.
  apply template_assignment in Hne. rewrite Hne.
  fold d s. unfold lay_tuple. rewrite Hts. rewrite (get_each_all p s mem xs) by auto. cbn [bind].
  rewrite <- Hts. rewrite lay_all by auto. cbn [bind]. eexists. split; [reflexivity|]. split; auto.
  assert (Hel : length (enc_list (v_e d) (v_m d) (v_types d) xs) = total (v_types d)).
  { apply enc_list_length. eapply encodable_has; eauto. }
  intros i x Hi. apply (get_laid p d xs); auto.
  - unfold in_bounds in *. rewrite splice_length by lia. auto.
  - apply Forall_splice; auto. apply enc_list_bytes.
  - rewrite <- Hel. apply slice_splice_same. unfold in_bounds in Hb. lia.
Qed.

(** Tuples of the same type: the storage is copied, however the right-hand side
    is written. *)
Theorem C21_same_tuple_partial : forall p c e m ts b b' mem,
  Forall (ty_ok p e m) ts ->
  b + list_sum (map wire_size ts) <= length mem -> b' + list_sum (map wire_size ts) <= length mem ->
  exists mem', assign p c (Tuple (tuple_at e m ts b)) (Tuple (tuple_at e m ts b')) mem
               = Some (Ok (Tuple (tuple_at e m ts b), mem'))
    /\ (forall i, get p (tuple_at e m ts b) i mem' = get p (tuple_at e m ts b') i mem).
Proof.
  intros p c e m ts b b' mem Hok Hb Hb'. unfold assign.
  assert (Hty : same_object_type (Tuple (tuple_at e m ts b)) (Tuple (tuple_at e m ts b')) = true).
  { cbn. destruct e, m; cbn; apply tys_eqb_eq; reflexivity. }
  rewrite Hty. cbn [object_view tuple_at v_begin v_types].
  pose proof (tuple_elements_ok p e m ts b Hok) as Hv. pose proof (tuple_elements_ok p e m ts b' Hok) as Hv'.
  pose proof (tuple_size_total p _ Hv) as Hs. cbn [tuple_at v_types] in Hs. rewrite Hs. unfold total.
  rewrite load_range_ok by auto. cbn [bind].
  set (n := list_sum (map wire_size ts)) in *.
  assert (Hsl : length (slice mem b' n) = n) by (apply slice_length; auto).
  rewrite store_range_ok by lia. cbn [bind]. eexists. split; [reflexivity|].
  intros i. destruct (nth_error ts i) as [t|] eqn:Ht.
  - rewrite (get_eq p (tuple_at e m ts b) i t), (get_eq p (tuple_at e m ts b') i t) by auto.
    cbn [tuple_at v_kind read_at v_e v_m].
    pose proof (offset_of_S _ _ _ Ht) as O1. pose proof (offset_of_le ts (S i)) as O2. fold n in O2.
    assert (Hlay : layout_ok t).
    { rewrite Forall_forall in Hok. apply Hok. eapply nth_error_In; eauto. }
    unfold pos. cbn [tuple_at v_begin v_types].
    rewrite <- (read_as_shift p e m t (splice mem b (slice mem b' n))); auto.
    2:{ rewrite splice_length; lia. }
    rewrite <- (read_as_shift p e m t mem (b' + offset_of ts i)); auto; [|lia].
    f_equal. rewrite slice_splice_inside by lia. rewrite slice_slice by lia. f_equal. lia.
  - unfold get. cbn [tuple_at v_types]. rewrite at17_nth_error, Ht. reflexivity.
Qed.

(** Refuted: a view assigned from a view of the same type is bound to the other
    sequence instead of receiving the values. *)
Theorem C21_view_rebound_refuted : forall p c k e m ts b b' mem,
  assign p c (View (mk_view k e m ts b)) (View (mk_view k e m ts b')) mem
  = Some (Ok (View (mk_view k e m ts b'), mem)).
Proof.
  intros. unfold assign.
  assert (Hty : same_object_type (View (mk_view k e m ts b)) (View (mk_view k e m ts b')) = true).
  { cbn. destruct k, e, m; cbn; apply tys_eqb_eq; reflexivity. }
  rewrite Hty. reflexivity.
Qed.

(** Refuted: there is no assignment from a variable or a constant of another
    type. *)
Theorem C21_variable_rejected_refuted : forall p dst src mem, ~ same_type dst src ->
  assign p Variable_ dst src mem = None /\ assign p Constant dst src mem = None.
Proof. intros p dst src mem H. unfold assign. rewrite same_type_false by exact H. auto. Qed.

(** Refuted: a tuple without elements, which has no content to change, cannot be
    assigned from anything of another type, whatever its format. *)
Theorem C21_no_elements_refuted : forall p c dst src mem, ~ same_type dst src -> tuple_without_elements dst ->
  assign p c dst src mem = None.
Proof.
  intros p c dst src mem H (v & -> & Hv). unfold assign. rewrite same_type_false by exact H.
  destruct c; auto. cbn [has_template_assignment]. rewrite Hv. reflexivity.
Qed.

Example C21_no_elements_example :
  let dst := Tuple (tuple_at BIG TWOS_COMPLEMENT [] 0) in
  let src := Tuple (tuple_at LITTLE TWOS_COMPLEMENT [] 1) in
  ~ same_type dst src /\ tuple_without_elements dst
  /\ assign pc_native Temporary dst src [7; 5]%Z = None
  /\ assign pc_native Temporary (View (object_view dst)) src [7; 5]%Z = Some (Ok (View (object_view dst), [7; 5]%Z)).
Proof.
  cbn zeta. split; [intros H; apply same_type_iff in H; discriminate H|].
  split; [eexists; split; reflexivity|]. split; vm_compute; reflexivity.
Qed.

Theorem C21_refuted : exists p dst src mem,
  wf_platform p /\ v_types (object_view dst) = v_types (object_view src)
  /\ elements_ok p (object_view dst) /\ in_bounds (object_view dst) mem /\ in_bounds (object_view src) mem
  /\ get p (object_view src) 0 mem = Ok (VInt 5)
  /\ exists dst' mem', assign p Temporary dst src mem = Some (Ok (dst', mem'))
       /\ get p (object_view dst) 0 mem' = Ok (VInt 7).
Proof.
  exists pc_native, (View (mk_view Pointer LITTLE TWOS_COMPLEMENT [TUns 1] 0)),
    (View (mk_view Pointer LITTLE TWOS_COMPLEMENT [TUns 1] 1)), [7; 5]%Z.
  split; [apply pc_native_wf|]. split; [reflexivity|].
  split; [repeat constructor; cbn; try lia; discriminate|].
  split; [unfold in_bounds; cbn; lia|]. split; [unfold in_bounds; cbn; lia|].
  split; [vm_compute; reflexivity|]. eexists. eexists. split; vm_compute; reflexivity.
Qed.

(** Conversion with overlap: the source is a view of the destination's own
    storage, one byte further. *)
Example C21_example :
  let dst := Tuple (tuple_at BIG TWOS_COMPLEMENT [TUns 2; TUns 1] 0) in
  let src := View (mk_view Pointer LITTLE TWOS_COMPLEMENT [TUns 2; TUns 1] 1) in
  ~ same_type dst src
  /\ elements_ok pc_native (object_view dst) /\ in_bounds (object_view dst) [9; 1; 2; 3]%Z
  /\ (forall i x, nth_error [VInt 513; VInt 3] i = Some x ->
        get pc_native (object_view src) i [9; 1; 2; 3]%Z = Ok x)
  /\ assign pc_native Temporary dst src [9; 1; 2; 3]%Z = Some (Ok (dst, [2; 1; 3; 3]%Z)).
Proof.
  cbn zeta. split; [intros H; apply same_type_iff in H; discriminate H|].
  split; [repeat constructor; cbn; try lia; discriminate|].
  split; [unfold in_bounds; cbn; lia|]. split; [|vm_compute; reflexivity].
  intros [|[|[|i]]] x H; cbn in H; try discriminate; injection H as <-; vm_compute; reflexivity.
Qed.

(** ** C22 *)

(** Elements whose [sizeof] is the size of the encoding. *)
Theorem C22_views_partial : forall p e m ts b mem,
  wf_platform p -> Forall (ty_ok p e m) ts -> Forall (fun t => sizeof t = wire_size t) ts ->
  b + list_sum (map wire_size ts) <= length mem ->
  let v k := mk_view k e m ts b in
  (forall i, get p (v Iterator) i mem = get p (v Pointer) i mem)
  /\ (forall i t x, nth_error ts i = Some t -> encodable p m t x ->
        set p (v Iterator) i x mem = set p (v Pointer) i x mem).
Proof.
  intros p e m ts b mem Hp Hok Hsz Hb v.
  assert (Hv : forall k, elements_ok p (v k)).
  { intros k. unfold elements_ok, v. cbn. rewrite Forall_forall in *. intros t Ht. auto. }
  split.
  - intros i. destruct (nth_error ts i) as [t|] eqn:Ht.
    + rewrite (get_eq p (v Iterator) i t), (get_eq p (v Pointer) i t) by auto.
      unfold v at 1 2 3. cbn [v_kind v_e v_m read_at]. change (pos (v Iterator) i) with (pos (v Pointer) i).
      assert (Hin : In t ts) by (eapply nth_error_In; eauto). rewrite Forall_forall in Hsz, Hok.
      rewrite (Hsz t Hin).
      pose proof (pos_bound (v Pointer) i t mem Hb Ht) as Hpos.
      rewrite load_range_ok by auto. cbn [bind]. apply read_as_shift; auto. apply Hok. auto.
    + unfold get, v. cbn [v_types]. rewrite at17_nth_error, Ht. reflexivity.
  - intros i t x Ht Hx. rewrite (set_ok p (v Iterator) i t), (set_ok p (v Pointer) i t) by auto. reflexivity.
Qed.

(** The condition is exact, for writing ... *)
Theorem C22_write_characterisation_partial : forall p e m t x,
  wf_platform p -> ty_ok p e m t -> encodable p m t x -> 0 < wire_size t ->
  (forall mem off, off + wire_size t <= length mem ->
     write_at p e m Iterator t x mem off = write_at p e m Pointer t x mem off)
  <-> sizeof t = wire_size t.
Proof.
  intros p e m t x Hp Hok Hx H0.
  assert (Hel : length (enc e m t x) = wire_size t) by (apply enc_length; apply Hx).
  split.
  - intros H. specialize (H (repeat 0%Z (wire_size t)) 0). rewrite repeat_length in H.
    specialize (H ltac:(lia)). cbn [write_at] in H.
    rewrite (write_as_ok p e m Hp t x (repeat 0%Z (wire_size t)) 0) in H by (auto; rewrite repeat_length; lia).
    apply bind_ok in H. destruct H as (buf & Hw & Hs).
    apply write_as_inv in Hw; try apply Hok. rewrite indet_bytes_length in Hw.
    apply store_range_inv in Hs. rewrite repeat_length in Hs. lia.
  - intros Hsz mem off Hl. cbn [write_at]. rewrite Hsz.
    rewrite write_as_ok by (auto; rewrite indet_bytes_length; auto). cbn [bind].
    rewrite splice_all by (rewrite indet_bytes_length; auto).
    rewrite store_range_ok by lia. symmetry. apply write_as_ok; auto.
Qed.

(** ... and for reading. *)
Theorem C22_read_characterisation_partial : forall p e m t x,
  wf_platform p -> ty_ok p e m t -> encodable p m t x -> 0 < wire_size t ->
  (forall mem off, Forall is_byte mem -> off + wire_size t <= length mem ->
     read_at p e m Iterator t mem off = read_at p e m Pointer t mem off)
  <-> sizeof t = wire_size t.
Proof.
  intros p e m t x Hp Hok Hx H0.
  assert (Hel : length (enc e m t x) = wire_size t) by (apply enc_length; apply Hx).
  split.
  - intros H. specialize (H (enc e m t x) 0 (enc_bytes e m t x) ltac:(lia)). cbn [read_at] in H.
    assert (R : read_as p e m t (enc e m t x) 0 = Ok x).
    { rewrite read_as_ok; auto.
      - rewrite slice_0_all by auto. f_equal. apply (dec_enc p); auto. apply Hok.
      - apply enc_bytes.
      - lia.
      - rewrite slice_0_all by auto. apply encodable_decodable; auto. apply Hok. }
    rewrite R in H. apply bind_ok in H. destruct H as (buf & Hb & Hr).
    pose proof (load_range_inv _ _ _ _ Hb) as B1.
    assert (Hbl : length buf = sizeof t).
    { destruct B1 as [B1|B1].
      - rewrite B1 in Hb. cbn in Hb. assert (buf = []) by congruence. subst. auto.
      - rewrite load_range_ok in Hb by auto. assert (buf = slice (enc e m t x) 0 (sizeof t)) by congruence.
        subst. apply slice_length. auto. }
    apply read_as_inv in Hr; try apply Hok. lia.
  - intros Hsz mem off Hm Hl. cbn [read_at]. rewrite Hsz. rewrite load_range_ok by auto. cbn [bind].
    apply read_as_shift; auto. apply Hok.
Qed.

(** A type of 6 bytes encoded over 5: the byte after the element is lost. *)
Theorem C22_refuted : exists p e m t x mem,
  wf_platform p /\ ty_ok p e m t /\ encodable p m t x
  /\ write_at p e m Pointer t x mem 0 = Ok [1; 2; 0; 3; 0; 77; 88]%Z
  /\ write_at p e m Iterator t x mem 0 = Ok [1; 2; 0; 3; 0; p_indet p 5; 88]%Z.
Proof.
  exists pc_native, LITTLE, TWOS_COMPLEMENT, (TUser 6 [TUns 1; TUns 2; TUns 2]),
    (VList [VInt 1; VInt 2; VInt 3]), [11; 22; 33; 44; 55; 77; 88]%Z.
  split; [apply pc_native_wf|]. split; [unfold ty_ok; cbn; intuition lia|].
  split; [split; range|]. split; vm_compute; reflexivity.
Qed.

Example C22_example :
  Forall (fun t => sizeof t = wire_size t) [TSig 4; TArr (TUns 2) 3; TUser 4 [TUns 2; TSig 2]]
  /\ Forall (ty_ok pc_native LITTLE TWOS_COMPLEMENT) [TSig 4; TArr (TUns 2) 3; TUser 4 [TUns 2; TSig 2]].
Proof.
  split; repeat constructor; cbn; auto; try lia; right; left; reflexivity.
Qed.

(** ** C23 *)

Theorem C23_byte_copy : forall (X : Type) p e m ts b b' mem_s mem_d (src : X -> res (X * Z)) bs x x',
  Forall (ty_ok p e m) ts ->
  b + list_sum (map wire_size ts) <= length mem_s -> b' + list_sum (map wire_size ts) <= length mem_d ->
  content (tuple_at e m ts b) mem_s = Ok bs -> yields src x bs x' ->
  exists mem', fill_tuple src (tuple_at e m ts b') x mem_d = Ok (x', mem')
    /\ (forall i, get p (tuple_at e m ts b') i mem' = get p (tuple_at e m ts b) i mem_s).
Proof.
  intros X p e m ts b b' ms md src bs x x' Hok Hb Hb' Hc Hy.
  pose proof (tuple_elements_ok p e m ts b Hok) as Hv. pose proof (tuple_elements_ok p e m ts b' Hok) as Hv'.
  pose proof (tuple_size_total p _ Hv) as Hs. cbn [tuple_at v_types] in Hs. unfold total in Hs.
  rewrite content_eq in Hc. cbn [tuple_at v_begin v_types] in Hc. rewrite Hs, load_range_ok in Hc by auto.
  assert (Ebs : bs = slice ms b (list_sum (map wire_size ts))) by congruence.
  assert (Hbl : length bs = list_sum (map wire_size ts)) by (subst bs; apply slice_length; auto).
  rewrite fill_tuple_eq. cbn [tuple_at v_begin v_types]. rewrite Hs, <- Hbl.
  rewrite (fill_ok X src bs x x') by (auto; lia).
  eexists. split; [reflexivity|]. intros i. destruct (nth_error ts i) as [t|] eqn:Ht.
  - rewrite (get_eq p (tuple_at e m ts b) i t), (get_eq p (tuple_at e m ts b') i t) by auto.
    cbn [tuple_at v_kind read_at v_e v_m].
    pose proof (offset_of_S _ _ _ Ht) as O1. pose proof (offset_of_le ts (S i)) as O2.
    assert (Hlay : layout_ok t).
    { rewrite Forall_forall in Hok. apply Hok. eapply nth_error_In; eauto. }
    unfold pos. cbn [tuple_at v_begin v_types].
    rewrite <- (read_as_shift p e m t (splice md b' bs)); auto.
    2:{ rewrite splice_length; lia. }
    rewrite <- (read_as_shift p e m t ms (b + offset_of ts i)); auto; [|lia].
    f_equal. rewrite slice_splice_inside by lia. rewrite Ebs, slice_slice by lia. f_equal. lia.
  - unfold get. cbn [tuple_at v_types]. rewrite at17_nth_error, Ht. reflexivity.
Qed.

(** From the constructor of a host to the elements of another one. *)
Theorem C23_transmission : forall (X : Type) p q e m ts args st_p st_q (src : X -> res (X * Z)) x x',
  wf_platform p -> wf_platform q -> Forall (ty_ok p e m) ts -> Forall (ty_ok q e m) ts ->
  Forall2 (encodable p m) ts args -> Forall2 (encodable q m) ts args ->
  length st_p = tuple_size ts -> length st_q = tuple_size ts -> Forall is_byte st_q ->
  (forall st bs, construct p e m ts args st_p = Ok st -> content (tuple_at e m ts 0) st = Ok bs ->
     yields src x bs x') ->
  exists st', fill_tuple src (tuple_at e m ts 0) x st_q = Ok (x', st')
    /\ forall i a, nth_error args i = Some a -> get q (tuple_at e m ts 0) i st' = Ok a.
Proof.
  intros X p q e m ts args st_p st_q src x x' Hp Hq Hokp Hokq Hap Haq Lp Lq Hbq Hsrc.
  destruct (C13_concatenation p e m ts args st_p Hp Hokp Hap Lp) as (Hs & st & Hc & Hcon).
  specialize (Hsrc st _ Hc Hcon).
  pose proof (tuple_elements_ok q e m ts 0 Hokq) as Hv.
  assert (Hel : length (enc_list e m ts args) = tuple_size ts).
  { rewrite Hs. apply enc_list_length. eapply encodable_has; eauto. }
  rewrite fill_tuple_eq. cbn [tuple_at v_begin v_types]. rewrite <- Hel.
  rewrite (fill_ok X src _ x x') by (auto; lia). eexists. split; [reflexivity|].
  rewrite splice_all by congruence. intros i a Ha.
  apply (get_laid q (tuple_at e m ts 0) args); auto.
  - unfold in_bounds, total in *. cbn [tuple_at v_begin v_types] in *. lia.
  - apply enc_list_bytes.
  - cbn [tuple_at v_begin v_types v_e v_m]. apply slice_0_all. unfold total. lia.
Qed.

Example C23_example :
  yields (fun l : list Z => match l with b :: l' => Ok (l', b) | [] => Fault NoInput end)
    (ex_bytes ++ [42]%Z) ex_bytes [42]%Z
  /\ fill_tuple (fun l : list Z => match l with b :: l' => Ok (l', b) | [] => Fault NoInput end)
       (tuple_at BIG SIGNED_MAGNITUDE ex_types 0) (ex_bytes ++ [42]%Z) (repeat 0%Z 12)
     = Ok ([42]%Z, ex_bytes).
Proof.
  split; [|vm_compute; reflexivity]. cbn. repeat (eexists; split; [reflexivity|]). reflexivity.
Qed.

Print Assumptions C13_concatenation.
Print Assumptions C13_encoding_is_concatenation.
Print Assumptions C13_subscript.
Print Assumptions C14_get_constructed.
Print Assumptions C15_set_get.
Print Assumptions C16_set_frame.
Print Assumptions C17_last_writer_wins.
Print Assumptions C17_commute.
Print Assumptions C17_histories.
Print Assumptions C18_default_zero.
Print Assumptions C19_invoke.
Print Assumptions C20_sub_view.
Print Assumptions C20_range_checked.
Print Assumptions C21_conversion_partial.
Print Assumptions C21_same_tuple_partial.
Print Assumptions C21_view_rebound_refuted.
Print Assumptions C21_variable_rejected_refuted.
Print Assumptions C21_no_elements_refuted.
Print Assumptions C21_refuted.
Print Assumptions C22_views_partial.
Print Assumptions C22_write_characterisation_partial.
Print Assumptions C22_read_characterisation_partial.
Print Assumptions C22_refuted.
Print Assumptions C23_byte_copy.
Print Assumptions C23_transmission.
