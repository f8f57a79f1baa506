(** Properties C10 to C12 (arrays, user extended types) and C25 to C27
    (compile-time computations). *)

From Coq Require Import List ZArith Lia Bool Arith.
From Verif Require Import Base CInt Spec IntModel Conditions MemFacts TypeLevel Serial
  TypeLevelProofs SerialProofs CodecFacts Bounds Hosts.
Import ListNotations.
Open Scope nat_scope.

(** ** C10 *)

Theorem C10_arrays_contiguous : forall p e m t vs mem off,
  wf_platform p -> ty_ok p e m t -> sizeof t = wire_size t -> 1 <= sizeof t ->
  Forall (encodable p m t) vs -> vs <> [] -> Forall is_byte mem ->
  off + length vs * wire_size t <= length mem ->
  write_as p e m (TArr t (length vs)) (VList vs) mem off
    = Ok (splice mem off (concat (map (enc e m t) vs)))
  /\ read_as p e m (TArr t (length vs)) (splice mem off (concat (map (enc e m t) vs))) off
     = Ok (VList vs).
Proof.
  intros p e m t vs mem off Hp Hok Hsz Hs1 Hv Hne Hb Hl.
  assert (Hn : 1 <= length vs) by (destruct vs; [congruence|cbn; lia]).
  assert (HokA : ty_ok p e m (TArr t (length vs))) by (apply ty_ok_arr; auto).
  assert (HvA : encodable p m (TArr t (length vs)) (VList vs)) by (apply encodable_arr; auto).
  rewrite <- flat_map_concat_map.
  change (flat_map (enc e m t) vs) with (enc e m (TArr t (length vs)) (VList vs)).
  assert (W := write_as_ok p e m Hp _ _ mem off HokA HvA Hl). split; auto.
  destruct (roundtrip p p e m _ _ mem off Hp Hp HokA HokA HvA HvA Hb Hl) as (mem' & W' & R & _).
  assert (E : mem' = splice mem off (enc e m (TArr t (length vs)) (VList vs))) by congruence.
  rewrite <- E. exact R.
Qed.

(** Arrays of integers, possibly nested, meet the condition on sizes. *)
Fixpoint integers_only (t : ty) : Prop :=
  match t with
  | TBool | TUns _ | TSig _ => True
  | TArr t' _ => integers_only t'
  | TUser _ _ => False
  end.

Theorem C10_integer_arrays : forall t, wf_ty t -> integers_only t ->
  layout_ok t /\ sizeof t = wire_size t /\ 1 <= sizeof t.
Proof.
  induction t using ty_ind_nested; cbn [wf_ty integers_only layout_ok sizeof wire_size]; intros Hw Hi; auto; try tauto.
  destruct Hw as (Hn & Hs & Hw), (IHt Hw Hi) as (H1 & H2 & H3). destruct n as [|n]; [lia|].
  rewrite <- H2. repeat split; auto. nia.
Qed.

(** An empty [std::array] takes one byte.  When its elements are of one byte,
    the first one, which does not exist, is read; else the byte is never
    written. *)
Theorem C10_empty_refuted :
  serialization_size (TArr (TUns 1) 0) = 1 /\ serialization_size (TArr (TUns 4) 0) = 1
  /\ (forall p e m mem off, write_as p e m (TArr (TUns 1) 0) (VList []) mem off = Fault OutOfBounds)
  /\ (forall p e m mem off, write_as p e m (TArr (TUns 4) 0) (VList []) mem off = Ok mem)
  /\ has_type (TArr (TUns 1) 0) (VList []) /\ has_type (TArr (TUns 4) 0) (VList []).
Proof. repeat split; constructor. Qed.

Example C10_example :
  ty_ok pc_native BIG ONES_COMPLEMENT (TArr (TSig 2) 2)
  /\ Forall (encodable pc_native ONES_COMPLEMENT (TArr (TSig 2) 2))
       [VList [VInt 1; VInt (-1)]; VList [VInt 258; VInt 0]]
  /\ write_as pc_native BIG ONES_COMPLEMENT (TArr (TArr (TSig 2) 2) 2)
       (VList [VList [VInt 1; VInt (-1)]; VList [VInt 258; VInt 0]]) (repeat 9%Z 8) 0
     = Ok [0; 1; 255; 254; 1; 2; 0; 0]%Z.
Proof.
  split; [unfold ty_ok; cbn; intuition (auto; try lia); right; left; reflexivity|].
  split; [|vm_compute; reflexivity].
  repeat constructor; range.
Qed.

(** ** C11 *)

(** An extension maps objects to fields and back. *)
Theorem C11_extension_round_trip : forall (Obj : Type) (ser : Obj -> list val) (unser : list val -> Obj)
    p e m s fs (o : Obj) mem off,
  wf_platform p -> Forall (ty_ok p e m) fs ->
  Forall2 (encodable p m) fs (ser o) -> unser (ser o) = o -> Forall is_byte mem ->
  off + list_sum (map wire_size fs) <= length mem ->
  serialization_size (TUser s fs) = list_sum (map wire_size fs)
  /\ exists mem' fields,
       write_as p e m (TUser s fs) (VList (ser o)) mem off = Ok mem'
       /\ mem' = splice mem off (enc_list e m fs (ser o))
       /\ read_as p e m (TUser s fs) mem' off = Ok (VList fields)
       /\ unser fields = o.
Proof.
  intros Obj ser unser p e m s fs o mem off Hp Hok Hv Hinv Hb Hl.
  assert (HokU : ty_ok p e m (TUser s fs)) by (apply ty_ok_user; auto).
  assert (HvU : encodable p m (TUser s fs) (VList (ser o))) by (apply encodable_user; auto).
  split; [rewrite serialization_size_wire; [reflexivity|apply HokU]|].
  destruct (roundtrip p p e m _ _ mem off Hp Hp HokU HokU HvU HvU Hb Hl) as (mem' & W & R & _).
  exists mem', (ser o). repeat split; auto.
  rewrite write_as_ok in W by auto. rewrite enc_user in W. congruence.
Qed.

(** A point stored as (sum, difference): the fields need not be the members. *)
Definition point : Type := (Z * Z)%type.
Definition point_ser (o : point) : list val := [VInt (fst o + snd o); VInt (fst o - snd o)].
Definition point_unser (vs : list val) : point :=
  match vs with
  | [VInt a; VInt b] => (Z.div (a + b) 2, Z.div (a - b) 2)
  | _ => (0, 0)%Z
  end.

Example C11_example :
  Forall (ty_ok pc_portable LITTLE SIGNED_MAGNITUDE) [TSig 2; TSig 4]
  /\ Forall2 (encodable pc_portable SIGNED_MAGNITUDE) [TSig 2; TSig 4] (point_ser (3, -5)%Z)
  /\ point_unser (point_ser (3, -5)%Z) = (3, -5)%Z
  /\ write_as pc_portable LITTLE SIGNED_MAGNITUDE (TUser 8 [TSig 2; TSig 4])
       (VList (point_ser (3, -5)%Z)) (repeat 7%Z 6) 0 = Ok [2; 128; 8; 0; 0; 0]%Z.
Proof.
  split; [repeat constructor; cbn; try lia; right; left; reflexivity|].
  split; [repeat constructor; range|].
  split; vm_compute; reflexivity.
Qed.

(** ** C12 *)

(** Compilers implementing two-phase lookup reject the arrays of user types;
    all the types they accept have a layout without gaps. *)
Theorem C12_two_phase_lookup_partial :
  (forall s fs n, instantiates (TArr (TUser s fs) n) = false)
  /\ (forall t, wf_ty t -> instantiates t = true -> layout_ok t).
Proof.
  split; [reflexivity|].
  assert (A : forall t, array_element_visible t = true -> integers_only t).
  { induction t using ty_ind_nested; cbn; auto; discriminate. }
  induction t using ty_ind_nested; intros Hw Hi; cbn [layout_ok]; auto.
  - cbn [instantiates wf_ty] in *. destruct Hw as (Hn & _ & Hw).
    destruct (C10_integer_arrays t Hw (A _ Hi)) as (H1 & H2 & _). auto.
  - cbn [instantiates] in Hi. rewrite forallb_forall in Hi. apply (layout_ok_user s). apply (wf_ty_user s) in Hw.
    rewrite Forall_forall in *. auto.
Qed.

(** With the others, an array of [n] elements is written contiguously in its
    storage if and only if [sizeof] of the elements is the number of bytes of
    their encoding. *)
Theorem C12_arrays_partial : forall p e m t vs mem,
  wf_platform p -> ty_ok p e m t -> 1 <= sizeof t -> Forall (encodable p m t) vs -> vs <> [] ->
  length mem = serialization_size (TArr t (length vs)) ->
  (write_as p e m (TArr t (length vs)) (VList vs) mem 0 = Ok (concat (map (enc e m t) vs))
   <-> sizeof t = wire_size t).
Proof.
  intros p e m t vs mem Hp Hok Hs1 Hv Hne Hl.
  assert (Hcl : length (flat_map (enc e m t) vs) = length vs * wire_size t).
  { clear Hl Hne. induction Hv; cbn [flat_map length Nat.mul]; auto.
    rewrite app_length, IHHv, enc_length by apply H. reflexivity. }
  assert (0 < length vs) by (destruct vs; [congruence|cbn; lia]).
  cbn [serialization_size] in Hl. rewrite sizeof_arr in Hl by auto. rewrite <- flat_map_concat_map. split.
  - intros W. rewrite write_as_arr in W by auto.
    apply write_loop_inv in W; [|apply write_as_inv; apply Hok]. destruct W as [W _].
    rewrite Hcl, Hl in W. nia.
  - intros Hsz. rewrite (write_as_ok p e m Hp (TArr t (length vs)) (VList vs)).
    + cbn [enc]. rewrite splice_all; auto. rewrite Hcl, Hl, Hsz. reflexivity.
    + apply ty_ok_arr. auto.
    + apply encodable_arr. auto.
    + cbn [wire_size]. rewrite Hl, Hsz. lia.
Qed.

(** Elements larger than their encoding: gaps which are never written. *)
Theorem C12_gaps_partial : forall p e m t vs mem off,
  wf_platform p -> ty_ok p e m t -> 1 <= sizeof t -> Forall (encodable p m t) vs -> vs <> [] ->
  wire_size t <= sizeof t -> Forall is_byte mem -> off + length vs * sizeof t <= length mem ->
  exists mem',
    write_as p e m (TArr t (length vs)) (VList vs) mem off = Ok mem'
    /\ length mem' = length mem
    /\ (forall i v, nth_error vs i = Some v ->
          slice mem' (off + i * sizeof t) (wire_size t) = enc e m t v)
    /\ (forall x, (forall i, i < length vs ->
                     x < off + i * sizeof t \/ off + i * sizeof t + wire_size t <= x) ->
          nth_error mem' x = nth_error mem x)
    /\ read_as p e m (TArr t (length vs)) mem' off = Ok (VList vs).
Proof.
  intros p e m t vs mem off Hp Hok Hs1 Hv Hne Hsz Hb Hl.
  assert (Hn0 : 1 <= length vs) by (destruct vs; [congruence|cbn; lia]).
  assert (L : forall k i mem, i + k = length vs -> Forall is_byte mem ->
    off + length vs * sizeof t <= length mem ->
    exists mem', write_loop p e m t vs off k i mem = Ok mem'
      /\ length mem' = length mem /\ Forall is_byte mem'
      /\ (forall j v, i <= j -> nth_error vs j = Some v ->
            slice mem' (off + j * sizeof t) (wire_size t) = enc e m t v)
      /\ (forall x, (forall j, i <= j < i + k ->
                       x < off + j * sizeof t \/ off + j * sizeof t + wire_size t <= x) ->
            nth_error mem' x = nth_error mem x)).
  { clear Hb Hl mem. induction k as [|k IH]; intros i mem Hik Hb Hl; cbn [write_loop].
    - exists mem. repeat split; auto. intros j v Hj Hn.
      assert (j < length vs) by (apply nth_error_Some; congruence). lia.
    - destruct (nth_error vs i) as [v|] eqn:Hn; [|apply nth_error_None in Hn; lia].
      assert (Hev : encodable p m t v).
      { rewrite Forall_forall in Hv. apply Hv. eapply nth_error_In; eauto. }
      assert (Hel : length (enc e m t v) = wire_size t) by (apply enc_length; apply Hev).
      assert (off + i * sizeof t + sizeof t <= length mem) by nia.
      rewrite (write_as_ok p e m Hp) by (auto; lia). cbn [bind]. fold (write_loop p e m t vs off).
      destruct (IH (S i) (splice mem (off + i * sizeof t) (enc e m t v))) as (mem' & W & L1 & L2 & L3 & L4).
      + lia.
      + apply Forall_splice; auto. apply enc_bytes.
      + rewrite splice_length by lia. auto.
      + exists mem'. rewrite splice_length in L1 by lia. repeat split; auto.
        * intros j v' Hj Hn'. destruct (Nat.eq_dec j i) as [->|Hd]; [|apply L3; auto; lia].
          assert (v' = v) by congruence. subst v'.
          rewrite <- Hel at 1.
          transitivity (slice (splice mem (off + i * sizeof t) (enc e m t v)) (off + i * sizeof t) (length (enc e m t v))).
          -- apply nth_error_ext. intros x. rewrite !nth_error_slice.
             destruct (Nat.ltb_spec x (length (enc e m t v))); auto.
             apply L4. intros j' Hj'. left. nia.
          -- apply slice_splice_same. lia.
        * intros x Hx. rewrite L4 by (intros j Hj; apply Hx; lia).
          rewrite nth_error_splice by lia.
          destruct (Hx i ltac:(lia)) as [H1|H1].
          -- destruct (Nat.ltb_spec x (off + i * sizeof t)); [auto|lia].
          -- destruct (Nat.ltb_spec x (off + i * sizeof t)); [lia|].
             destruct (Nat.ltb_spec x (off + i * sizeof t + length (enc e m t v))); [lia|auto]. }
  destruct (L (length vs) 0 mem eq_refl Hb Hl) as (mem' & W & L1 & L2 & L3 & L4).
  exists mem'. rewrite write_as_arr by auto. repeat split; auto.
  - intros i v. apply L3. lia.
  - intros x Hx. apply L4. intros j Hj. apply Hx. lia.
  - rewrite read_as_arr.
    assert (R : forall k i, i + k = length vs -> read_loop p e m t mem' off k i = Ok (skipn i vs)).
    { induction k as [|k IH]; intros i Hik; cbn [read_loop].
      - rewrite skipn_all2 by lia. reflexivity.
      - fold (read_loop p e m t mem' off).
        destruct (nth_error vs i) as [v|] eqn:Hn; [|apply nth_error_None in Hn; lia].
        assert (Hev : encodable p m t v).
        { rewrite Forall_forall in Hv. apply Hv. eapply nth_error_In; eauto. }
        assert (off + i * sizeof t + sizeof t <= length mem) by nia.
        rewrite read_as_ok; auto; try lia.
        + rewrite L3 with (v := v) by (auto; lia). rewrite dec_enc with (p := p) by (auto; apply Hok).
          cbn [bind]. rewrite IH by lia. cbn [bind]. f_equal.
          clear -Hn. revert i Hn. induction vs; intros [|i] Hn; try discriminate; cbn in *.
          * congruence.
          * apply IHvs; auto.
        + rewrite L3 with (v := v) by (auto; lia). apply encodable_decodable; auto. apply Hok. }
    rewrite R by lia. reflexivity.
Qed.

(** Elements smaller than their encoding: the write leaves the storage. *)
Theorem C12_overflow_partial : forall p e m t vs mem,
  wf_platform p -> ty_ok p e m t -> 1 <= sizeof t -> Forall (encodable p m t) vs -> vs <> [] ->
  sizeof t < wire_size t ->
  length mem = serialization_size (TArr t (length vs)) ->
  write_as p e m (TArr t (length vs)) (VList vs) mem 0 = Fault OutOfBounds.
Proof.
  intros p e m t vs mem Hp Hok Hs1 Hv Hne Hsz Hl.
  assert (Hn0 : 1 <= length vs) by (destruct vs; [congruence|cbn; lia]). rewrite write_as_arr by auto.
  assert (C : forall k i mem, i + k = length vs -> ok_or_oob (write_loop p e m t vs 0 k i mem)).
  { clear Hl mem. induction k as [|k IH]; intros i mem Hik; cbn [write_loop]; [left; eauto|].
    destruct (nth_error vs i) as [v|] eqn:Hi; [|apply nth_error_None in Hi; lia].
    apply ok_or_oob_bind.
    - apply write_as_class; auto. rewrite Forall_forall in Hv. apply Hv. eapply nth_error_In; eauto.
    - intros mem' _. apply IH. lia. }
  destruct (C (length vs) 0 mem eq_refl) as [[mem' W]|W]; auto.
  exfalso. apply write_loop_inv in W; [|apply write_as_inv; apply Hok].
  destruct W as [_ W]. destruct (length vs) as [|n] eqn:En; [destruct vs; [congruence|discriminate]|].
  specialize (W n ltac:(lia)). cbn [serialization_size] in Hl. rewrite sizeof_arr in Hl by lia. lia.
Qed.

(** A type of 6 bytes encoded over 5 (the [object_t] of test/tuple.cpp has such
    sizes) in an array of 2, and a type of 1 byte encoded over 2. *)
Theorem C12_arrays_refuted : exists p e m,
  wf_platform p
  /\ ty_ok p e m (TUser 6 [TUns 1; TUns 2; TUns 2]) /\ ty_ok p e m (TUser 1 [TUns 2])
  /\ write_as p e m (TArr (TUser 6 [TUns 1; TUns 2; TUns 2]) 2)
       (VList [VList [VInt 1; VInt 2; VInt 3]; VList [VInt 4; VInt 5; VInt 6]]) (repeat 99%Z 12) 0
     = Ok [1; 2; 0; 3; 0; 99; 4; 5; 0; 6; 0; 99]%Z
  /\ write_as p e m (TArr (TUser 1 [TUns 2]) 2) (VList [VList [VInt 1]; VList [VInt 2]]) (repeat 99%Z 2) 0
     = Fault OutOfBounds.
Proof.
  exists pc_native, LITTLE, TWOS_COMPLEMENT. split; [apply pc_native_wf|].
  split; [unfold ty_ok; cbn; intuition lia|]. split; [unfold ty_ok; cbn; intuition lia|].
  split; vm_compute; reflexivity.
Qed.

Example C12_example :
  ty_ok pc_native LITTLE TWOS_COMPLEMENT (TUser 4 [TUns 2; TUns 2])
  /\ Forall (encodable pc_native TWOS_COMPLEMENT (TUser 4 [TUns 2; TUns 2]))
       [VList [VInt 1; VInt 2]; VList [VInt 3; VInt 4]]
  /\ sizeof (TUser 4 [TUns 2; TUns 2]) = wire_size (TUser 4 [TUns 2; TUns 2]).
Proof.
  split; [unfold ty_ok; cbn; intuition lia|]. split; [|reflexivity].
  repeat constructor; range.
Qed.

(** ** C25 *)

Theorem C25_smallest_index_type : forall n, (0 <= n < 2 ^ 64)%Z ->
  let w := smallest_unsigned n in
  In w [1; 2; 4; 8]
  (* the number of callbacks is not truncated, every index fits *)
  /\ (n mod 2 ^ (8 * Z.of_nat w) = n)%Z
  /\ (forall i, (0 <= i < n)%Z -> (i mod 2 ^ (8 * Z.of_nat w) = i)%Z)
  (* no smaller type would do *)
  /\ (forall w', In w' [1; 2; 4; 8] -> (n < 2 ^ (8 * Z.of_nat w'))%Z -> w <= w').
Proof.
  intros n Hn w. subst w. unfold smallest_unsigned, try_promote.
  change (2 ^ (8 * Z.of_nat 4))%Z with 4294967296%Z. change (2 ^ (8 * Z.of_nat 2))%Z with 65536%Z.
  change (2 ^ (8 * Z.of_nat 1))%Z with 256%Z.
  assert (M : forall b, (0 < b)%Z -> (n mod b =? n)%Z = (n <? b)%Z).
  { intros b Hb. destruct (Z.ltb_spec n b).
    - apply Z.eqb_eq. apply Z.mod_small. lia.
    - apply Z.eqb_neq. pose proof (Z.mod_pos_bound n b Hb). lia. }
  rewrite !M by lia.
  assert (G : forall w, (n < 2 ^ (8 * Z.of_nat w))%Z -> (n mod 2 ^ (8 * Z.of_nat w) = n)%Z
     /\ (forall i, (0 <= i < n)%Z -> (i mod 2 ^ (8 * Z.of_nat w) = i)%Z)).
  { intros w Hw. split; [apply Z.mod_small; lia|]. intros i Hi. apply Z.mod_small. lia. }
  assert (P : forall w', In w' [1; 2; 4; 8] -> (n < 2 ^ (8 * Z.of_nat w'))%Z ->
     w' = 1 /\ (n < 256)%Z \/ w' = 2 /\ (n < 65536)%Z \/ w' = 4 /\ (n < 4294967296)%Z \/ w' = 8).
  { intros w' [<-|[<-|[<-|[<-|[]]]]] H; auto. }
  destruct (Z.ltb_spec n 256); [|destruct (Z.ltb_spec n 65536); [|destruct (Z.ltb_spec n 4294967296)]].
  - destruct (G 1) as [G1 G2]; [exact H|]. split; [cbn; auto|]. repeat split; auto.
    intros w' Hin Hw. specialize (P w' Hin Hw). clear - P H. lia.
  - destruct (G 2) as [G1 G2]; [exact H0|]. split; [cbn; auto|]. repeat split; auto.
    intros w' Hin Hw. specialize (P w' Hin Hw). clear - P H H0. lia.
  - destruct (G 4) as [G1 G2]; [exact H1|]. split; [cbn; auto|]. repeat split; auto.
    intros w' Hin Hw. specialize (P w' Hin Hw). clear - P H H0 H1. lia.
  - destruct (G 8) as [G1 G2]; [change (2 ^ (8 * Z.of_nat 8))%Z with (2 ^ 64)%Z; lia|].
    split; [cbn; auto|]. repeat split; auto.
    intros w' Hin Hw. specialize (P w' Hin Hw). clear - P H H0 H1. lia.
Qed.

(** 255 callbacks have 1-byte indices, 256 callbacks have 2-byte indices
    although all their indices fit in one byte. *)
Example C25_example : smallest_unsigned 255 = 1 /\ smallest_unsigned 256 = 2
  /\ smallest_unsigned 65536 = 4 /\ smallest_unsigned (2 ^ 32) = 8.
Proof. vm_compute. auto. Qed.

(** ** C26 *)

(** [find<flist_t, H>] for a list of callbacks; [same] is identity of
    unevaluated references.  The statement covers both implementations. *)
Theorem C26_unique_index : forall (A : Type) (same : A -> A -> bool) (fs : list A) i f,
  (forall a b, same a b = true <-> a = b) -> NoDup fs -> nth_error fs i = Some f ->
  find17 same fs f = Some i /\ find11 same f 0 fs = Some i.
Proof.
  intros A same fs i f Hs Hn Hi. split; [apply find17_nodup; auto|].
  rewrite (find11_nodup A same f fs i 0); auto.
Qed.

Theorem C26_no_collision : forall (A : Type) (same : A -> A -> bool) (fs : list A) f g i,
  (forall a b, same a b = true <-> a = b) ->
  find17 same fs f = Some i -> find17 same fs g = Some i -> f = g.
Proof.
  intros A same fs f g i Hs Hf Hg. apply find17_some in Hf; auto. apply find17_some in Hg; auto.
  destruct Hf as [Hf _], Hg as [Hg _]. congruence.
Qed.

(** Different callbacks have different index prefixes on the wire. *)
Theorem C26_prefixes_differ : forall e (A : Type) (same : A -> A -> bool) (fs : list A) f g i j,
  (forall a b, same a b = true <-> a = b) ->
  find17 same fs f = Some i -> find17 same fs g = Some j -> f <> g ->
  (Z.of_nat (length fs) < 2 ^ 64)%Z ->
  let w := smallest_unsigned (Z.of_nat (length fs)) in
  wire_bytes e w (Z.of_nat i) <> wire_bytes e w (Z.of_nat j).
Proof.
  intros e A same fs f g i j Hs Hf Hg Hne Hlen w E.
  apply find17_some in Hf; auto. apply find17_some in Hg; auto.
  destruct Hf as [Hf _], Hg as [Hg _].
  assert (Hi : i < length fs) by (apply nth_error_Some; congruence).
  assert (Hj : j < length fs) by (apply nth_error_Some; congruence).
  destruct (C25_smallest_index_type (Z.of_nat (length fs)) ltac:(lia)) as (_ & _ & Hfit & _).
  fold w in Hfit.
  pose proof (f_equal (wire_value e) E) as V. rewrite !IntProofs.wire_value_bytes in V.
  assert (Sp : space w = (2 ^ (8 * Z.of_nat w))%Z).
  { unfold space. change 256%Z with (2 ^ 8)%Z. rewrite <- Z.pow_mul_r by lia. reflexivity. }
  rewrite Sp, !Hfit in V by lia. assert (i = j) by lia. congruence.
Qed.

Example C26_example :
  NoDup [10; 20; 30] /\ find17 Nat.eqb [10; 20; 30] 30 = Some 2
  /\ find17 Nat.eqb [10; 20; 10] 10 = None /\ find11 Nat.eqb 10 0 [10; 20; 10] = Some 0.
Proof.
  split; [repeat constructor; cbn; intuition discriminate|]. vm_compute. auto.
Qed.

(** ** C27 *)

Theorem C27_at : forall (A : Type) (l : list A) i, at17 l i = at11 i l.
Proof. intros. rewrite at17_nth_error, at11_nth_error. reflexivity. Qed.

Theorem C27_max : forall l, max17 l = max11 l.
Proof. exact max_agree. Qed.

Theorem C27_sum : forall l, sum17 l = sum11 0 l.
Proof. intros. rewrite sum17_list_sum, sum11_list_sum. reflexivity. Qed.

(** C++17 rejects the lists where the target appears several times. *)
Theorem C27_find : forall (A : Type) (same : A -> A -> bool) (l : list A) v i,
  (forall a b, same a b = true <-> a = b) ->
  find17 same l v = Some i -> find11 same v 0 l = Some i.
Proof.
  intros A same l v i Hs H. apply find17_some in H; auto. destruct H as [Hi Hu].
  destruct (find11 same v 0 l) as [r|] eqn:E.
  - apply find11_spec in E; auto. destruct E as (_ & E & _). rewrite Nat.sub_0_r in E.
    rewrite (Hu r E). reflexivity.
  - exfalso. clear Hu. revert i Hi E. generalize 0 as k. induction l as [|a l IH]; intros k [|i] Hi E;
      cbn [find11 nth_error] in *; try discriminate.
    + injection Hi as ->. replace (same v v) with true in E by (symmetry; apply Hs; reflexivity). discriminate.
    + destruct (same v a); [discriminate|]. eapply IH; eauto.
Qed.

Theorem C27_clip : forall (A : Type) (l : list A) i n,
  (i + n <= length l -> exists r, clip17 l i n = Some r /\ clip11 i n l = Some r)
  /\ (forall r r', clip17 l i n = Some r -> clip11 i n l = Some r' -> r = r').
Proof.
  intros A l i n. split.
  - intros H. rewrite clip17_ok, clip11_ok by auto. eauto.
  - intros r r' H17 H11. destruct (Nat.leb_spec (i + n) (length l)) as [H|H].
    + rewrite clip17_ok in H17 by auto. rewrite clip11_ok in H11 by auto. congruence.
    + destruct n as [|n].
      * unfold clip17 in H17. cbn in H17. exfalso. clear H17. revert l H H11.
        induction i as [|i IH]; intros [|a l] H H11; cbn [clip11 length] in *; try lia; try discriminate.
        apply (IH l); auto. lia.
      * unfold clip17, make_index_sequence14 in H17. rewrite clip17_seq_none in H17 by lia. discriminate.
Qed.

Theorem C27_index_sequence : forall n, make_index_sequence14 n = make_index_sequence11 n [].
Proof. intros. rewrite mis11_gen, app_nil_r. reflexivity. Qed.

Example C27_example :
  clip17 [1; 2; 3; 4; 5] 1 3 = Some [2; 3; 4] /\ clip11 1 3 [1; 2; 3; 4; 5] = Some [2; 3; 4]
  /\ max17 [3; 9; 4] = Some 9 /\ sum11 0 [3; 9; 4] = 16 /\ make_index_sequence11 3 [] = [0; 1; 2].
Proof. vm_compute. auto. Qed.

Print Assumptions C10_arrays_contiguous.
Print Assumptions C10_integer_arrays.
Print Assumptions C10_empty_refuted.
Print Assumptions C11_extension_round_trip.
Print Assumptions C12_two_phase_lookup_partial.
Print Assumptions C12_arrays_partial.
Print Assumptions C12_gaps_partial.
Print Assumptions C12_overflow_partial.
Print Assumptions C12_arrays_refuted.
Print Assumptions C25_smallest_index_type.
Print Assumptions C26_unique_index.
Print Assumptions C26_no_collision.
Print Assumptions C26_prefixes_differ.
Print Assumptions C27_at.
Print Assumptions C27_max.
Print Assumptions C27_sum.
Print Assumptions C27_find.
Print Assumptions C27_clip.
Print Assumptions C27_index_sequence.
