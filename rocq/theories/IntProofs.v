(** Proofs about the integer codec. *)

From Coq Require Import List ZArith Bool Lia Arith ZifyBool ZifyNat.
From Verif Require Import Base CInt IntModel Spec MemFacts.
Import ListNotations.
Open Scope Z_scope.

Ltac Zify.zify_post_hook ::= Z.div_mod_to_equations.

Arguments Z.pow : simpl never.
Arguments Z.mul : simpl never.
Arguments Z.add : simpl never.
Arguments Z.sub : simpl never.
Arguments Z.div : simpl never.
Arguments Z.modulo : simpl never.
Arguments Z.of_nat : simpl never.

(** ** Powers *)

Lemma space_pow2 : forall w, space w = 2 ^ bits w.
Proof.
  intros. unfold space, bits. change 256 with (2 ^ 8).
  rewrite <- Z.pow_mul_r by lia. reflexivity.
Qed.

Lemma space_0 : space 0 = 1.
Proof. reflexivity. Qed.

Lemma space_S : forall w, space (S w) = 256 * space w.
Proof.
  intros. unfold space. rewrite Nat2Z.inj_succ, Z.pow_succ_r by lia. reflexivity.
Qed.

Lemma space_pos : forall w, 0 < space w.
Proof. intros. unfold space. apply Z.pow_pos_nonneg; lia. Qed.

Lemma space_add : forall a b, space (a + b) = space a * space b.
Proof.
  intros. unfold space. rewrite Nat2Z.inj_add, Z.pow_add_r by lia. reflexivity.
Qed.

Lemma half_S : forall w, half (S w) = 128 * space w.
Proof. intros. unfold half. rewrite space_S. lia. Qed.

Lemma half_pow2 : forall w, (1 <= w)%nat -> half w = 2 ^ (bits w - 1).
Proof.
  intros [|w] H; [lia|]. rewrite half_S, space_pow2. unfold bits.
  replace (8 * Z.of_nat (S w) - 1) with (7 + 8 * Z.of_nat w) by lia.
  rewrite Z.pow_add_r by lia. reflexivity.
Qed.

Lemma space_half : forall w, (1 <= w)%nat -> space w = 2 * half w.
Proof. intros [|w] H; [lia|]. rewrite half_S, space_S. lia. Qed.

Lemma half_pos : forall w, (1 <= w)%nat -> 0 < half w.
Proof. intros. pose proof (space_pos w). pose proof (space_half w H). lia. Qed.

Lemma half_ge : forall w, (1 <= w)%nat -> 128 <= half w.
Proof. intros [|w] H; [lia|]. rewrite half_S. pose proof (space_pos w). lia. Qed.

Lemma space_mono : forall a b, (a <= b)%nat -> space a <= space b.
Proof. intros. unfold space. apply Z.pow_le_mono_r; lia. Qed.

Lemma half_mono : forall a b, (a <= b)%nat -> half a <= half b.
Proof. intros. unfold half. apply Z.div_le_mono; [lia|]. apply space_mono. auto. Qed.

Lemma half_double : forall a b, (1 <= a < b)%nat -> 2 * half a <= half b.
Proof.
  intros. rewrite <- space_half by lia. destruct b; [lia|].
  rewrite half_S. pose proof (space_mono a b ltac:(lia)). pose proof (space_pos b). lia.
Qed.

Lemma space_8_divides : forall w, (w <= 8)%nat -> space 8 = space w * space (8 - w).
Proof. intros. rewrite <- space_add. f_equal. lia. Qed.

Lemma mod_mod_space : forall z w, (w <= 8)%nat -> (z mod space 8) mod space w = z mod space w.
Proof.
  intros. rewrite (space_8_divides w) by auto.
  pose proof (space_pos w). pose proof (space_pos (8 - w)).
  rewrite Z.rem_mul_r by lia.
  rewrite (Z.mul_comm (space w)), Z.mod_add by lia. apply Z.mod_mod. lia.
Qed.

(** ** Digits *)

Lemma digits_length : forall w z, length (digits w z) = w.
Proof. induction w; simpl; auto. Qed.

Lemma digits_bytes : forall w z, Forall is_byte (digits w z).
Proof.
  induction w; simpl; constructor; auto. unfold is_byte. lia.
Qed.

Lemma undigits_bounds : forall bs, Forall is_byte bs -> 0 <= undigits bs < space (length bs).
Proof.
  induction bs as [|b bs IH]; intros H; cbn [undigits length].
  - rewrite space_0. lia.
  - inversion H; subst. specialize (IH H3). unfold is_byte in H2. rewrite space_S. lia.
Qed.

Lemma undigits_digits : forall w z, undigits (digits w z) = z mod space w.
Proof.
  induction w as [|w IH]; intros z; cbn [undigits digits].
  - rewrite space_0. symmetry. apply Z.mod_1_r.
  - rewrite IH, space_S. pose proof (space_pos w).
    rewrite Z.rem_mul_r by lia. reflexivity.
Qed.

Lemma digits_undigits : forall bs, Forall is_byte bs -> digits (length bs) (undigits bs) = bs.
Proof.
  induction bs as [|b bs IH]; intros H; cbn [undigits length digits]; auto.
  inversion H; subst. unfold is_byte in H2. rewrite Z.mul_comm.
  rewrite Z.mod_add, Z.div_add, Z.mod_small, Z.div_small by lia.
  rewrite Z.add_0_l, IH; auto.
Qed.

Lemma digits_mod : forall w z, digits w (z mod space w) = digits w z.
Proof.
  induction w as [|w IH]; intros z; cbn [digits]; auto.
  rewrite space_S. pose proof (space_pos w).
  rewrite Z.rem_mul_r by lia. f_equal.
  - rewrite (Z.mul_comm 256), Z.mod_add by lia. apply Z.mod_mod. lia.
  - rewrite (Z.mul_comm 256), Z.div_add by lia.
    rewrite Z.div_small by (apply Z.mod_pos_bound; lia).
    rewrite Z.add_0_l. apply IH.
Qed.

Lemma digits_firstn : forall k w z, (k <= w)%nat -> firstn k (digits w z) = digits k z.
Proof.
  induction k as [|k IH]; intros [|w] z H; simpl; auto; try lia.
  f_equal. apply IH. lia.
Qed.

Lemma digits_eq_mod : forall w a b, a mod space w = b mod space w -> digits w a = digits w b.
Proof. intros. rewrite <- (digits_mod w a), <- (digits_mod w b), H. reflexivity. Qed.

Lemma undigits_app : forall a b, undigits (a ++ b) = undigits a + space (length a) * undigits b.
Proof.
  induction a as [|x a IH]; intros b; cbn [app undigits length].
  - rewrite space_0. lia.
  - rewrite IH, space_S. ring.
Qed.

(** The specification's positional notation agrees with digits. *)

Lemma wire_bytes_digits : forall e w u,
  wire_bytes e w u = match e with LITTLE => digits w u | BIG => rev (digits w u) end.
Proof.
  assert (H : forall w k u, map (digit u) (seq k w) = digits w (u / 256 ^ Z.of_nat k)).
  { induction w as [|w IH]; intros k u; cbn [seq map digits]; auto.
    f_equal. rewrite IH. f_equal. rewrite Nat2Z.inj_succ, Z.pow_succ_r by lia.
    rewrite (Z.mul_comm 256), <- Z.div_div; lia. }
  intros [|] w u; unfold wire_bytes.
  - rewrite H. rewrite Z.pow_0_r, Z.div_1_r. reflexivity.
  - rewrite map_rev, H. rewrite Z.pow_0_r, Z.div_1_r. reflexivity.
Qed.

Lemma wire_value_undigits : forall e bs,
  wire_value e bs = match e with LITTLE => undigits bs | BIG => undigits (rev bs) end.
Proof.
  assert (H : forall bs, fold_right (fun b acc => b + 256 * acc) 0 bs = undigits bs).
  { induction bs; cbn [fold_right undigits]; auto. }
  intros [|] bs; unfold wire_value; auto.
  rewrite <- H. rewrite <- fold_left_rev_right.
  generalize (rev bs). induction l; cbn [fold_right]; auto. lia.
Qed.

Lemma wire_bytes_length : forall e w u, length (wire_bytes e w u) = w.
Proof.
  intros. rewrite wire_bytes_digits. destruct e; rewrite ?rev_length; apply digits_length.
Qed.

Lemma wire_bytes_bytes : forall e w u, Forall is_byte (wire_bytes e w u).
Proof.
  intros. rewrite wire_bytes_digits. destruct e; [|apply Forall_rev]; apply digits_bytes.
Qed.

Lemma wire_value_bounds : forall e bs, Forall is_byte bs -> 0 <= wire_value e bs < space (length bs).
Proof.
  intros. rewrite wire_value_undigits. destruct e.
  - apply undigits_bounds; auto.
  - rewrite <- rev_length. apply undigits_bounds, Forall_rev; auto.
Qed.

Lemma wire_value_bytes : forall e w u, wire_value e (wire_bytes e w u) = u mod space w.
Proof.
  intros. rewrite wire_value_undigits, wire_bytes_digits.
  destruct e; rewrite ?rev_involutive; apply undigits_digits.
Qed.

Lemma wire_bytes_value : forall e bs, Forall is_byte bs ->
  wire_bytes e (length bs) (wire_value e bs) = bs.
Proof.
  intros. rewrite wire_value_undigits, wire_bytes_digits. destruct e.
  - apply digits_undigits; auto.
  - rewrite <- (rev_length bs), digits_undigits by (apply Forall_rev; auto).
    apply rev_involutive.
Qed.

Lemma wire_bytes_mod : forall e w u, wire_bytes e w (u mod space w) = wire_bytes e w u.
Proof.
  intros. rewrite !wire_bytes_digits. destruct e; rewrite digits_mod; reflexivity.
Qed.

Lemma wire_bytes_inj : forall e w u v,
  0 <= u < space w -> 0 <= v < space w -> wire_bytes e w u = wire_bytes e w v -> u = v.
Proof.
  intros e w u v Hu Hv H.
  rewrite <- (Z.mod_small u (space w)), <- (Z.mod_small v (space w)) by lia.
  rewrite <- !(wire_value_bytes e), H. reflexivity.
Qed.

(** ** C++ integer operations *)

Lemma conv_unsigned : forall w z, conv (CInt w false) z = z mod space w.
Proof. intros. cbn [conv]. rewrite space_pow2. reflexivity. Qed.

Lemma conv_signed_range : forall w z, (1 <= w)%nat ->
  - half w <= z < half w -> conv (CInt w true) z = z.
Proof.
  intros w z Hw H. cbn [conv]. rewrite <- space_pow2, <- half_pow2 by auto.
  pose proof (space_half w Hw). destruct (Z.ltb_spec z 0).
  - replace (z mod space w) with (z + space w).
    + destruct (Z.ltb_spec (z + space w) (half w)); lia.
    + rewrite <- (Z.mod_add z 1 (space w)) by lia. symmetry.
      rewrite Z.mul_1_l. apply Z.mod_small. lia.
  - rewrite Z.mod_small by lia. destruct (Z.ltb_spec z (half w)); lia.
Qed.

(** Conversion to a signed type only depends on the value modulo its space. *)
Lemma conv_signed_eq : forall w z z', (1 <= w)%nat ->
  z mod space w = z' mod space w -> conv (CInt w true) z = conv (CInt w true) z'.
Proof.
  intros. cbn [conv]. rewrite <- space_pow2, H0. reflexivity.
Qed.

Lemma conv_signed_bounds : forall w z, (1 <= w)%nat ->
  - half w <= conv (CInt w true) z < half w.
Proof.
  intros. cbn [conv]. rewrite <- space_pow2, <- half_pow2 by auto.
  pose proof (space_half w H). pose proof (space_pos w).
  pose proof (Z.mod_pos_bound z (space w) ltac:(lia)).
  destruct (Z.ltb_spec (z mod space w) (half w)); lia.
Qed.

Lemma conv_signed_mod : forall w z, (1 <= w)%nat ->
  conv (CInt w true) z mod space w = z mod space w.
Proof.
  intros. cbn [conv]. rewrite <- space_pow2, <- half_pow2 by auto.
  pose proof (space_pos w).
  destruct (Z.ltb_spec (z mod space w) (half w)).
  - apply Z.mod_mod. lia.
  - replace (z mod space w - space w) with (z mod space w + (-1) * space w) by ring.
    rewrite Z.mod_add by lia. apply Z.mod_mod. lia.
Qed.

Definition is_uns (T : cty) : Prop :=
  match T with
  | CBool => True
  | CInt w s => s = false /\ (1 <= w <= 8)%nat
  end.

(** Range of an unsigned type or [bool]. *)
Definition in_uns (T : cty) (x : Z) : Prop :=
  match T with
  | CBool => x = 0 \/ x = 1
  | CInt w _ => 0 <= x < space w
  end.

Lemma in_uns_conv : forall T x, is_uns T -> in_uns T x -> conv T x = x.
Proof.
  intros [|w s] x HT Hx; cbn [in_uns is_uns] in *.
  - destruct Hx; subst; reflexivity.
  - destruct HT as [-> Hw]. rewrite conv_unsigned. apply Z.mod_small. auto.
Qed.

Lemma promote_size : forall p T, wf_platform p -> is_uns T -> (2 <= csizeof (promote p T))%nat.
Proof.
  intros p [|w s] Hp HT; destruct Hp as [Hi _ _ _]; cbn [promote csizeof] in *; try lia.
  destruct (Nat.ltb_spec w (p_int_size p)); cbn [csizeof]; lia.
Qed.

Lemma shr8_ok : forall p T x, wf_platform p -> is_uns T ->
  c_shr (promote p T) x 8 = Ok (x / 256).
Proof.
  intros p T x Hp HT. unfold c_shr. pose proof (promote_size p T Hp HT).
  unfold bits. destruct (Z.ltb_spec 8 (8 * Z.of_nat (csizeof (promote p T)))); [|lia].
  rewrite Z.shiftr_div_pow2 by lia. reflexivity.
Qed.

Lemma in_uns_div : forall T x, is_uns T -> in_uns T x -> in_uns T (x / 256).
Proof.
  intros [|w s] x HT Hx; cbn [in_uns is_uns] in *; [|]; lia.
Qed.

Lemma and255 : forall x, conv (CInt 1 false) (c_and x 255) = x mod 256.
Proof.
  intros. rewrite conv_unsigned. unfold c_and. change 255 with (Z.ones 8).
  rewrite Z.land_ones by lia. change (2 ^ 8) with 256. change (space 1) with 256.
  apply Z.mod_mod. lia.
Qed.

(** ** [to_endianess] *)

Lemma to_loop_little : forall p T k mem off n i x,
  wf_platform p -> is_uns T -> in_uns T x ->
  (off + i + k <= length mem)%nat ->
  to_endianess_loop p T LITTLE mem off n k i x = Ok (splice mem (off + i) (digits k x)).
Proof.
  induction k as [|k IH]; intros mem off n i x Hp HT Hx Hlen; cbn [to_endianess_loop digits].
  - rewrite splice_nil. reflexivity.
  - cbn [byte_index]. rewrite and255, store_ok by lia. cbn [bind].
    rewrite shr8_ok by auto. cbn [bind].
    rewrite in_uns_conv by (auto using in_uns_div).
    rewrite IH; auto using in_uns_div.
    + f_equal. replace (off + S i)%nat with (off + i + length [(x mod 256)%Z])%nat by (simpl; lia).
      rewrite splice_splice_app by (simpl; rewrite digits_length; lia). reflexivity.
    + rewrite splice_length; simpl; lia.
Qed.

Lemma to_loop_big : forall p T k mem off n i x,
  wf_platform p -> is_uns T -> in_uns T x ->
  (i + k = n)%nat -> (off + k <= length mem)%nat ->
  to_endianess_loop p T BIG mem off n k i x = Ok (splice mem off (rev (digits k x))).
Proof.
  induction k as [|k IH]; intros mem off n i x Hp HT Hx Hn Hlen; cbn [to_endianess_loop digits rev].
  - rewrite splice_nil. reflexivity.
  - cbn [byte_index]. rewrite and255, store_ok by lia. cbn [bind].
    rewrite shr8_ok by auto. cbn [bind].
    rewrite in_uns_conv by (auto using in_uns_div).
    rewrite IH; auto using in_uns_div; try lia.
    + f_equal. replace (off + (n - i - 1))%nat with (off + length (rev (digits k (x / 256))))%nat
        by (rewrite rev_length, digits_length; lia).
      apply splice_splice_before. rewrite rev_length, digits_length. simpl. lia.
    + rewrite splice_length; simpl; lia.
Qed.

Lemma obj_bytes_length : forall p T x, length (obj_bytes p T x) = csizeof T.
Proof.
  intros. unfold obj_bytes. destruct (p_endianess p); rewrite ?rev_length; apply digits_length.
Qed.

(** When the native path is taken on a truthful host, the wire endianess is
    the endianess of the host. *)
Lemma native_endianess_eq : forall p e, wf_platform p -> native_endianess p e = true ->
  p_endianess p = e.
Proof.
  intros p e [_ H _ _] Hn. unfold native_endianess in Hn.
  destruct H as [H|H]; rewrite H in Hn; [discriminate|].
  destruct (p_endianess p), e; auto; discriminate.
Qed.

Lemma native_signed_mode_eq : forall p m, wf_platform p -> native_signed_mode p m = true ->
  m = TWOS_COMPLEMENT.
Proof.
  intros p m [_ _ H _] Hn. unfold native_signed_mode in Hn.
  destruct H as [H|H]; rewrite H in Hn; [discriminate|].
  destruct m; auto; discriminate.
Qed.

Theorem to_endianess_unsigned : forall p T e mem off x,
  wf_platform p -> is_uns T -> in_uns T x ->
  (off + csizeof T <= length mem)%nat ->
  to_endianess p T e mem off x (csizeof T) = Ok (splice mem off (wire_bytes e (csizeof T) x)).
Proof.
  intros p T e mem off x Hp HT Hx Hlen. unfold to_endianess.
  destruct (native_endianess p e) eqn:En.
  - rewrite Nat.ltb_irrefl.
    rewrite firstn_all2 by (rewrite obj_bytes_length; lia).
    rewrite store_range_ok by (rewrite obj_bytes_length; lia).
    rewrite wire_bytes_digits. unfold obj_bytes.
    rewrite (native_endianess_eq p e Hp En). destruct e; reflexivity.
  - rewrite wire_bytes_digits. destruct e.
    + rewrite to_loop_little by (auto; lia). rewrite Nat.add_0_r. reflexivity.
    + rewrite to_loop_big by (auto; lia). reflexivity.
Qed.

(** Narrow writes of an [unsigned long long] (signed path): correct on the
    portable path, and on the native path of little endian hosts. *)
Theorem to_endianess_narrow : forall p e mem off x w,
  wf_platform p -> 0 <= x < space 8 -> (w <= 8)%nat ->
  (off + w <= length mem)%nat ->
  (native_endianess p e = true -> w = 8%nat \/ p_endianess p = LITTLE) ->
  to_endianess p ull e mem off x w = Ok (splice mem off (wire_bytes e w x)).
Proof.
  intros p e mem off x w Hp Hx Hw Hlen Hn. unfold to_endianess.
  assert (HT : is_uns ull) by (cbn [is_uns ull]; lia).
  destruct (native_endianess p e) eqn:En.
  - specialize (Hn eq_refl). cbn [csizeof ull].
    destruct (Nat.ltb_spec 8 w); [lia|].
    assert (firstn w (obj_bytes p ull x) = wire_bytes e w x) as ->.
    { rewrite wire_bytes_digits. unfold obj_bytes. pose proof (native_endianess_eq p e Hp En) as He.
      destruct Hn as [->|Hl].
      - rewrite firstn_all2 by (destruct (p_endianess p); rewrite ?rev_length, digits_length; auto).
        rewrite He. destruct e; reflexivity.
      - rewrite Hl in *. subst e. apply digits_firstn. auto. }
    apply store_range_ok. rewrite wire_bytes_length. auto.
  - rewrite wire_bytes_digits. destruct e.
    + rewrite to_loop_little by (auto; lia). rewrite Nat.add_0_r. reflexivity.
    + rewrite to_loop_big by (auto; lia). reflexivity.
Qed.

(** ** [from_endianess] *)

Lemma lor_disjoint : forall a b s, 0 <= s -> 0 <= a < 2 ^ s -> 0 <= b ->
  Z.lor a (Z.shiftl b s) = a + 2 ^ s * b.
Proof.
  intros a b s Hs Ha Hb.
  rewrite Z.shiftl_mul_pow2 by auto.
  assert (H : Z.land a (b * 2 ^ s) = 0).
  { apply Z.bits_inj'. intros i Hi. rewrite Z.land_spec, Z.bits_0.
    destruct (Z.ltb_spec i s).
    - rewrite Z.mul_pow2_bits_low by lia. apply andb_false_r.
    - destruct (Z.eq_dec a 0) as [->|].
      + rewrite Z.bits_0. reflexivity.
      + rewrite Z.bits_above_log2; auto; try lia.
        apply Z.log2_lt_pow2; try lia.
        eapply Z.lt_le_trans; [apply Ha|]. apply Z.pow_le_mono_r; lia. }
  rewrite <- Z.lxor_lor by auto. rewrite <- Z.add_nocarry_lxor by auto. ring.
Qed.

Lemma shl_ok : forall p w b i,
  wf_platform p -> (1 <= w <= 8)%nat -> is_byte b -> (i < w)%nat ->
  c_shl (promote p (CInt w false)) b (bits i) = Ok (Z.shiftl b (bits i)).
Proof.
  intros p w b i Hp Hw Hb Hi. unfold c_shl, is_byte in *. destruct Hp as [Hint _ _ _].
  assert (Hsh : Z.shiftl b (bits i) = b * space i).
  { rewrite Z.shiftl_mul_pow2, <- space_pow2; [reflexivity|unfold bits; lia]. }
  assert (Hlt : 0 <= b * space i < space w).
  { pose proof (space_mono (S i) w ltac:(lia)). rewrite space_S in H.
    pose proof (space_pos i). nia. }
  cbn [promote]. destruct (Nat.ltb_spec w (p_int_size p)); cbn [csizeof].
  - destruct (Z.ltb_spec (bits i) (bits (p_int_size p))); [|unfold bits in *; lia].
    destruct (Z.ltb_spec b 0); [lia|].
    unfold arith. rewrite <- half_pow2 by lia. rewrite Hsh.
    pose proof (half_double w (p_int_size p) ltac:(lia)).
    rewrite <- space_half in H2 by lia.
    destruct (Z.leb_spec (- half (p_int_size p)) (b * space i)); [|lia].
    destruct (Z.ltb_spec (b * space i) (half (p_int_size p))); [|lia]. reflexivity.
  - destruct (Z.ltb_spec (bits i) (bits w)); [|unfold bits in *; lia].
    unfold arith. rewrite <- space_pow2, Hsh, Z.mod_small by lia. reflexivity.
Qed.

(** Loop invariant, for the LITTLE order of traversal abstracted as the list
    [bs] of the bytes met. *)
Lemma from_loop_gen : forall p w e bs mem off n k i acc,
  wf_platform p -> (1 <= w <= 8)%nat ->
  (i + k <= w)%nat -> 0 <= acc < space i ->
  length bs = k -> Forall is_byte bs ->
  (forall j, (j < k)%nat -> nth_error mem (off + byte_index e n (i + j)) = nth_error bs j) ->
  from_endianess_loop p (CInt w false) e mem off n k i (bits i) acc
  = Ok (acc + space i * undigits bs).
Proof.
  intros p w e bs. induction bs as [|b bs IH]; intros mem off n k i acc Hp Hw Hik Hacc Hlen Hbs Hnth;
    simpl in Hlen; subst k; cbn [from_endianess_loop].
  - cbn [undigits]. f_equal. ring.
  - inversion Hbs as [|? ? Hb Hbs']; subst.
    pose proof (Hnth 0%nat ltac:(simpl; lia)) as H0. simpl in H0. rewrite Nat.add_0_r in H0.
    rewrite (load_nth _ _ _ H0). cbn [bind].
    unfold is_byte in Hb.
    assert (Hw256 : 256 <= space w) by (apply (space_mono 1 w); lia).
    rewrite (conv_unsigned w b), Z.mod_small by lia.
    rewrite shl_ok by (auto; simpl in *; lia). cbn [bind].
    unfold c_or. rewrite lor_disjoint; try (unfold bits; lia).
    2:{ rewrite <- space_pow2. auto. }
    rewrite <- space_pow2.
    assert (Hb2 : acc + space i * b < space (S i)) by (rewrite space_S; nia).
    assert (Hb3 : 0 <= space i * b) by (pose proof (space_pos i); nia).
    pose proof (space_mono (S i) w ltac:(simpl in *; lia)).
    rewrite conv_unsigned, Z.mod_small by lia.
    replace (bits i + 8) with (bits (S i)) by (unfold bits; lia).
    rewrite IH; auto; try (simpl in *; lia).
    + f_equal. cbn [undigits]. rewrite space_S. ring.
    + intros j Hj. specialize (Hnth (S j) ltac:(simpl; lia)). simpl in Hnth.
      rewrite <- Hnth. f_equal. f_equal. f_equal. lia.
Qed.

Lemma from_impl_uns : forall p w e mem off n,
  wf_platform p -> (1 <= w <= 8)%nat -> (n <= w)%nat ->
  (off + n <= length mem)%nat -> Forall is_byte mem ->
  from_endianess_impl p (CInt w false) e mem off n = Ok (wire_value e (slice mem off n)).
Proof.
  intros p w e mem off n Hp Hw Hn Hlen Hmem. unfold from_endianess_impl.
  rewrite wire_value_undigits.
  assert (Hsl : length (slice mem off n) = n) by (apply slice_length; auto).
  assert (Hconv0 : conv (CInt w false) 0 = 0) by (rewrite conv_unsigned; apply Z.mod_0_l; pose proof (space_pos w); lia).
  rewrite Hconv0. change 0 with (bits 0) at 1.
  destruct e.
  - rewrite from_loop_gen with (bs := slice mem off n); auto; try lia.
    + f_equal. rewrite space_0. lia.
    + rewrite space_0. lia.
    + apply Forall_slice; auto.
    + intros j Hj. cbn [byte_index]. rewrite nth_error_slice.
      destruct (Nat.ltb_spec j n); [|lia]. reflexivity.
  - rewrite from_loop_gen with (bs := rev (slice mem off n)); auto; try lia.
    + f_equal. rewrite space_0. lia.
    + rewrite space_0. lia.
    + rewrite rev_length. auto.
    + apply Forall_rev, Forall_slice; auto.
    + intros j Hj. cbn [byte_index].
      assert (Hr : nth_error (rev (slice mem off n)) j = nth_error (slice mem off n) (n - S j)).
      { rewrite (nth_error_nth' _ 0) by (rewrite rev_length; lia).
        rewrite rev_nth by lia. rewrite Hsl. symmetry.
        apply nth_error_nth'. lia. }
      rewrite Hr, nth_error_slice.
      destruct (Nat.ltb_spec (n - S j) n); [|lia]. f_equal. lia.
Qed.

Lemma undigits_repeat0 : forall n, undigits (repeat 0 n) = 0.
Proof. induction n; cbn [repeat undigits]; auto. rewrite IHn. reflexivity. Qed.

Lemma digits_0 : forall w, digits w 0 = repeat 0 w.
Proof. induction w; cbn [digits repeat]; auto. f_equal. apply IHw. Qed.

Lemma rev_repeat : forall (A : Type) (x : A) n, rev (repeat x n) = repeat x n.
Proof.
  induction n; simpl; auto. rewrite IHn. clear.
  induction n; simpl; auto. f_equal. auto.
Qed.

Lemma skipn_repeat : forall (A : Type) (x : A) k n, skipn k (repeat x n) = repeat x (n - k).
Proof. induction k; intros [|n]; simpl; auto. Qed.

Theorem from_endianess_uns : forall p w e mem off,
  wf_platform p -> (1 <= w <= 8)%nat ->
  (off + w <= length mem)%nat -> Forall is_byte mem ->
  from_endianess p (CInt w false) e mem off w = Ok (wire_value e (slice mem off w)).
Proof.
  intros p w e mem off Hp Hw Hlen Hmem. unfold from_endianess.
  destruct (native_endianess p e) eqn:En; [|apply from_impl_uns; auto].
  rewrite load_range_ok by auto. cbn [bind csizeof]. rewrite Nat.ltb_irrefl.
  unfold obj_value, overwrite. rewrite slice_length by auto.
  rewrite skipn_all2 by (rewrite obj_bytes_length; auto). rewrite app_nil_r.
  rewrite conv_unsigned, wire_value_undigits, (native_endianess_eq p e Hp En).
  f_equal.
  assert (Hs : Forall is_byte (slice mem off w)) by (apply Forall_slice; auto).
  destruct e; apply Z.mod_small.
  - pose proof (undigits_bounds _ Hs). rewrite slice_length in H by auto. auto.
  - pose proof (undigits_bounds _ (Forall_rev Hs)). rewrite rev_length, slice_length in H by auto. auto.
Qed.

(** Narrow reads into an [unsigned long long]. *)
Theorem from_endianess_narrow : forall p e mem off w,
  wf_platform p -> (w <= 8)%nat ->
  (off + w <= length mem)%nat -> Forall is_byte mem ->
  (native_endianess p e = true -> w = 8%nat \/ p_endianess p = LITTLE) ->
  from_endianess p ull e mem off w = Ok (wire_value e (slice mem off w)).
Proof.
  intros p e mem off w Hp Hw Hlen Hmem Hn. unfold from_endianess.
  destruct (native_endianess p e) eqn:En; [|apply from_impl_uns; auto; lia].
  specialize (Hn eq_refl).
  rewrite load_range_ok by auto. cbn [bind csizeof ull].
  destruct (Nat.ltb_spec 8 w); [lia|].
  unfold obj_value, overwrite. rewrite slice_length by auto.
  change (conv ull 0) with 0. rewrite wire_value_undigits.
  change ull with (CInt 8 false) at 1. cbv iota.
  match goal with |- Ok (conv _ ?u) = _ =>
    replace (conv ull u) with (u mod space 8) by (symmetry; apply (conv_unsigned 8)) end.
  f_equal.
  pose proof (native_endianess_eq p e Hp En) as He.
  assert (Hs : Forall is_byte (slice mem off w)) by (apply Forall_slice; auto).
  destruct Hn as [->|Hl].
  - rewrite skipn_all2 by (rewrite obj_bytes_length; auto). rewrite app_nil_r, He.
    destruct e; apply Z.mod_small.
    + pose proof (undigits_bounds _ Hs). rewrite slice_length in H0 by auto. auto.
    + pose proof (undigits_bounds _ (Forall_rev Hs)). rewrite rev_length, slice_length in H0 by auto. auto.
  - rewrite <- He. unfold obj_bytes. rewrite Hl. cbn [csizeof].
    rewrite digits_0, skipn_repeat, undigits_app, undigits_repeat0, Z.mul_0_r, Z.add_0_r.
    apply Z.mod_small. pose proof (undigits_bounds _ Hs). rewrite slice_length in H0 by auto.
    pose proof (space_mono w 8 Hw). lia.
Qed.

(** [bool]: any non-zero byte reads as [true] on the portable path; on the
    native path the byte must be 0 or 1. *)
Theorem from_endianess_bool : forall p e mem off b,
  wf_platform p -> nth_error mem off = Some b -> is_byte b ->
  from_endianess p CBool e mem off 1 =
  if native_endianess p e && (1 <? b) then Fault TrapRepr
  else Ok (if b =? 0 then 0 else 1).
Proof.
  intros p e mem off b Hp Hb Hbyte. unfold from_endianess.
  destruct (native_endianess p e) eqn:En.
  - cbn [load_range bind]. rewrite (load_nth _ _ _ Hb). cbn [bind csizeof Nat.ltb Nat.leb].
    unfold obj_value, overwrite. cbn [length].
    rewrite skipn_all2 by (rewrite obj_bytes_length; auto). cbn [app rev undigits].
    replace (match p_endianess p with LITTLE => b + 256 * 0 | BIG => b + 256 * 0 end) with b
      by (destruct (p_endianess p); lia).
    unfold is_byte in Hbyte.
    destruct (Z.eqb_spec b 0), (Z.eqb_spec b 1), (Z.ltb_spec 1 b); simpl; try lia; auto; subst; auto.
  - unfold from_endianess_impl. cbn [from_endianess_loop].
    replace (byte_index e 1 0) with 0%nat by (destruct e; reflexivity). rewrite Nat.add_0_r.
    rewrite (load_nth _ _ _ Hb). cbn [bind andb].
    unfold c_shl. cbn [promote csizeof]. destruct Hp as [Hint _ _ _].
    destruct (Z.ltb_spec 0 (bits (p_int_size p))); [|unfold bits in *; lia].
    assert (Hc : 0 <= conv CBool b <= 1) by (cbn [conv]; destruct (b =? 0); lia).
    destruct (Z.ltb_spec (conv CBool b) 0); [lia|].
    rewrite Z.shiftl_0_r. unfold arith. rewrite <- half_pow2 by lia.
    pose proof (half_ge (p_int_size p) ltac:(lia)).
    destruct (Z.leb_spec (- half (p_int_size p)) (conv CBool b)); [|lia].
    destruct (Z.ltb_spec (conv CBool b) (half (p_int_size p))); [|lia].
    cbn [bind andb]. f_equal. cbn [conv]. destruct (b =? 0); reflexivity.
Qed.
