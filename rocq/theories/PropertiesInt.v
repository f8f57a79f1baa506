(** Properties C01 to C09: integers, hosts, portability. *)

From Coq Require Import List ZArith Bool Arith Lia ZifyBool ZifyNat.
From Verif Require Import Base CInt IntModel Spec Conditions TypeLevel Serial
  MemFacts IntProofs SignedProofs TypeLevelProofs SerialProofs CodecFacts Hosts.
Import ListNotations.
Open Scope Z_scope.

(** Unsigned types: [bool] and unsigned integers of 1 to 8 bytes. *)
Definition unsigned_ty (t : ty) : Prop :=
  t = TBool \/ exists w, t = TUns w /\ (1 <= w <= 8)%nat.

Lemma unsigned_ok : forall p e m t v, unsigned_ty t -> has_type t v ->
  ty_ok p e m t /\ encodable p m t v.
Proof.
  intros p e m t v [->|(w & -> & Hw)] Hv; split; unfold ty_ok, encodable; cbn [wf_ty host_ok layout_ok];
    auto; destruct v; cbn in *; auto.
Qed.

(** ** C01 *)

Theorem C01_unsigned_round_trip : forall p e m t v mem off,
  wf_platform p -> unsigned_ty t -> has_type t v ->
  Forall is_byte mem -> (off + wire_size t <= length mem)%nat ->
  exists mem', write_as p e m t v mem off = Ok mem' /\ read_as p e m t mem' off = Ok v.
Proof.
  intros p e m t v mem off Hp Ht Hv Hb Hl. destruct (unsigned_ok p e m t v Ht Hv) as [H1 H2].
  destruct (roundtrip p p e m t v mem off) as (mem' & ? & ? & ?); eauto.
Qed.

Example C01_example :
  write_as avr_portable BIG TWOS_COMPLEMENT (TUns 4) (VInt 305419896) [9; 9; 9; 9; 9; 9] 1
    = Ok [9; 18; 52; 86; 120; 9]
  /\ read_as avr_portable BIG TWOS_COMPLEMENT (TUns 4) [9; 18; 52; 86; 120; 9] 1 = Ok (VInt 305419896)
  /\ unsigned_ty (TUns 4) /\ has_type (TUns 4) (VInt 305419896) /\ Forall is_byte [9; 9; 9; 9; 9; 9].
Proof.
  split; [vm_compute; reflexivity|]. split; [vm_compute; reflexivity|].
  split; [right; exists 4%nat; split; [reflexivity|lia]|]. split; [range|].
  repeat constructor; lia.
Qed.

(** ** C02 *)

(** Position of the base 256 digit found at byte [i] out of [w]. *)
Definition digit_at (e : endianess) (w i : nat) : nat :=
  match e with LITTLE => i | BIG => (w - 1 - i)%nat end.

Lemma nth_wire_bytes : forall e w u i, (i < w)%nat ->
  nth_error (wire_bytes e w u) i = Some (digit u (digit_at e w i)).
Proof.
  intros e w u i Hi.
  assert (Hseq : forall k n j, (j < n)%nat -> nth_error (seq k n) j = Some (k + j)%nat).
  { intros k n. revert k. induction n as [|n IH]; intros k [|j] Hj; cbn [seq nth_error]; try lia.
    - f_equal. lia.
    - rewrite IH by lia. f_equal. lia. }
  destruct e; cbn [wire_bytes digit_at]; rewrite nth_error_map.
  - rewrite Hseq by auto. reflexivity.
  - assert (Hr : nth_error (rev (seq 0 w)) i = nth_error (seq 0 w) (w - 1 - i)).
    { rewrite (nth_error_nth' (rev (seq 0 w)) 0%nat) by (rewrite rev_length, seq_length; auto).
      rewrite (nth_error_nth' (seq 0 w) 0%nat) by (rewrite seq_length; lia).
      f_equal. rewrite rev_nth by (rewrite seq_length; auto). rewrite seq_length. f_equal. lia. }
    rewrite Hr, Hseq by lia. reflexivity.
Qed.

Theorem C02_unsigned_wire_format : forall p e m t z mem off,
  wf_platform p -> unsigned_ty t -> has_type t (VInt z) ->
  (off + wire_size t <= length mem)%nat ->
  exists mem', write_as p e m t (VInt z) mem off = Ok mem'
    /\ length mem' = length mem
    /\ (forall i, (i < wire_size t)%nat ->
          nth_error mem' (off + i) = Some ((z / 256 ^ Z.of_nat (digit_at e (wire_size t) i)) mod 256))
    /\ (forall j, (j < off \/ off + wire_size t <= j)%nat -> nth_error mem' j = nth_error mem j).
Proof.
  intros p e m t z mem off Hp Ht Hv Hl.
  assert (He : enc e m t (VInt z) = wire_bytes e (wire_size t) z)
    by (destruct Ht as [->|(w & -> & Hw)]; reflexivity).
  destruct (unsigned_ok p e m t _ Ht Hv) as [H1 H2].
  eexists. split; [apply write_as_ok; auto|]. rewrite He.
  split; [|split].
  - apply splice_length. rewrite wire_bytes_length. auto.
  - intros i Hi. rewrite nth_error_splice by lia. rewrite wire_bytes_length.
    destruct (Nat.ltb_spec (off + i) off); [lia|].
    destruct (Nat.ltb_spec (off + i) (off + wire_size t)); [|lia].
    replace (off + i - off)%nat with i by lia. rewrite nth_wire_bytes by auto. reflexivity.
  - intros j Hj. rewrite nth_error_splice by lia. rewrite wire_bytes_length.
    destruct (Nat.ltb_spec j off); auto.
    destruct (Nat.ltb_spec j (off + wire_size t)); [lia|auto].
Qed.

Example C02_example :
  write_as ppc_native LITTLE TWOS_COMPLEMENT (TUns 2) (VInt 258) [9; 9; 9; 9] 1 = Ok [9; 2; 1; 9]
  /\ write_as pc_native LITTLE TWOS_COMPLEMENT (TUns 2) (VInt 258) [9; 9; 9; 9] 1 = Ok [9; 2; 1; 9]
  /\ unsigned_ty (TUns 2) /\ has_type (TUns 2) (VInt 258).
Proof.
  split; [vm_compute; reflexivity|]. split; [vm_compute; reflexivity|].
  split; [right; exists 2%nat; split; [reflexivity|lia]|]. range.
Qed.

(** ** C03 *)

Theorem C03_signed_round_trip : forall p e m w z mem off,
  wf_platform p -> (1 <= w <= 8)%nat -> sig_host_ok p e m w ->
  - half w < z < half w ->
  Forall is_byte mem -> (off + w <= length mem)%nat ->
  exists mem', write_as p e m (TSig w) (VInt z) mem off = Ok mem'
               /\ read_as p e m (TSig w) mem' off = Ok (VInt z).
Proof.
  intros p e m w z mem off Hp Hw Hh Hz Hb Hl.
  assert (H1 : ty_ok p e m (TSig w)) by (unfold ty_ok; cbn; auto).
  assert (H2 : encodable p m (TSig w) (VInt z)).
  { split; cbn [has_type all_signed]; [lia|]. left. lia. }
  destruct (roundtrip p p e m (TSig w) (VInt z) mem off) as (mem' & ? & ? & ?); eauto.
Qed.

Example C03_example :
  write_as pc_portable LITTLE SIGNED_MAGNITUDE (TSig 4) (VInt (-2)) [0; 0; 0; 0] 0 = Ok [2; 0; 0; 128]
  /\ read_as pc_portable LITTLE SIGNED_MAGNITUDE (TSig 4) [2; 0; 0; 128] 0 = Ok (VInt (-2))
  /\ sig_host_ok pc_portable LITTLE SIGNED_MAGNITUDE 4 /\ - half 4 < -2 < half 4.
Proof.
  split; [vm_compute; reflexivity|]. split; [vm_compute; reflexivity|].
  split; [right; left; reflexivity|]. vm_compute. auto.
Qed.

(** ** C04 *)

Theorem C04_signed_wire_format : forall p e m w z mem off,
  wf_platform p -> (1 <= w <= 8)%nat -> sig_host_ok p e m w ->
  - half w < z < half w ->
  (off + w <= length mem)%nat ->
  write_as p e m (TSig w) (VInt z) mem off
  = Ok (splice mem off (wire_bytes e w (repr m w z))).
Proof.
  intros. apply write_sig; auto; [lia|]. left. lia.
Qed.

(** The code words are the textbook ones: they denote the number, and the number
    only. *)
Theorem C04_code_words : forall m w z,
  (1 <= w <= 8)%nat -> - half w < z < half w ->
  0 <= repr m w z < space w /\ unrepr m w (repr m w z) = z
  /\ (0 <= z -> m <> OFFSET_BINARY -> repr m w z = z)
  /\ (z < 0 -> match m with
               | SIGNED_MAGNITUDE => repr m w z - half w = Z.abs z
               | ONES_COMPLEMENT => space w - 1 - repr m w z = Z.abs z
               | TWOS_COMPLEMENT => repr m w z = z mod space w
               | OFFSET_BINARY => True
               end)
  /\ (m = OFFSET_BINARY -> repr m w z = z + half w).
Proof.
  intros m w z Hw Hz. pose proof (space_half w ltac:(lia)).
  assert (Hr : representable m w z) by (destruct m; cbn; lia).
  split; [apply repr_in_space; auto|]. split; [apply unrepr_repr; auto|].
  split; [|split].
  - intros H0 Hm. destruct m; cbn [repr]; destruct (Z.ltb_spec z 0); try lia; contradiction.
  - intros Hn. destruct m; cbn [repr]; destruct (Z.ltb_spec z 0); try lia.
    symmetry. rewrite <- (Z_mod_plus_full z 1 (space w)). rewrite Z.mod_small; lia.
  - intros ->. cbn [repr]. lia.
Qed.

Example C04_example :
  write_as ppc_native BIG TWOS_COMPLEMENT (TSig 2) (VInt (-2)) [0; 0] 0 = Ok [255; 254]
  /\ write_as ppc_native BIG ONES_COMPLEMENT (TSig 8) (VInt (-2)) [0;0;0;0;0;0;0;0] 0
     = Ok [255; 255; 255; 255; 255; 255; 255; 253]
  /\ sig_host_ok ppc_native BIG TWOS_COMPLEMENT 2.
Proof.
  split; [vm_compute; reflexivity|]. split; [vm_compute; reflexivity|].
  right; right; reflexivity.
Qed.

(** ** C05 *)

(** The minimum of a signed type is encoded, and its code word decoded, as the
    textbook says exactly when [-min] is not computed or does not overflow. *)
Theorem C05_minimum_partial : forall p e m w mem off,
  wf_platform p -> (1 <= w <= 8)%nat -> sig_host_ok p e m w ->
  representable m w (- half w) ->
  Forall is_byte mem -> (off + w <= length mem)%nat ->
  (min_ok p m w ->
     exists mem', write_as p e m (TSig w) (VInt (- half w)) mem off = Ok mem'
       /\ mem' = splice mem off (wire_bytes e w (repr m w (- half w)))
       /\ read_as p e m (TSig w) mem' off = Ok (VInt (- half w)))
  /\ (~ min_ok p m w ->
        write_as p e m (TSig w) (VInt (- half w)) mem off = Fault SignedOverflow
        /\ (slice mem off w = wire_bytes e w (repr m w (- half w)) ->
            read_as p e m (TSig w) mem off = Fault SignedOverflow)).
Proof.
  intros p e m w mem off Hp Hw Hh Hr Hb Hl.
  pose proof (half_pos w ltac:(lia)) as Hpos. pose proof (space_half w ltac:(lia)) as Hsp.
  split.
  - intros Hm.
    assert (H1 : ty_ok p e m (TSig w)) by (unfold ty_ok; cbn; auto).
    assert (H2 : encodable p m (TSig w) (VInt (- half w))).
    { split; cbn [has_type all_signed]; [lia|]. right. auto. }
    destruct (roundtrip p p e m (TSig w) (VInt (- half w)) mem off) as (mem' & Hw' & Hr' & _); auto.
    exists mem'. split; auto. split; auto.
    rewrite write_as_ok in Hw' by auto. cbn [enc] in Hw'. congruence.
  - intros Hm. destruct m; cbn [min_ok representable] in *; try lia; try tauto.
    unfold twos_min_ok in Hm.
    assert (Hi : (p_int_size p <= w)%nat) by lia.
    assert (Hn : native_signed_mode p TWOS_COMPLEMENT = false)
      by (destruct (native_signed_mode p TWOS_COMPLEMENT); tauto).
    split; [apply write_min_wide; auto; discriminate|].
    intros Hs. apply read_min_wide; auto.
    rewrite Hs. f_equal. cbn [repr]. destruct (Z.ltb_spec (- half w) 0); lia.
Qed.

(** On a host where the signed mode is not declared, writing INT_MIN (or
    LLONG_MIN) in two's complement overflows, and so does reading it. *)
Theorem C05_minimum_refuted : exists p e m w mem,
  wf_platform p /\ sig_host_ok p e m w /\ representable m w (- half w) /\ length mem = w
  /\ write_as p e m (TSig w) (VInt (- half w)) mem 0 = Fault SignedOverflow
  /\ read_as p e m (TSig w) (wire_bytes e w (repr m w (- half w))) 0 = Fault SignedOverflow.
Proof.
  exists pc_portable, LITTLE, TWOS_COMPLEMENT, 4%nat, [0; 0; 0; 0].
  split; [apply pc_portable_wf|]. split; [right; left; reflexivity|].
  split; [cbn [representable]; vm_compute; split; [discriminate|reflexivity]|].
  split; [reflexivity|]. split; vm_compute; reflexivity.
Qed.

(** In the two representations which cannot express the minimum, writing it is
    either undefined or silently gives another number. *)
Theorem C05_inexpressible : forall p e m w mem off,
  wf_platform p -> (1 <= w <= 8)%nat -> (off + w <= length mem)%nat ->
  m = SIGNED_MAGNITUDE \/ m = ONES_COMPLEMENT -> (p_int_size p <= w)%nat ->
  write_as p e m (TSig w) (VInt (- half w)) mem off = Fault SignedOverflow.
Proof.
  intros p e m w mem off Hp Hw Hl Hm Hi. apply write_min_wide; auto.
  - destruct (native_signed_mode p m) eqn:E; auto. apply native_signed_mode_eq in E; auto.
    destruct Hm; congruence.
  - destruct Hm; congruence.
Qed.

Example C05_example_int8_min :
  min_ok pc_portable TWOS_COMPLEMENT 1
  /\ write_as pc_portable LITTLE TWOS_COMPLEMENT (TSig 1) (VInt (-128)) [0] 0 = Ok [128]
  /\ read_as pc_portable LITTLE TWOS_COMPLEMENT (TSig 1) [128] 0 = Ok (VInt (-128))
  (* minimum of int8_t through signed magnitude: reads back as 0 *)
  /\ write_as pc_portable LITTLE SIGNED_MAGNITUDE (TSig 1) (VInt (-128)) [0] 0 = Ok [128]
  /\ read_as pc_portable LITTLE SIGNED_MAGNITUDE (TSig 1) [128] 0 = Ok (VInt 0)
  (* through ones' complement: reads back as 127 *)
  /\ write_as pc_portable LITTLE ONES_COMPLEMENT (TSig 1) (VInt (-128)) [0] 0 = Ok [127]
  /\ read_as pc_portable LITTLE ONES_COMPLEMENT (TSig 1) [127] 0 = Ok (VInt 127).
Proof. split; [left; vm_compute; lia|]. vm_compute. auto 10. Qed.

(** ** C06 *)

(** Exact result of reading any bytes as any integer: the textbook decoding,
    in the range of the type, or one of two faults. *)
Theorem C06_decode_integers_partial : forall p e m t mem off,
  wf_platform p ->
  (t = TBool \/ exists w, (t = TUns w \/ t = TSig w) /\ (1 <= w <= 8)%nat) ->
  host_ok p e m t ->
  Forall is_byte mem -> (off + wire_size t <= length mem)%nat ->
  let bs := slice mem off (wire_size t) in
  (decodable p e m t bs /\ read_as p e m t mem off = Ok (dec e m t bs) /\ has_type t (dec e m t bs))
  \/ (t = TBool /\ native_endianess p e = true /\ 1 < wire_value e bs
      /\ read_as p e m t mem off = Fault TrapRepr)
  \/ (exists w, t = TSig w /\ m = TWOS_COMPLEMENT /\ wire_value e bs = half w
      /\ (p_int_size p <= w)%nat /\ native_signed_mode p m = false
      /\ read_as p e m t mem off = Fault SignedOverflow).
Proof.
  intros p e m t mem off Hp Ht Hh Hb Hl bs.
  assert (Hok : ty_ok p e m t).
  { unfold ty_ok. destruct Ht as [->|(w & [->| ->] & Hw)]; cbn; auto. }
  assert (Hty : has_type t (dec e m t bs)).
  { apply dec_has_type; [apply Hok| |apply Forall_slice; auto]. apply slice_length. auto. }
  assert (D : decodable p e m t bs -> read_as p e m t mem off = Ok (dec e m t bs)).
  { intros D. apply read_as_ok; auto. }
  destruct Ht as [->|(w & [->| ->] & Hw)].
  - cbn [wire_size] in *. destruct (nth_error mem off) as [b|] eqn:Eb.
    2:{ apply nth_error_None in Eb. lia. }
    assert (Hsl : bs = [b]).
    { unfold bs. apply nth_error_ext. intros [|i]; rewrite nth_error_slice.
      - rewrite Nat.add_0_r. auto.
      - destruct i; reflexivity. }
    assert (Hwv : wire_value e bs = b) by (rewrite Hsl; unfold wire_value; destruct e; cbn [fold_right fold_left]; lia).
    assert (Hbb : is_byte b) by (rewrite Forall_forall in Hb; apply Hb; eapply nth_error_In; eauto).
    destruct (native_endianess p e) eqn:En.
    + destruct (Z.ltb_spec 1 b).
      * right. left. rewrite Hwv. repeat split; auto. cbn [read_as sizeof].
        rewrite (from_endianess_bool p e mem off b) by auto. rewrite En.
        destruct (Z.ltb_spec 1 b); [reflexivity|lia].
      * left. assert (decodable p e m TBool bs).
        { cbn [decodable]. rewrite Hwv. intros _. unfold is_byte in Hbb. lia. }
        auto.
    + left. assert (decodable p e m TBool bs).
      { cbn [decodable]. intros X. rewrite En in X. discriminate. }
      auto.
  - left. assert (decodable p e m (TUns w) bs) by exact I. auto.
  - cbn [wire_size host_ok] in *. destruct (read_sig_exact p e m w mem off) as [[Hd Hr]|[Hd Hr]]; auto.
    + right. right. exists w.
      destruct m; try (exfalso; apply Hd; intros X; discriminate).
      destruct (Z.eq_dec (wire_value e bs) (half w)) as [Hu|Hu].
      2:{ exfalso. apply Hd. intros _ X. contradiction. }
      unfold sig_decodable, twos_min_ok in Hd.
      destruct (native_signed_mode p TWOS_COMPLEMENT).
      { exfalso. apply Hd. auto. }
      repeat split; auto. destruct (le_lt_dec (p_int_size p) w); auto. exfalso. apply Hd. auto.
Qed.

(** Any type: bytes which fall in none of the two faults are decoded. *)
Theorem C06_decode_partial : forall p e m t mem off,
  wf_platform p -> ty_ok p e m t ->
  Forall is_byte mem -> (off + wire_size t <= length mem)%nat ->
  decodable p e m t (slice mem off (wire_size t)) ->
  read_as p e m t mem off = Ok (dec e m t (slice mem off (wire_size t)))
  /\ has_type t (dec e m t (slice mem off (wire_size t))).
Proof.
  intros p e m t mem off Hp Hok Hb Hl Hd. split; [apply read_as_ok; auto|].
  apply dec_has_type; [apply Hok|apply slice_length; auto|apply Forall_slice; auto].
Qed.

(** Negative zero is zero. *)
Theorem C06_negative_zero : forall p e m w mem off,
  wf_platform p -> (1 <= w <= 8)%nat -> sig_host_ok p e m w ->
  Forall is_byte mem -> (off + w <= length mem)%nat ->
  negative_zero m w (wire_value e (slice mem off w)) ->
  read_as p e m (TSig w) mem off = Ok (VInt 0).
Proof.
  intros p e m w mem off Hp Hw Hh Hb Hl Hz.
  rewrite read_as_ok; auto.
  - cbn [dec wire_size]. rewrite unrepr_neg_zero; auto.
  - unfold ty_ok; cbn; auto.
  - cbn [decodable wire_size]. intros ->. contradiction.
Qed.

(** The two faults do happen: a received byte 2 read as [bool] when the
    endianess is declared; the code word of INT_MIN when the signed mode is
    not. *)
Theorem C06_decode_refuted :
  (exists p e m mem, wf_platform p /\ Forall is_byte mem /\ length mem = 1%nat
     /\ read_as p e m TBool mem 0 = Fault TrapRepr)
  /\ (exists p e m w mem, wf_platform p /\ sig_host_ok p e m w /\ Forall is_byte mem /\ length mem = w
     /\ read_as p e m (TSig w) mem 0 = Fault SignedOverflow).
Proof.
  split.
  - exists pc_native, LITTLE, TWOS_COMPLEMENT, [2]. split; [apply pc_native_wf|].
    split; [repeat constructor; lia|]. split; [reflexivity|]. vm_compute. reflexivity.
  - exists pc_portable, BIG, TWOS_COMPLEMENT, 8%nat, [128; 0; 0; 0; 0; 0; 0; 0].
    split; [apply pc_portable_wf|]. split; [left; reflexivity|].
    split; [repeat constructor; lia|]. split; [reflexivity|]. vm_compute. reflexivity.
Qed.

Example C06_example :
  read_as pc_portable LITTLE ONES_COMPLEMENT (TSig 2) [255; 255] 0 = Ok (VInt 0)
  /\ read_as avr_portable LITTLE SIGNED_MAGNITUDE (TSig 2) [0; 128] 0 = Ok (VInt 0)
  /\ read_as ppc_portable BIG OFFSET_BINARY (TSig 2) [0; 0] 0 = Ok (VInt (-32768))
  /\ negative_zero ONES_COMPLEMENT 2 (wire_value LITTLE (slice [255; 255] 0 2)).
Proof. vm_compute. auto. Qed.

(** ** C07 *)

Theorem C07_injective : forall p e m t v v' mem off,
  wf_platform p -> ty_ok p e m t -> encodable p m t v -> encodable p m t v' ->
  (off + wire_size t <= length mem)%nat ->
  write_as p e m t v mem off = write_as p e m t v' mem off -> v = v'.
Proof.
  intros p e m t v v' mem off Hp Hok Hv Hv' Hl H.
  assert (L : length (enc e m t v) = wire_size t) by (apply enc_length; apply Hv).
  assert (L' : length (enc e m t v') = wire_size t) by (apply enc_length; apply Hv').
  rewrite !write_as_ok in H by auto.
  assert (E : splice mem off (enc e m t v) = splice mem off (enc e m t v')) by congruence.
  apply splice_inj in E; try lia.
  rewrite <- (dec_enc p e m t v) by (auto; apply Hok).
  rewrite <- (dec_enc p e m t v') by (auto; apply Hok). congruence.
Qed.

(** Decoding then re-encoding gives the same bytes back, negative zeros and
    non-canonical [bool] excepted. *)
Theorem C07_reencode : forall p e m t mem off v,
  wf_platform p -> ty_ok p e m t ->
  Forall is_byte mem -> (off + wire_size t <= length mem)%nat ->
  decodable p e m t (slice mem off (wire_size t)) ->
  canonical e m t (slice mem off (wire_size t)) ->
  read_as p e m t mem off = Ok v ->
  write_as p e m t v mem off = Ok mem.
Proof.
  intros p e m t mem off v Hp Hok Hb Hl Hd Hc Hr.
  assert (Hs : length (slice mem off (wire_size t)) = wire_size t) by (apply slice_length; auto).
  assert (Hsb : Forall is_byte (slice mem off (wire_size t))) by (apply Forall_slice; auto).
  assert (Hwf : wf_ty t) by apply Hok.
  rewrite read_as_ok in Hr by auto. injection Hr as <-.
  rewrite write_as_ok; auto using decodable_encodable. rewrite enc_dec by auto.
  f_equal. apply splice_slice_id. auto.
Qed.

(** On a negative zero, re-encoding gives the encoding of zero. *)
Theorem C07_reencode_negative_zero : forall p e m w mem off,
  wf_platform p -> (1 <= w <= 8)%nat -> sig_host_ok p e m w ->
  Forall is_byte mem -> (off + w <= length mem)%nat ->
  negative_zero m w (wire_value e (slice mem off w)) ->
  exists v, read_as p e m (TSig w) mem off = Ok v
    /\ write_as p e m (TSig w) v mem off = Ok (splice mem off (wire_bytes e w 0)).
Proof.
  intros p e m w mem off Hp Hw Hh Hb Hl Hz. exists (VInt 0). split.
  - apply C06_negative_zero; auto.
  - pose proof (half_pos w ltac:(lia)). rewrite write_sig; auto.
    + destruct m; try contradiction; reflexivity.
    + lia.
    + left. lia.
Qed.

Example C07_example :
  canonical BIG SIGNED_MAGNITUDE (TSig 2) [128; 1] /\ ~ canonical BIG SIGNED_MAGNITUDE (TSig 2) [128; 0]
  /\ decodable pc_portable BIG SIGNED_MAGNITUDE (TSig 2) [128; 1]
  /\ read_as pc_portable BIG SIGNED_MAGNITUDE (TSig 2) [128; 1] 0 = Ok (VInt (-1))
  /\ write_as pc_portable BIG SIGNED_MAGNITUDE (TSig 2) (VInt (-1)) [128; 1] 0 = Ok [128; 1]
  /\ write_as pc_portable BIG SIGNED_MAGNITUDE (TSig 2) (VInt (-2)) [0; 0] 0 = Ok [128; 2].
Proof.
  split; [vm_compute; discriminate|]. split; [intros H; apply H; reflexivity|].
  split; [intros X; discriminate|]. vm_compute. auto.
Qed.

(** ** C08 *)

Theorem C08_same_bytes : forall p q e m t v mem off,
  wf_platform p -> wf_platform q -> ty_ok p e m t -> ty_ok q e m t ->
  encodable p m t v -> encodable q m t v -> (off + wire_size t <= length mem)%nat ->
  write_as p e m t v mem off = write_as q e m t v mem off.
Proof. intros. rewrite !write_as_ok by auto. reflexivity. Qed.

Theorem C08_same_values : forall p q e m t mem off,
  wf_platform p -> wf_platform q -> ty_ok p e m t -> ty_ok q e m t ->
  Forall is_byte mem -> (off + wire_size t <= length mem)%nat ->
  decodable p e m t (slice mem off (wire_size t)) ->
  decodable q e m t (slice mem off (wire_size t)) ->
  read_as p e m t mem off = read_as q e m t mem off.
Proof. intros. rewrite !read_as_ok by auto. reflexivity. Qed.

(** What a host writes, another one reads. *)
Theorem C08_exchange : forall p q e m t v mem off,
  wf_platform p -> wf_platform q -> ty_ok p e m t -> ty_ok q e m t ->
  encodable p m t v -> encodable q m t v ->
  Forall is_byte mem -> (off + wire_size t <= length mem)%nat ->
  exists mem', write_as p e m t v mem off = Ok mem' /\ read_as q e m t mem' off = Ok v.
Proof.
  intros. destruct (roundtrip p q e m t v mem off) as (mem' & ? & ? & ?); eauto.
Qed.

Definition sample_ty : ty := TUser 12 [TUns 2; TArr (TSig 2) 2; TBool].
Definition sample_val : val := VList [VInt 513; VList [VInt (-2); VInt 3]; VInt 1].

Example C08_example :
  ty_ok avr_portable LITTLE TWOS_COMPLEMENT sample_ty /\ ty_ok ppc_native LITTLE OFFSET_BINARY sample_ty
  /\ encodable avr_portable TWOS_COMPLEMENT sample_ty sample_val
  /\ write_as avr_portable LITTLE TWOS_COMPLEMENT sample_ty sample_val (repeat 0 7) 0
     = Ok [1; 2; 254; 255; 3; 0; 1]
  /\ read_as pc_native LITTLE TWOS_COMPLEMENT sample_ty [1; 2; 254; 255; 3; 0; 1] 0 = Ok sample_val.
Proof.
  split; [unfold ty_ok, sample_ty; cbn; intuition (auto; try lia); right; left; reflexivity|].
  split; [unfold ty_ok, sample_ty; cbn; intuition (auto; try lia); right; right; reflexivity|].
  split.
  - split; cbn; intuition (auto; try lia); repeat constructor; vm_compute; auto; discriminate.
  - vm_compute. auto.
Qed.

(** ** C09 *)

(** The same host without any macro defined. *)
Definition undeclared (p : platform) : platform :=
  mk_platform (p_int_size p) (p_endianess p) None None (p_indet p).

Lemma undeclared_wf : forall p, wf_platform p -> wf_platform (undeclared p).
Proof. intros p [H1 H2 H3 H4]. constructor; cbn; auto. Qed.

Lemma undeclared_sig_host : forall p e m w, sig_host_ok (undeclared p) e m w.
Proof. intros. right. right. reflexivity. Qed.

Lemma undeclared_host_ok : forall p e m t, host_ok (undeclared p) e m t.
Proof.
  intros p e m. induction t using ty_ind_nested; cbn [host_ok]; auto.
  - apply undeclared_sig_host.
  - apply (host_ok_user (undeclared p) e m s). auto.
Qed.

Lemma undeclared_min : forall p m w, min_ok (undeclared p) m w -> min_ok p m w.
Proof.
  intros p m w. destruct m; cbn [min_ok]; auto. unfold twos_min_ok. cbn. intros [H|H]; auto. discriminate.
Qed.

Lemma undeclared_encodable : forall p m t v, wf_ty t -> encodable (undeclared p) m t v -> encodable p m t v.
Proof.
  intros p m t v Hwf [H1 H2]. split; auto.
  apply (all_signed_impl (sig_encodable (undeclared p) m)); auto.
  intros w z _ _ [H|H]; [left|right]; auto. apply undeclared_min; auto.
Qed.

(** On the hosts characterised below the macros change neither the bytes
    written nor the values read. *)
Theorem C09_optimisation_partial : forall p e m t,
  wf_platform p -> ty_ok p e m t ->
  (forall v mem off, encodable (undeclared p) m t v -> (off + wire_size t <= length mem)%nat ->
     write_as p e m t v mem off = write_as (undeclared p) e m t v mem off)
  /\ (forall mem off, Forall is_byte mem -> (off + wire_size t <= length mem)%nat ->
        decodable p e m t (slice mem off (wire_size t)) ->
        decodable (undeclared p) e m t (slice mem off (wire_size t)) ->
        read_as p e m t mem off = read_as (undeclared p) e m t mem off).
Proof.
  intros p e m t Hp Hok.
  assert (Hoku : ty_ok (undeclared p) e m t).
  { destruct Hok as (H1 & H2 & H3). unfold ty_ok. auto using undeclared_host_ok. }
  pose proof (undeclared_wf p Hp). split.
  - intros v mem off Hv Hl. rewrite !write_as_ok; auto. apply undeclared_encodable; auto. apply Hok.
  - intros mem off Hb Hl H1 H2. rewrite !read_as_ok by auto. reflexivity.
Qed.

(** Exactly which hosts: the macros are harmless for a signed type if and only
    if [sig_host_ok]. *)
Theorem C09_characterisation_partial : forall p e m w mem off,
  wf_platform p -> (1 <= w <= 8)%nat -> (off + w <= length mem)%nat ->
  (forall z, - half w < z < half w ->
     write_as p e m (TSig w) (VInt z) mem off = write_as (undeclared p) e m (TSig w) (VInt z) mem off)
  <-> (w = 8%nat \/ p_endianess p = LITTLE \/ native_endianess p e = native_signed_mode p m).
Proof.
  intros p e m w mem off Hp Hw Hl.
  assert (U : forall z, - half w < z < half w ->
    write_as (undeclared p) e m (TSig w) (VInt z) mem off
    = Ok (splice mem off (wire_bytes e w (repr m w z)))).
  { intros z Hz. apply write_sig; auto using undeclared_wf, undeclared_sig_host; [lia|]. left. lia. }
  split.
  - intros H. apply (sig_host_necessary p e m w mem off); auto. intros z Hz. rewrite H by auto. auto.
  - intros H z Hz. rewrite U by auto. apply write_sig; auto; [lia|]. left. lia.
Qed.

(** A big endian host which declares only its endianess sends other bytes. *)
Theorem C09_optimisation_refuted :
  exists p e m w z mem, wf_platform p /\ - half w < z < half w /\ length mem = w
    /\ write_as p e m (TSig w) (VInt z) mem 0 = Ok [0; 0]
    /\ write_as (undeclared p) e m (TSig w) (VInt z) mem 0 = Ok [0; 1].
Proof.
  exists ppc_endianess_only, BIG, TWOS_COMPLEMENT, 2%nat, 1, [9; 9].
  split; [apply ppc_endianess_only_wf|]. split; [vm_compute; auto|].
  split; [reflexivity|]. split; vm_compute; reflexivity.
Qed.

(** Declaring only the signed mode sends uninitialised bytes. *)
Theorem C09_signed_mode_only_refuted :
  exists p e m w z mem, wf_platform p /\ - half w < z < half w /\ length mem = w
    /\ write_as p e m (TSig w) (VInt z) mem 0 = Ok [p_indet p 7%nat; p_indet p 6%nat]
    /\ write_as (undeclared p) e m (TSig w) (VInt z) mem 0 = Ok [1; 0].
Proof.
  exists ppc_signed_only, LITTLE, TWOS_COMPLEMENT, 2%nat, 1, [9; 9].
  split; [apply ppc_signed_only_wf|]. split; [vm_compute; auto|].
  split; [reflexivity|]. split; vm_compute; reflexivity.
Qed.

Example C09_example :
  ty_ok ppc_native BIG TWOS_COMPLEMENT (TSig 2)
  /\ encodable (undeclared ppc_native) TWOS_COMPLEMENT (TSig 2) (VInt (-3))
  /\ write_as ppc_native BIG TWOS_COMPLEMENT (TSig 2) (VInt (-3)) [9; 9] 0 = Ok [255; 253].
Proof.
  split; [unfold ty_ok; cbn; intuition (auto; try lia); right; right; reflexivity|].
  split; [split; [vm_compute; split; [discriminate|reflexivity]|left; reflexivity]|].
  vm_compute. reflexivity.
Qed.

Print Assumptions C01_unsigned_round_trip.
Print Assumptions C02_unsigned_wire_format.
Print Assumptions C03_signed_round_trip.
Print Assumptions C04_signed_wire_format.
Print Assumptions C04_code_words.
Print Assumptions C05_minimum_partial.
Print Assumptions C05_minimum_refuted.
Print Assumptions C05_inexpressible.
Print Assumptions C06_decode_integers_partial.
Print Assumptions C06_decode_partial.
Print Assumptions C06_negative_zero.
Print Assumptions C06_decode_refuted.
Print Assumptions C07_injective.
Print Assumptions C07_reencode.
Print Assumptions C07_reencode_negative_zero.
Print Assumptions C08_same_bytes.
Print Assumptions C08_same_values.
Print Assumptions C08_exchange.
Print Assumptions C09_optimisation_partial.
Print Assumptions C09_characterisation_partial.
Print Assumptions C09_optimisation_refuted.
Print Assumptions C09_signed_mode_only_refuted.
