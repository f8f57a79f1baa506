(** Property C96: the options of the build and the macros about the platform, true
    or not. *)

From Coq Require Import List ZArith Bool Arith Lia ZifyBool ZifyNat.
From Coq Require Ascii String.
Import String.StringSyntax.
From Verif Require Import Base CInt IntModel Spec Conditions TypeLevel Serial
  MemFacts IntProofs SignedProofs TypeLevelProofs SerialProofs CodecFacts Hosts PropertiesInt Configure.
Import ListNotations.
Open Scope Z_scope.

(** A host: the macros are not looked at. *)
Definition host (p : platform) : Prop :=
  (2 <= p_int_size p <= 8)%nat /\ forall i, is_byte (p_indet p i).

Lemma host_undeclared : forall p, host p -> wf_platform (undeclared p).
Proof. intros p [H1 H2]. constructor; cbn; auto. Qed.

(** ** Macros which may lie *)

(** Integers of [w] bytes are written as documented. *)
Definition writes_unsigned (p : platform) (e : endianess) (m : signed_mode) (w : nat) : Prop :=
  forall z mem off, 0 <= z < space w -> (off + w <= length mem)%nat ->
    write_as p e m (TUns w) (VInt z) mem off = Ok (splice mem off (wire_bytes e w z)).
Definition writes_signed (p : platform) (e : endianess) (m : signed_mode) (w : nat) : Prop :=
  forall z mem off, - half w < z < half w -> (off + w <= length mem)%nat ->
    write_as p e m (TSig w) (VInt z) mem off = Ok (splice mem off (wire_bytes e w (repr m w z))).

(** Integers of [w] bytes are read as documented. *)
Definition reads_unsigned (p : platform) (e : endianess) (m : signed_mode) (w : nat) : Prop :=
  forall z mem off, 0 <= z < space w -> (off + w <= length mem)%nat -> Forall is_byte mem ->
    slice mem off w = wire_bytes e w z -> read_as p e m (TUns w) mem off = Ok (VInt z).
Definition reads_signed (p : platform) (e : endianess) (m : signed_mode) (w : nat) : Prop :=
  forall z mem off, - half w < z < half w -> (off + w <= length mem)%nat -> Forall is_byte mem ->
    slice mem off w = wire_bytes e w (repr m w z) -> read_as p e m (TSig w) mem off = Ok (VInt z).

(** The macro about the endianess does not lie about this format, or the order of
    the bytes does not matter. *)
Definition order_ok (p : platform) (e : endianess) (w : nat) : Prop :=
  p_decl_endianess p = Some e -> e = p_endianess p \/ w = 1%nat.

(** The macro about signed integers does not lie about this format. *)
Definition mode_ok (p : platform) (m : signed_mode) : Prop :=
  p_decl_signed_mode p = Some m -> m = TWOS_COMPLEMENT.

(** What the native path does is what it does with true macros and the format of
    the host. *)
Definition told (p : platform) (e : endianess) (m : signed_mode) : platform :=
  mk_platform (p_int_size p) (p_endianess p)
    (if native_endianess p e then Some (p_endianess p) else None)
    (if native_signed_mode p m then Some TWOS_COMPLEMENT else None) (p_indet p).
Definition real_order (p : platform) (e : endianess) : endianess :=
  if native_endianess p e then p_endianess p else e.
Definition real_mode (p : platform) (m : signed_mode) : signed_mode :=
  if native_signed_mode p m then TWOS_COMPLEMENT else m.

Lemma told_wf : forall p e m, host p -> wf_platform (told p e m).
Proof.
  intros p e m [H1 H2]. constructor; cbn; auto.
  - destruct (native_endianess p e); auto.
  - destruct (native_signed_mode p m); auto.
Qed.

Lemma native_decl : forall p e, native_endianess p e = true <-> p_decl_endianess p = Some e.
Proof.
  intros p e. unfold native_endianess. destruct (p_decl_endianess p) as [e'|]; [|split; discriminate].
  destruct e', e; cbn; split; congruence.
Qed.

Lemma native_mode_decl : forall p m, native_signed_mode p m = true <-> p_decl_signed_mode p = Some m.
Proof.
  intros p m. unfold native_signed_mode. destruct (p_decl_signed_mode p) as [m'|]; [|split; discriminate].
  destruct m', m; cbn; split; congruence.
Qed.

Lemma told_order : forall p e m, native_endianess (told p e m) (real_order p e) = native_endianess p e.
Proof.
  intros p e m. unfold real_order. unfold native_endianess at 1. cbn [told p_decl_endianess].
  destruct (native_endianess p e) eqn:E; auto. destruct (p_endianess p); reflexivity.
Qed.

Lemma told_mode : forall p e m, native_signed_mode (told p e m) (real_mode p m) = native_signed_mode p m.
Proof.
  intros p e m. unfold real_mode. unfold native_signed_mode at 1. cbn [told p_decl_signed_mode].
  destruct (native_signed_mode p m) eqn:E; auto.
Qed.

Lemma to_loop_told : forall p e m T d mem off n k i x,
  to_endianess_loop (told p e m) T d mem off n k i x = to_endianess_loop p T d mem off n k i x.
Proof.
  intros p e m T d mem off n k. revert mem. induction k as [|k IH]; intros mem i x; cbn [to_endianess_loop]; auto.
  change (promote (told p e m) T) with (promote p T).
  destruct (store mem (off + byte_index d n i) (conv (CInt 1 false) (c_and x 255))); auto. cbn [bind].
  destruct (c_shr (promote p T) x 8); auto. cbn [bind]. apply IH.
Qed.

Lemma to_endianess_told : forall p e m T mem off x n,
  to_endianess p T e mem off x n = to_endianess (told p e m) T (real_order p e) mem off x n.
Proof.
  intros p e m T mem off x n. unfold to_endianess. rewrite told_order, to_loop_told. unfold real_order.
  destruct (native_endianess p e); reflexivity.
Qed.

Lemma to_signed_told : forall p e m w z,
  to_signed_mode p w m z = to_signed_mode (told p e m) w (real_mode p m) z.
Proof.
  intros p e m w z. unfold to_signed_mode. rewrite told_mode. unfold real_mode.
  destruct (native_signed_mode p m); reflexivity.
Qed.

Lemma write_uns_told : forall p e m w v mem off,
  write_as p e m (TUns w) v mem off = write_as (told p e m) (real_order p e) (real_mode p m) (TUns w) v mem off.
Proof. intros p e m w [z|vs] mem off; cbn [write_as]; auto. apply to_endianess_told. Qed.

Lemma write_sig_told : forall p e m w v mem off,
  write_as p e m (TSig w) v mem off = write_as (told p e m) (real_order p e) (real_mode p m) (TSig w) v mem off.
Proof.
  intros p e m w [z|vs] mem off; cbn [write_as]; auto. rewrite <- (to_signed_told p e m).
  destruct (to_signed_mode p w m z); auto. cbn [bind]. apply to_endianess_told.
Qed.

Lemma from_loop_told : forall p e m T d mem off n k i s r,
  from_endianess_loop (told p e m) T d mem off n k i s r = from_endianess_loop p T d mem off n k i s r.
Proof.
  intros p e m T d mem off n k. induction k as [|k IH]; intros i s r; cbn [from_endianess_loop]; auto.
  change (promote (told p e m) T) with (promote p T).
  destruct (load mem (off + byte_index d n i)); auto. cbn [bind].
  destruct (c_shl (promote p T) (conv T a) s); auto. cbn [bind]. apply IH.
Qed.

Lemma from_endianess_told : forall p e m T mem off n,
  from_endianess p T e mem off n = from_endianess (told p e m) T (real_order p e) mem off n.
Proof.
  intros p e m T mem off n. unfold from_endianess, from_endianess_impl. rewrite told_order, from_loop_told. unfold real_order.
  destruct (native_endianess p e); reflexivity.
Qed.

Lemma from_signed_told : forall p e m w z,
  from_signed_mode p w m z = from_signed_mode (told p e m) w (real_mode p m) z.
Proof.
  intros p e m w z. unfold from_signed_mode. rewrite told_mode. unfold real_mode.
  destruct (native_signed_mode p m); reflexivity.
Qed.

Lemma read_uns_told : forall p e m w mem off,
  read_as p e m (TUns w) mem off = read_as (told p e m) (real_order p e) (real_mode p m) (TUns w) mem off.
Proof. intros p e m w mem off. cbn [read_as]. rewrite (from_endianess_told p e m). reflexivity. Qed.

Lemma read_sig_told : forall p e m w mem off,
  read_as p e m (TSig w) mem off = read_as (told p e m) (real_order p e) (real_mode p m) (TSig w) mem off.
Proof.
  intros p e m w mem off. cbn [read_as]. rewrite (from_endianess_told p e m).
  destruct (from_endianess (told p e m) ull (real_order p e) mem off (sizeof (TSig w))); auto. cbn [bind].
  rewrite (from_signed_told p e m). reflexivity.
Qed.

(** Orders of bytes. *)
Lemma width_cases : forall w, (1 <= w <= 8)%nat -> In w [1; 2; 3; 4; 5; 6; 7; 8]%nat.
Proof. intros w H. do 9 (destruct w as [|w]; [cbn; auto 10; lia|]). lia. Qed.

Lemma other_order : forall w m e e', (2 <= w <= 8)%nat -> e <> e' ->
  wire_bytes e w (repr m w 1) <> wire_bytes e' w (repr m w 1) /\ wire_bytes e w 1 <> wire_bytes e' w 1.
Proof.
  intros w m e e' H N. assert (In w [2; 3; 4; 5; 6; 7; 8]%nat) as I by (destruct (width_cases w ltac:(lia)); [lia|auto]).
  cbn in I. destruct e, e'; try congruence; destruct m; intuition (subst w; vm_compute in *; discriminate).
Qed.

Lemma one_byte : forall e e' z, wire_bytes e 1 z = wire_bytes e' 1 z.
Proof. intros [] [] z; reflexivity. Qed.

Lemma one_byte_value : forall e e' bs, length bs = 1%nat -> wire_value e bs = wire_value e' bs.
Proof.
  intros e e' [|b [|c bs]] H; try discriminate. destruct e, e'; cbn; lia.
Qed.

Lemma real_bytes : forall p e w z, order_ok p e w -> wire_bytes (real_order p e) w z = wire_bytes e w z.
Proof.
  intros p e w z H. unfold real_order. destruct (native_endianess p e) eqn:E; auto.
  apply native_decl in E. destruct (H E) as [<-| ->]; auto. apply one_byte.
Qed.

Lemma real_value : forall p e w bs, order_ok p e w -> length bs = w -> wire_value (real_order p e) bs = wire_value e bs.
Proof.
  intros p e w bs H L. unfold real_order. destruct (native_endianess p e) eqn:E; auto.
  apply native_decl in E. destruct (H E) as [<-| ->]; auto. apply one_byte_value; auto.
Qed.

Lemma real_mode_ok : forall p m, mode_ok p m -> real_mode p m = m.
Proof.
  intros p m H. unfold real_mode. destruct (native_signed_mode p m) eqn:E; auto.
  apply native_mode_decl in E. symmetry. auto.
Qed.

(** Unsigned integers: right iff the macro does not lie. *)
Theorem C96_unsigned : forall p e m w, host p -> (1 <= w <= 8)%nat ->
  (writes_unsigned p e m w <-> order_ok p e w) /\ (reads_unsigned p e m w <-> order_ok p e w).
Proof.
  intros p e m w Hp Hw. pose proof (told_wf p e m Hp) as Ht.
  pose proof (space_mono 1 w ltac:(lia)) as Hs. change (space 1) with 256 in Hs.
  split; split.
  - intros H D. destruct (Nat.eq_dec w 1) as [|N]; auto. left.
    specialize (H 1 (repeat 0 w) 0%nat ltac:(lia)). rewrite repeat_length in H. specialize (H ltac:(lia)).
    rewrite write_uns_told, write_uns in H; auto; try lia; [|rewrite repeat_length; lia].
    injection H as H. apply splice_inj in H; rewrite ?wire_bytes_length, ?repeat_length; auto; try lia.
    unfold real_order in H. apply native_decl in D. rewrite D in H.
    destruct (p_endianess p) eqn:E, e; auto; exfalso; revert H;
      [apply (other_order w m LITTLE BIG)|apply (other_order w m BIG LITTLE)]; try lia; discriminate.
  - intros H z mem off Hz Hl. rewrite write_uns_told, write_uns by auto. rewrite real_bytes; auto.
  - intros H D. destruct (Nat.eq_dec w 1) as [|N]; auto. left.
    specialize (H 1 (wire_bytes e w 1) 0%nat ltac:(lia)). rewrite wire_bytes_length in H.
    specialize (H ltac:(lia) (wire_bytes_bytes e w 1)).
    rewrite slice_0_all in H by (rewrite wire_bytes_length; auto). specialize (H eq_refl).
    rewrite read_uns_told in H. cbn [read_as sizeof] in H.
    rewrite from_endianess_uns in H; auto using wire_bytes_bytes; [|rewrite wire_bytes_length; lia].
    cbn [bind] in H. rewrite slice_0_all in H by (rewrite wire_bytes_length; auto).
    assert (V : wire_value (real_order p e) (wire_bytes e w 1) = 1) by congruence.
    unfold real_order in V. apply native_decl in D. rewrite D in V.
    assert (B : wire_bytes e w 1 = wire_bytes (p_endianess p) w 1).
    { rewrite <- V at 2. rewrite <- (wire_bytes_length e w 1) at 2. symmetry. apply wire_bytes_value, wire_bytes_bytes. }
    destruct (p_endianess p) eqn:E, e; auto; exfalso; revert B;
      [apply (other_order w m BIG LITTLE)|apply (other_order w m LITTLE BIG)]; try lia; discriminate.
  - intros H z mem off Hz Hl Hb Hm. rewrite read_uns_told. cbn [read_as sizeof].
    rewrite from_endianess_uns by auto. cbn [bind]. rewrite (real_value p e w) by (auto; apply slice_length; auto).
    rewrite Hm, wire_value_bytes, Z.mod_small by lia. reflexivity.
Qed.

(** ** Signed integers *)

Lemma told_host_ok : forall p e m w, sig_host_ok p e m w <-> sig_host_ok (told p e m) (real_order p e) (real_mode p m) w.
Proof. intros p e m w. unfold sig_host_ok. rewrite told_order, told_mode. reflexivity. Qed.

Lemma repr_inj : forall m w a b, (1 <= w <= 8)%nat -> - half w < a < half w -> - half w < b < half w ->
  forall e, wire_bytes e w (repr m w a) = wire_bytes e w (repr m w b) -> a = b.
Proof.
  intros m w a b Hw Ha Hb e H.
  assert (R : forall z, - half w < z < half w -> representable m w z) by (intros z Hz; destruct m; cbn; lia).
  apply wire_bytes_inj in H; [|apply repr_in_space; auto|apply repr_in_space; auto].
  rewrite <- (unrepr_repr m w a), <- (unrepr_repr m w b) by auto. congruence.
Qed.

Lemma lying_mode : forall e e' m w, (1 <= w <= 8)%nat -> m <> TWOS_COMPLEMENT ->
  wire_bytes e' w (repr TWOS_COMPLEMENT w (-1)) <> wire_bytes e w (repr m w (-1)).
Proof.
  intros e e' m w Hw Hm. pose proof (width_cases w Hw) as I. cbn in I.
  destruct e, e', m; try congruence; intuition (subst w; vm_compute in *; discriminate).
Qed.

(** All the cases of a property which depends on the sizes, the formats and the
    macros only. *)
Definition sweep (f : nat -> endianess -> option endianess -> option signed_mode -> endianess -> signed_mode -> nat -> bool) : bool :=
  forallb (fun i => forallb (fun h => forallb (fun de => forallb (fun dm => forallb (fun e => forallb (fun m => forallb (fun w =>
    f i h de dm e m w)
    [1; 2; 3; 4; 5; 6; 7; 8]%nat)
    [SIGNED_MAGNITUDE; ONES_COMPLEMENT; TWOS_COMPLEMENT; OFFSET_BINARY]) [LITTLE; BIG])
    [None; Some SIGNED_MAGNITUDE; Some ONES_COMPLEMENT; Some TWOS_COMPLEMENT; Some OFFSET_BINARY])
    [None; Some LITTLE; Some BIG]) [LITTLE; BIG])
    [2; 3; 4; 5; 6; 7; 8]%nat.

Lemma sweep_all : forall f, sweep f = true -> forall i h de dm e m w, (2 <= i <= 8)%nat -> (1 <= w <= 8)%nat ->
  f i h de dm e m w = true.
Proof.
  intros f C i h de dm e m w Hi Hw. unfold sweep in C.
  rewrite forallb_forall in C. specialize (C i). rewrite forallb_forall in C.
  specialize (C ltac:(clear - Hi; destruct (width_cases i ltac:(lia)); [lia|auto]) h).
  rewrite forallb_forall in C. specialize (C ltac:(clear; destruct h; cbn; auto) de).
  rewrite forallb_forall in C. specialize (C ltac:(clear; destruct de as [[]|]; cbn; auto) dm).
  rewrite forallb_forall in C. specialize (C ltac:(clear; destruct dm as [[]|]; cbn; auto 6) e).
  rewrite forallb_forall in C. specialize (C ltac:(clear; destruct e; cbn; auto) m).
  rewrite forallb_forall in C. specialize (C ltac:(clear; destruct m; cbn; auto 6) w (width_cases w Hw)). exact C.
Qed.

(** A big-endian host where only the shortcut of the endianess is taken: 0 and 1 are
    written in the same way. *)
Definition big_shortcut (i : nat) (d : option signed_mode) (e : endianess) (m : signed_mode) (w : nat) (z : Z) : bool :=
  match write_as (mk_platform i BIG (Some e) d (fun _ => 0)) e m (TSig w) (VInt z) (repeat 0 w) 0 with
  | Ok bs => if list_eq_dec Z.eq_dec bs (wire_bytes e w (repr m w z)) then true else false
  | Fault _ => false
  end.

Definition big_shortcut_wrong (i : nat) (h : endianess) (de : option endianess) (d : option signed_mode) (e : endianess)
    (m : signed_mode) (w : nat) : bool :=
  if match h with BIG => false | LITTLE => true end || (w =? 8)%nat
     || match de with None => false | Some _ => true end
     || match d with Some m' => signed_mode_eqb m' m | None => false end
  then true
  else negb (big_shortcut i d e m w 0 && big_shortcut i d e m w 1).

Lemma big_shortcut_checked : sweep big_shortcut_wrong = true.
Proof. vm_compute. reflexivity. Qed.

Lemma big_shortcut_lost : forall p e m w, host p -> p_endianess p = BIG -> (1 <= w < 8)%nat ->
  native_endianess p e = true -> native_signed_mode p m = false -> ~ writes_signed p e m w.
Proof.
  intros p e m w [Hi _] Hb Hw He Hm H.
  pose proof (half_ge w ltac:(lia)) as Hh.
  assert (B : forall z, - half w < z < half w -> big_shortcut (p_int_size p) (p_decl_signed_mode p) e m w z = true).
  { intros z Hz. unfold big_shortcut. specialize (H z (repeat 0 w) 0%nat Hz). rewrite repeat_length in H.
    specialize (H ltac:(lia)).
    assert (W : write_as (mk_platform (p_int_size p) BIG (Some e) (p_decl_signed_mode p) (fun _ => 0)) e m (TSig w) (VInt z) (repeat 0 w) 0
                = write_as p e m (TSig w) (VInt z) (repeat 0 w) 0).
    { apply native_decl in He. destruct p as [i en de dm g]. cbn [p_int_size p_endianess p_decl_endianess p_decl_signed_mode] in *. subst en de.
      cbn [write_as]. unfold to_signed_mode.
      change (native_signed_mode (mk_platform i BIG (Some e) dm (fun _ => 0)) m)
        with (native_signed_mode (mk_platform i BIG (Some e) dm g) m). rewrite Hm.
      change (to_signed_mode_impl (mk_platform i BIG (Some e) dm (fun _ => 0)) w m z)
        with (to_signed_mode_impl (mk_platform i BIG (Some e) dm g) w m z).
      destruct (to_signed_mode_impl (mk_platform i BIG (Some e) dm g) w m z); auto. cbn [bind].
      unfold to_endianess.
      change (native_endianess (mk_platform i BIG (Some e) dm (fun _ => 0)) e) with (endianess_eqb e e).
      change (native_endianess (mk_platform i BIG (Some e) dm g) e) with (endianess_eqb e e).
      destruct e; reflexivity. }
    rewrite W, H. rewrite splice_all by (rewrite wire_bytes_length, repeat_length; auto).
    destruct (list_eq_dec Z.eq_dec (wire_bytes e w (repr m w z)) (wire_bytes e w (repr m w z))); congruence. }
  pose proof (B 0 ltac:(lia)) as B0. pose proof (B 1 ltac:(lia)) as B1.
  pose proof (sweep_all _ big_shortcut_checked (p_int_size p) BIG None (p_decl_signed_mode p) e m w Hi ltac:(lia)) as C.
  unfold big_shortcut_wrong in C. rewrite B0, B1 in C. unfold native_signed_mode in Hm.
  destruct (Nat.eqb_spec w 8); [lia|]. cbn [orb] in C.
  destruct (p_decl_signed_mode p) as [m'|]; [rewrite Hm in C|]; discriminate.
Qed.

(** A big-endian host where only the shortcut of the signed integers is taken: bytes
    which were not initialised are written. *)
Lemma big_garbage : forall p e m w, host p -> p_endianess p = BIG -> (1 <= w < 8)%nat ->
  native_endianess p e = false -> native_signed_mode p m = true -> ~ writes_signed p e m w.
Proof.
  intros p e m w Hp Hb Hw He Hm H.
  pose proof (half_ge w ltac:(lia)) as Hh. pose proof (space_pos w) as Hpw. pose proof (space_pos (w - 1)) as Hpw1.
  assert (Hz1 : - half w < space (w - 1) < half w).
  { assert (E : half w = 128 * space (w - 1)) by (rewrite <- half_S; f_equal; lia). lia. }
  assert (G : forall z, z mod space w * space (8 - w) mod space w = 0 -> - half w < z < half w ->
    wire_bytes e w (repr m w z) = wire_bytes (real_order p e) w (undigits (rev (skipn w (indet_bytes p 8))))).
  { intros z Mz Hz. specialize (H z (repeat 0 w) 0%nat Hz). rewrite repeat_length in H. specialize (H ltac:(lia)).
    rewrite write_sig_told in H.
    rewrite (mixed_B (told p e m) (real_order p e) (real_mode p m)) in H; rewrite ?told_order, ?told_mode, ?repeat_length;
      auto using told_wf.
    injection H as H. apply splice_inj in H; rewrite ?wire_bytes_length, ?repeat_length; auto. }
  assert (A : 0 = space (w - 1)); [|lia].
  apply (repr_inj m w 0 (space (w - 1)) ltac:(lia) ltac:(lia) Hz1 e).
  rewrite !G; auto; try lia.
  - rewrite Z.mul_mod_idemp_l by lia. rewrite <- space_add.
    replace (w - 1 + (8 - w))%nat with (w + (7 - w))%nat by lia. rewrite space_add.
    rewrite Z.mul_comm. apply Z.mod_mul. lia.
Qed.

(** Reading: which of some integers are misread, computed. *)
Definition reads_back (p : platform) (e : endianess) (m : signed_mode) (w : nat) (z : Z) : bool :=
  match read_as p e m (TSig w) (wire_bytes e w (repr m w z)) 0 with
  | Ok (VInt z') => z' =? z
  | _ => false
  end.

Definition harmless_b (h : endianess) (de : option endianess) (dm : option signed_mode) (e : endianess) (m : signed_mode)
    (w : nat) : bool :=
  let ne := match de with Some e' => endianess_eqb e' e | None => false end in
  let nm := match dm with Some m' => signed_mode_eqb m' m | None => false end in
  (negb ne || endianess_eqb e h || (w =? 1)%nat)
  && (negb nm || signed_mode_eqb m TWOS_COMPLEMENT)
  && ((w =? 8)%nat || endianess_eqb h LITTLE || Bool.eqb ne nm).

Definition some_misread (i : nat) (h : endianess) (de : option endianess) (dm : option signed_mode) (e : endianess)
    (m : signed_mode) (w : nat) : bool :=
  if harmless_b h de dm e m w then true
  else negb (forallb (reads_back (mk_platform i h de dm (fun _ => 0)) e m w) [0; 1; -1]).

Lemma some_misread_checked : sweep some_misread = true.
Proof. vm_compute. reflexivity. Qed.

Lemma read_indet : forall i h de dm g g' e m w mem off,
  read_as (mk_platform i h de dm g) e m (TSig w) mem off = read_as (mk_platform i h de dm g') e m (TSig w) mem off.
Proof.
  intros i h de dm g g' e m w mem off. cbn [read_as].
  assert (F : from_endianess (mk_platform i h de dm g) ull e mem off (sizeof (TSig w))
              = from_endianess (mk_platform i h de dm g') ull e mem off (sizeof (TSig w))).
  { unfold from_endianess, from_endianess_impl.
    change (native_endianess (mk_platform i h de dm g) e) with (native_endianess (mk_platform i h de dm g') e).
    destruct (native_endianess (mk_platform i h de dm g') e); [reflexivity|].
    generalize (conv ull 0). generalize 0. generalize 0%nat. generalize (sizeof (TSig w)) at 2 4. intros k.
    induction k as [|k IH]; intros j s r; cbn [from_endianess_loop]; auto.
    destruct (load mem (off + byte_index e (sizeof (TSig w)) j)); auto. cbn [bind].
    change (promote (mk_platform i h de dm g) ull) with (promote (mk_platform i h de dm g') ull).
    destruct (c_shl (promote (mk_platform i h de dm g') ull) (conv ull a) s); auto. cbn [bind]. apply IH. }
  rewrite F. reflexivity.
Qed.

Lemma misread : forall p e m w, host p -> (1 <= w <= 8)%nat -> reads_signed p e m w ->
  order_ok p e w /\ mode_ok p m /\ sig_host_ok p e m w.
Proof.
  intros p e m w [Hi _] Hw H. pose proof (half_ge w ltac:(lia)) as Hh.
  assert (B : forall z, - half w < z < half w ->
    reads_back (mk_platform (p_int_size p) (p_endianess p) (p_decl_endianess p) (p_decl_signed_mode p) (fun _ => 0)) e m w z = true).
  { intros z Hz. unfold reads_back.
    specialize (H z (wire_bytes e w (repr m w z)) 0%nat Hz). rewrite wire_bytes_length in H.
    specialize (H ltac:(lia) (wire_bytes_bytes e w _)). rewrite slice_0_all in H by (rewrite wire_bytes_length; auto).
    specialize (H eq_refl). rewrite (read_indet _ _ _ _ _ (p_indet p)).
    replace (mk_platform (p_int_size p) (p_endianess p) (p_decl_endianess p) (p_decl_signed_mode p) (p_indet p)) with p
      by (destruct p; reflexivity).
    rewrite H. apply Z.eqb_refl. }
  pose proof (sweep_all _ some_misread_checked (p_int_size p) (p_endianess p) (p_decl_endianess p) (p_decl_signed_mode p) e m w Hi Hw) as C.
  unfold some_misread in C.
  rewrite (proj2 (forallb_forall _ _)) in C by (intros z [<-|[<-|[<-|[]]]]; apply B; lia).
  destruct (harmless_b (p_endianess p) (p_decl_endianess p) (p_decl_signed_mode p) e m w) eqn:C'; [|discriminate].
  clear C. rename C' into C.
  unfold harmless_b in C. apply andb_prop in C. destruct C as [C C3]. apply andb_prop in C. destruct C as [C1 C2].
  split; [|split].
  - intros D. rewrite D in C1. destruct e, (p_endianess p), (Nat.eqb_spec w 1); cbn in C1; auto; discriminate.
  - intros D. rewrite D in C2. destruct m; cbn in C2; auto; discriminate.
  - unfold sig_host_ok, native_endianess, native_signed_mode.
    destruct (Nat.eqb_spec w 8) as [|N]; auto. right. destruct (p_endianess p); auto. right.
    cbn [orb endianess_eqb] in C3. apply eqb_prop in C3. exact C3.
Qed.

(** Signed integers: right iff the macros do not lie about the format and, on a
    big-endian host, both shortcuts are taken or none. *)
Theorem C96_signed : forall p e m w, host p -> (1 <= w <= 8)%nat ->
  let ok := order_ok p e w /\ mode_ok p m
            /\ (w = 8%nat \/ p_endianess p = LITTLE
                \/ (p_decl_endianess p = Some e <-> p_decl_signed_mode p = Some m)) in
  (writes_signed p e m w <-> ok) /\ (reads_signed p e m w <-> ok).
Proof.
  intros p e m w Hp Hw ok. pose proof (told_wf p e m Hp) as Ht. pose proof (half_ge w ltac:(lia)) as Hh.
  assert (O : ok <-> order_ok p e w /\ mode_ok p m /\ sig_host_ok p e m w).
  { unfold ok, sig_host_ok. rewrite <- native_decl, <- native_mode_decl.
    destruct (native_endianess p e), (native_signed_mode p m); intuition congruence. }
  rewrite O. clear O ok. split; split.
  - intros H.
    assert (S : sig_host_ok p e m w).
    { unfold sig_host_ok. destruct (Nat.eq_dec w 8) as [|N]; auto. right. destruct (p_endianess p) eqn:Eb; auto. right.
      destruct (native_endianess p e) eqn:E1, (native_signed_mode p m) eqn:E2; auto; exfalso.
      - apply (big_shortcut_lost p e m w); auto; lia.
      - apply (big_garbage p e m w); auto; lia. }
    assert (W : forall z, - half w < z < half w -> wire_bytes (real_order p e) w (repr (real_mode p m) w z) = wire_bytes e w (repr m w z)).
    { intros z Hz. specialize (H z (repeat 0 w) 0%nat Hz). rewrite repeat_length in H. specialize (H ltac:(lia)).
      rewrite write_sig_told, write_sig in H; auto; try lia.
      - injection H as H. apply splice_inj in H; rewrite ?wire_bytes_length, ?repeat_length; auto; lia.
      - apply (proj1 (told_host_ok p e m w)); auto.
      - left. lia.
      - rewrite repeat_length. lia. }
    assert (M : mode_ok p m).
    { intros D. apply native_mode_decl in D. specialize (W (-1) ltac:(lia)). unfold real_mode in W. rewrite D in W.
      destruct m; auto; exfalso; eapply lying_mode; eauto; discriminate. }
    split; [|split]; auto.
    intros D. destruct (Nat.eq_dec w 1) as [|N]; auto. left. specialize (W 1 ltac:(lia)).
    rewrite real_mode_ok in W by auto. unfold real_order in W. apply native_decl in D. rewrite D in W.
    destruct (p_endianess p) eqn:E, e; auto; exfalso; revert W;
      [apply (other_order w m LITTLE BIG)|apply (other_order w m BIG LITTLE)]; try lia; discriminate.
  - intros (H1 & H2 & H3) z mem off Hz Hl. rewrite write_sig_told, write_sig; auto; try lia.
    + rewrite real_mode_ok, real_bytes; auto.
    + apply (proj1 (told_host_ok p e m w)); auto.
    + left. lia.
  - apply misread; auto.
  - intros (H1 & H2 & H3) z mem off Hz Hl Hb Hm. rewrite read_sig_told. cbn [read_as sizeof]. rewrite <- bind_assoc.
    assert (V : wire_value (real_order p e) (slice mem off w) = repr m w z).
    { rewrite (real_value p e w) by (auto; apply slice_length; auto). rewrite Hm, wire_value_bytes. apply Z.mod_small.
      apply repr_in_space; auto. destruct m; cbn; lia. }
    rewrite read_signed_ok; auto.
    + cbn [bind]. rewrite V, real_mode_ok by auto. rewrite unrepr_repr; auto. destruct m; cbn; lia.
    + apply (proj1 (told_host_ok p e m w)); auto.
    + rewrite V, real_mode_ok by auto. intros -> E. exfalso. cbn [repr] in E.
      pose proof (space_half w ltac:(lia)). destruct (Z.ltb_spec z 0); lia.
Qed.

(** ** Options of the build *)

Local Open Scope string_scope.
Local Open Scope Z_scope.

(** Two strings which differ by the case of letters only. *)
Inductive same_letters : String.string -> String.string -> Prop :=
| Same_nil : same_letters "" ""
| Same_char : forall c d s t, (c = d \/ (97 <= Ascii.nat_of_ascii c <= 122)%nat /\ Ascii.nat_of_ascii c = (Ascii.nat_of_ascii d + 32)%nat) ->
    same_letters s t -> same_letters (String.String c s) (String.String d t).

(** The option is not given, or is one of the constants which mean no. *)
Definition off (given : option String.string) : Prop :=
  match given with
  | None => True
  | Some s =>
      (exists k, In k [""; "0"; "N"; "NO"; "OFF"; "FALSE"; "IGNORE"] /\ same_letters s k)
      \/ s = "NOTFOUND" \/ exists q, s = String.append q "-NOTFOUND"
  end.

Lemma upper_same : forall s k, (forall c, In c (String.list_ascii_of_string k) -> Ascii.nat_of_ascii c < 97)%nat ->
  (upper_case s = k <-> same_letters s k).
Proof.
  assert (U : forall c d, (Ascii.nat_of_ascii d < 97)%nat ->
    (upper c = d <-> (c = d \/ (97 <= Ascii.nat_of_ascii c <= 122)%nat /\ Ascii.nat_of_ascii c = (Ascii.nat_of_ascii d + 32)%nat))).
  { intros c d Hd. unfold upper.
    destruct ((97 <=? Ascii.nat_of_ascii c)%nat && (Ascii.nat_of_ascii c <=? 122)%nat) eqn:E.
    - split.
      + intros <-. right. split; [lia|]. rewrite Ascii.nat_ascii_embedding; lia.
      + intros [<-|[_ H]]; [lia|]. replace (Ascii.nat_of_ascii c - 32)%nat with (Ascii.nat_of_ascii d) by lia.
        apply Ascii.ascii_nat_embedding.
    - split; auto. intros [H|[H _]]; auto. lia. }
  induction s as [|c s IH]; intros k Hk; cbn [upper_case].
  - split; [intros <-; constructor|]. intros H. inversion H. reflexivity.
  - split.
    + destruct k as [|d k]; [discriminate|]. intros H. injection H as H1 H2. constructor.
      * apply U; auto. apply Hk. cbn. auto.
      * apply IH; auto. intros c' Hc'. apply Hk. cbn. auto.
    + intros H. inversion H as [|c' d s' k' H1 H2]; subst. f_equal.
      * apply U; auto. apply Hk. cbn. auto.
      * apply IH; auto. intros c' Hc'. apply Hk. cbn. auto.
Qed.

Lemma ends_with_spec : forall t s, ends_with t s = true <-> exists q, s = String.append q t.
Proof.
  intros t. induction s as [|c s IH]; cbn [ends_with].
  - rewrite orb_false_r, String.eqb_eq. split.
    + intros <-. exists "". reflexivity.
    + intros [[|d q] H]; cbn [String.append] in H; [auto|discriminate].
  - rewrite orb_true_iff, String.eqb_eq, IH. split.
    + intros [H|[q ->]]; [exists ""; auto|]. exists (String.String c q). reflexivity.
    + intros [[|d q] H]; cbn [String.append] in H; [auto|]. injection H as <- H. right. eauto.
Qed.

Lemma off_spec : forall given, cmake_off (option_value given) = true <-> off given.
Proof.
  intros [s|]; [|split; intros _; [exact I|reflexivity]]. cbn [option_value off]. unfold cmake_off.
  rewrite !orb_true_iff, String.eqb_eq, ends_with_spec, existsb_exists. rewrite or_assoc.
  assert (E : (exists k, In k [""; "0"; "N"; "NO"; "OFF"; "FALSE"; "IGNORE"] /\ String.eqb (upper_case s) k = true)
              <-> (exists k, In k [""; "0"; "N"; "NO"; "OFF"; "FALSE"; "IGNORE"] /\ same_letters s k)).
  { assert (K : forall k, In k [""; "0"; "N"; "NO"; "OFF"; "FALSE"; "IGNORE"] ->
      forall c, In c (String.list_ascii_of_string k) -> (Ascii.nat_of_ascii c < 97)%nat).
    { intros k Hk. cbn in Hk. intuition (subst k; cbn in *; intuition (subst c; cbn; lia)). }
    split; intros (k & Hk & H); exists k; (split; [exact Hk|]).
    - apply String.eqb_eq in H. apply (proj1 (upper_same s k (K k Hk)) H).
    - apply String.eqb_eq. apply (proj2 (upper_same s k (K k Hk)) H). }
  rewrite E. reflexivity.
Qed.

(** The option gives a name of an enumerator. *)
Definition names_endianess (given : option String.string) (e : endianess) : Prop :=
  given = Some match e with LITTLE => "LITTLE" | BIG => "BIG" end.
Definition names_signed_mode (given : option String.string) (m : signed_mode) : Prop :=
  given = Some match m with
               | SIGNED_MAGNITUDE => "SIGNED_MAGNITUDE"
               | ONES_COMPLEMENT => "ONES_COMPLEMENT"
               | TWOS_COMPLEMENT => "TWOS_COMPLEMENT"
               | OFFSET_BINARY => "OFFSET_BINARY"
               end.

(** What an option makes of a member of [platform_info]. *)
Definition makes {A : Type} (names : option String.string -> A -> Prop) (given : option String.string) (d : option A) : Prop :=
  match d with None => off given | Some a => names given a end.

Lemma makes_endianess : forall given d,
  member endianess_named (compile_definition given) = Some d <-> makes names_endianess given d.
Proof.
  intros given d. unfold compile_definition, makes. pose proof (off_spec given) as O.
  destruct (cmake_off (option_value given)) eqn:E; cbn [member].
  - destruct d as [e|].
    + split; [discriminate|]. intros H. unfold names_endianess in H. subst given. destruct e; discriminate E.
    + split; auto. intros _. apply O. reflexivity.
  - destruct given as [s|]; [|discriminate E]. cbn [option_value]. unfold endianess_named.
    destruct d as [e|].
    + unfold names_endianess.
      destruct (String.eqb_spec s "LITTLE") as [->|N1];
        [|destruct (String.eqb_spec s "BIG") as [->|N2]];
        destruct e; split; congruence.
    + split.
      * destruct (String.eqb s "LITTLE"), (String.eqb s "BIG"); discriminate.
      * intros H. apply O in H. congruence.
Qed.

Lemma makes_signed_mode : forall given d,
  member signed_mode_named (compile_definition given) = Some d <-> makes names_signed_mode given d.
Proof.
  intros given d. unfold compile_definition, makes. pose proof (off_spec given) as O.
  destruct (cmake_off (option_value given)) eqn:E; cbn [member].
  - destruct d as [e|].
    + split; [discriminate|]. intros H. unfold names_signed_mode in H. subst given. destruct e; discriminate E.
    + split; auto. intros _. apply O. reflexivity.
  - destruct given as [s|]; [|discriminate E]. cbn [option_value]. unfold signed_mode_named.
    destruct d as [e|].
    + unfold names_signed_mode.
      destruct (String.eqb_spec s "SIGNED_MAGNITUDE") as [->|N1];
        [|destruct (String.eqb_spec s "ONES_COMPLEMENT") as [->|N2];
          [|destruct (String.eqb_spec s "TWOS_COMPLEMENT") as [->|N3];
            [|destruct (String.eqb_spec s "OFFSET_BINARY") as [->|N4]]]];
        destruct e; split; congruence.
    + split.
      * destruct (String.eqb s "SIGNED_MAGNITUDE"), (String.eqb s "ONES_COMPLEMENT"), (String.eqb s "TWOS_COMPLEMENT"),
          (String.eqb s "OFFSET_BINARY"); discriminate.
      * intros H. apply O in H. congruence.
Qed.

(** Which configurations compile, and what they are. *)
Theorem C96_compiles : forall h E S p,
  configure h E S = Some p
  <-> p_int_size p = p_int_size h /\ p_endianess p = p_endianess h /\ p_indet p = p_indet h
      /\ makes names_endianess E (p_decl_endianess p) /\ makes names_signed_mode S (p_decl_signed_mode p).
Proof.
  intros h E S p. unfold configure. split.
  - destruct (member endianess_named (compile_definition E)) as [e|] eqn:HE; [|discriminate].
    destruct (member signed_mode_named (compile_definition S)) as [m|] eqn:HS; [|discriminate].
    intros H. injection H as <-. cbn [p_int_size p_endianess p_indet p_decl_endianess p_decl_signed_mode].
    rewrite makes_endianess in HE. rewrite makes_signed_mode in HS. auto.
  - intros (H1 & H2 & H3 & H4 & H5). apply makes_endianess in H4. apply makes_signed_mode in H5. rewrite H4, H5.
    destruct p. cbn in *. congruence.
Qed.

(** A program compiled so writes every value of every type in every format as
    documented, and reads it back. *)
Definition serves (p : platform) : Prop :=
  forall e m t v mem off, wf_ty t -> layout_ok t -> encodable (undeclared p) m t v -> (off + wire_size t <= length mem)%nat ->
    write_as p e m t v mem off = Ok (splice mem off (enc e m t v))
    /\ (Forall is_byte mem -> read_as p e m t (splice mem off (enc e m t v)) off = Ok v).

Lemma little_host_ok : forall p e m t, p_endianess p = LITTLE -> host_ok p e m t.
Proof.
  intros p e m t Hp. induction t using ty_ind_nested; cbn [host_ok]; auto.
  - right. left. exact Hp.
  - apply (host_ok_user p e m s). auto.
Qed.

Lemma none_host_ok : forall p e m t, p_decl_endianess p = None -> p_decl_signed_mode p = None -> host_ok p e m t.
Proof.
  intros p e m t H1 H2. replace p with (undeclared p) by (destruct p; cbn in *; subst; reflexivity).
  apply undeclared_host_ok.
Qed.

Lemma serves_iff : forall p, host p ->
  (serves p <->
   (p_decl_endianess p = None /\ p_decl_signed_mode p = None)
   \/ (p_endianess p = LITTLE /\ (p_decl_endianess p = None \/ p_decl_endianess p = Some LITTLE)
       /\ (p_decl_signed_mode p = None \/ p_decl_signed_mode p = Some TWOS_COMPLEMENT))).
Proof.
  intros p Hp. split.
  - intros H.
    assert (S : forall e m, writes_signed p e m 2).
    { intros e m z mem off Hz Hl. apply (H e m (TSig 2) (VInt z) mem off); cbn; auto; [lia|].
      split; cbn; [lia|]. left. lia. }
    assert (K : forall e m, order_ok p e 2 /\ mode_ok p m
      /\ (2 = 8 \/ p_endianess p = LITTLE \/ (p_decl_endianess p = Some e <-> p_decl_signed_mode p = Some m))%nat).
    { intros e m. destruct (C96_signed p e m 2 Hp ltac:(lia)) as [[C _] _]. apply C, S. }
    clear S H. unfold order_ok, mode_ok in K.
    assert (K1 : forall e, p_decl_endianess p = Some e -> e = p_endianess p).
    { intros e He. destruct (K e TWOS_COMPLEMENT) as (C & _). destruct (C He); [auto|discriminate]. }
    assert (K2 : forall m, p_decl_signed_mode p = Some m -> m = TWOS_COMPLEMENT).
    { intros m Hm. destruct (K LITTLE m) as (_ & C & _). auto. }
    destruct (p_endianess p) eqn:Eh.
    + right. split; auto.
      destruct (p_decl_endianess p) as [e|], (p_decl_signed_mode p) as [m|]; split; auto;
        right; f_equal; auto.
    + left.
      assert (K3 : forall e m, p_decl_endianess p = Some e <-> p_decl_signed_mode p = Some m).
      { intros e m. destruct (K e m) as (_ & _ & [C|[C|C]]); [discriminate|discriminate|exact C]. }
      clear K. destruct (p_decl_endianess p) as [e|].
      * pose proof (proj1 (K3 e TWOS_COMPLEMENT) eq_refl) as A. pose proof (proj1 (K3 e OFFSET_BINARY) eq_refl) as B. congruence.
      * split; auto. destruct (p_decl_signed_mode p) as [m|]; auto.
        pose proof (proj2 (K3 LITTLE m) eq_refl). discriminate.
  - intros D e m t v mem off Hwf Hlay Hv Hl.
    assert (W : wf_platform p).
    { destruct Hp as [P1 P2]. constructor; auto.
      - destruct D as [[D _]|(D1 & D2 & _)]; auto. rewrite D1. exact D2.
      - destruct D as [[_ D]|(_ & _ & D)]; auto. }
    assert (T : ty_ok p e m t).
    { unfold ty_ok. split; [exact Hwf|split; [|exact Hlay]].
      destruct D as [[D1 D2]|(D & _)]; [apply none_host_ok|apply little_host_ok]; auto. }
    pose proof (undeclared_encodable p m t v Hwf Hv) as Hv'.
    assert (Q : write_as p e m t v mem off = Ok (splice mem off (enc e m t v))) by (apply write_as_ok; auto). split; [exact Q|].
    intros Hb. destruct (roundtrip p p e m t v mem off W W T T Hv' Hv' Hb Hl) as (mem' & Q1 & Q2 & _).
    rewrite Q in Q1. injection Q1 as <-. exact Q2.
Qed.

(** The configurations which may be used with every format: none of the options, or
    true ones on a little-endian host. *)
Theorem C96_build : forall h E S, host h ->
  ((exists p, configure h E S = Some p /\ serves p)
   <-> (off E /\ off S)
       \/ (p_endianess h = LITTLE /\ (off E \/ E = Some "LITTLE") /\ (off S \/ S = Some "TWOS_COMPLEMENT"))).
Proof.
  intros h E S Hh. split.
  - intros (p & Hc & Hs). apply C96_compiles in Hc. destruct Hc as (H1 & H2 & H3 & H4 & H5).
    apply serves_iff in Hs; [|unfold host; rewrite H1, H3; exact Hh].
    destruct Hs as [[D1 D2]|(D & D1 & D2)].
    + rewrite D1 in H4. rewrite D2 in H5. auto.
    + right. split; [congruence|]. split.
      * destruct D1 as [D1|D1]; rewrite D1 in H4; auto.
      * destruct D2 as [D2|D2]; rewrite D2 in H5; auto.
  - intros D.
    assert (P : forall de dm, makes names_endianess E de -> makes names_signed_mode S dm ->
      (de = None /\ dm = None) \/ (p_endianess h = LITTLE /\ (de = None \/ de = Some LITTLE) /\ (dm = None \/ dm = Some TWOS_COMPLEMENT)) ->
      exists p, configure h E S = Some p /\ serves p).
    { intros de dm H1 H2 H3. exists (mk_platform (p_int_size h) (p_endianess h) de dm (p_indet h)). split.
      - apply C96_compiles. cbn. auto.
      - apply serves_iff; cbn; auto. }
    destruct D as [[D1 D2]|(D & [D1|D1] & [D2|D2])].
    + apply (P None None); auto.
    + apply (P None None); auto.
    + apply (P None (Some TWOS_COMPLEMENT)); auto.
    + apply (P (Some LITTLE) None); auto.
    + apply (P (Some LITTLE) (Some TWOS_COMPLEMENT)); auto 7.
Qed.

(** The configuration of the continuous integration (.github/workflows/code-quality.yml
    25, 35) on a PC; no option; true options on a big-endian host: [1] is
    written with bytes which were never set (170 stands for them). *)
Example C96_example_ci :
  host pc_native /\ host ppc_native
  /\ configure pc_native (Some "LITTLE") (Some "TWOS_COMPLEMENT") = Some pc_native
  /\ configure ppc_native (Some "off") (Some "UPD-NOTFOUND") = Some (undeclared ppc_native)
  /\ match configure ppc_native (Some "BIG") (Some "TWOS_COMPLEMENT") with
     | Some p => write_as p LITTLE TWOS_COMPLEMENT (TSig 2) (VInt 1) [7; 7] 0 = Ok [170; 170]
     | None => False
     end.
Proof.
  split; [destruct pc_native_wf; split; auto|]. split; [destruct ppc_native_wf; split; auto|].
  repeat split; vm_compute; reflexivity.
Qed.

(** [ON] is not an enumerator, nor is [little]; a lie about the endianess is
    compiled, and writes the bytes in the other order. *)
Example C96_example_wrong :
  configure pc_native (Some "ON") None = None
  /\ configure pc_native (Some "little") None = None
  /\ configure pc_native (Some "LITTLE") (Some "on") = None
  /\ match configure pc_native (Some "BIG") None with
     | Some p => write_as p BIG TWOS_COMPLEMENT (TUns 2) (VInt 1) [7; 7] 0 = Ok [1; 0]
                 /\ write_as p LITTLE TWOS_COMPLEMENT (TUns 2) (VInt 1) [7; 7] 0 = Ok [1; 0]
                 /\ ~ order_ok p BIG 2 /\ order_ok p LITTLE 2 /\ order_ok p BIG 1
     | None => False
     end.
Proof.
  split; [reflexivity|]. split; [reflexivity|]. split; [reflexivity|]. cbn [configure].
  split; [vm_compute; reflexivity|]. split; [vm_compute; reflexivity|]. unfold order_ok. cbn. repeat split.
  - intros H. destruct (H eq_refl); discriminate.
  - discriminate.
  - auto.
Qed.

(** A macro about signed integers which lies. *)
Example C96_example_mode :
  match configure pc_native None (Some "SIGNED_MAGNITUDE") with
  | Some p => write_as p LITTLE SIGNED_MAGNITUDE (TSig 2) (VInt (-2)) [7; 7] 0 = Ok [254; 255]
              /\ write_as p LITTLE ONES_COMPLEMENT (TSig 2) (VInt (-2)) [7; 7] 0 = Ok [253; 255]
              /\ ~ mode_ok p SIGNED_MAGNITUDE /\ mode_ok p ONES_COMPLEMENT
  | None => False
  end.
Proof.
  cbn [configure]. split; [vm_compute; reflexivity|]. split; [vm_compute; reflexivity|]. unfold mode_ok. cbn. split.
  - intros H. discriminate (H eq_refl).
  - discriminate.
Qed.

Print Assumptions C96_unsigned.
Print Assumptions C96_signed.
Print Assumptions C96_compiles.
Print Assumptions C96_build.
