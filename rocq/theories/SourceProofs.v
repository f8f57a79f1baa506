(** The transcription of the integer code (Source.v), run by the interpreter (Cpp.v),
    does what the functions of IntModel.v do. *)

From Coq Require Import List ZArith Bool Arith Lia ZifyBool ZifyNat String.
From Verif Require Import Base CInt IntModel Spec Conditions MemFacts IntProofs SignedProofs Cpp Source.
Import ListNotations.
Open Scope string_scope.
Open Scope list_scope.
Open Scope Z_scope.

(** ** Types and values *)

(** Types of the hosts considered. *)
Definition valid (t : cty) : Prop := match t with CBool => True | CInt w _ => (1 <= w <= 8)%nat end.

(** The greatest value. *)
Definition tmax (t : cty) : Z :=
  match t with CBool => 1 | CInt w false => space w - 1 | CInt w true => half w - 1 end.

Lemma valid_uns : forall T, is_uns T -> valid T.
Proof. intros [|w s]; cbn; intuition. Qed.

Lemma conv_nonneg : forall t v, valid t -> 0 <= v <= tmax t -> conv t v = v.
Proof.
  intros [|w [|]] v H Hv; cbn [valid tmax] in *.
  - assert (v = 0 \/ v = 1) as [->| ->] by lia; reflexivity.
  - apply conv_signed_range; [lia|]. pose proof (half_pos w ltac:(lia)). lia.
  - rewrite conv_unsigned. apply Z.mod_small. lia.
Qed.

Lemma conv_idem : forall t v, valid t -> conv t (conv t v) = conv t v.
Proof.
  intros [|w [|]] v H; cbn [valid] in *.
  - cbn [conv]. destruct (v =? 0); reflexivity.
  - apply conv_signed_range; [lia|]. apply conv_signed_bounds. lia.
  - rewrite !conv_unsigned. apply Z.mod_mod. pose proof (space_pos w). lia.
Qed.

Lemma conv_uns_range : forall t v, is_uns t -> 0 <= conv t v <= tmax t.
Proof.
  intros [|w s] v H; cbn [is_uns] in H.
  - cbn. destruct (v =? 0); lia.
  - destruct H as [-> H]. cbn [tmax]. rewrite conv_unsigned. pose proof (space_pos w).
    pose proof (Z.mod_pos_bound v (space w) ltac:(lia)). lia.
Qed.

Lemma obj_roundtrip : forall p t v, valid t -> obj_value p t (obj_bytes p t (conv t v)) = Ok (conv t v).
Proof.
  intros p t v H. unfold obj_value, obj_bytes.
  assert (E : match p_endianess p with
              | LITTLE => undigits match p_endianess p with
                                   | LITTLE => digits (csizeof t) (conv t v)
                                   | BIG => rev (digits (csizeof t) (conv t v))
                                   end
              | BIG => undigits (rev match p_endianess p with
                                     | LITTLE => digits (csizeof t) (conv t v)
                                     | BIG => rev (digits (csizeof t) (conv t v))
                                     end)
              end = conv t v mod space (csizeof t)).
  { destruct (p_endianess p); rewrite ?rev_involutive; apply undigits_digits. }
  rewrite E. clear E. destruct t as [|w s]; cbn [csizeof valid] in *.
  - cbn [conv]. destruct (v =? 0); reflexivity.
  - f_equal. destruct s.
    + rewrite <- (conv_idem (CInt w true) v) at 2 by exact H. apply conv_signed_eq; [lia|].
      apply Z.mod_mod. pose proof (space_pos w). lia.
    + rewrite conv_unsigned at 1. rewrite Z.mod_mod by (pose proof (space_pos w); lia).
      rewrite <- conv_unsigned. apply conv_idem. exact H.
Qed.

Lemma object_conv : forall p t v, valid t -> object p t (conv t v) = object p t v.
Proof. intros p t v H. unfold object. rewrite conv_idem; auto. Qed.

Section Host.
  Variable p : platform.
  Variable sz : nat.
  Hypothesis Hi : (2 <= p_int_size p <= 8)%nat.
  Hypothesis Hsz : (2 <= sz <= 8)%nat.

  Lemma tmax_ge : forall w s, (2 <= w)%nat -> 32767 <= tmax (CInt w s).
  Proof.
    intros w s H. cbn [tmax]. pose proof (half_mono 2 w H) as A. pose proof (space_mono 2 w H) as B.
    change (half 2) with 32768 in A. change (space 2) with 65536 in B. destruct s; lia.
  Qed.

  Lemma valid_named : forall T, match T with Param t => valid t | _ => True end -> valid (named p sz T).
  Proof. intros [| | | | |t] H; cbn [named valid] in *; auto; lia. Qed.

  Lemma valid_promote : forall t, valid t -> valid (promote p t).
  Proof.
    intros [|w s] H; cbn [promote valid] in *; [lia|]. destruct (w <? p_int_size p)%nat; cbn [valid]; lia.
  Qed.

  Lemma promote_CInt : forall t, exists w s, promote p t = CInt w s.
  Proof. intros [|w s]; cbn [promote]; eauto. destruct (w <? p_int_size p)%nat; eauto. Qed.

  Lemma promote_wide : forall t w s, valid t -> promote p t = CInt w s -> (p_int_size p <= w <= 8)%nat.
  Proof.
    intros [|v s'] w s H; cbn [promote valid] in *.
    - intros E. injection E as <- <-. lia.
    - destruct (Nat.ltb_spec v (p_int_size p)); intros E; injection E as <- <-; lia.
  Qed.

  Lemma promote_idem : forall t, promote p (promote p t) = promote p t.
  Proof.
    intros [|w s]; cbn [promote].
    - rewrite Nat.ltb_irrefl. reflexivity.
    - destruct (Nat.ltb_spec w (p_int_size p)) as [H|H]; cbn [promote].
      + rewrite Nat.ltb_irrefl. reflexivity.
      + destruct (Nat.ltb_spec w (p_int_size p)); [lia|reflexivity].
  Qed.

  Lemma tmax_promote : forall t, valid t -> tmax t <= tmax (promote p t).
  Proof.
    intros [|w s] H; cbn [promote valid] in *.
    - pose proof (tmax_ge (p_int_size p) true ltac:(lia)). change (tmax CBool) with 1. lia.
    - destruct (Nat.ltb_spec w (p_int_size p)) as [L|L]; [|lia]. cbn [tmax].
      pose proof (half_double w (p_int_size p) ltac:(lia)). pose proof (space_half w ltac:(lia)).
      pose proof (half_pos w ltac:(lia)). destruct s; lia.
  Qed.

  (** Promotion preserves values. *)
  Lemma conv_promote : forall t v, valid t -> conv (promote p t) (conv t v) = conv t v.
  Proof.
    intros [|w s] v H; cbn [promote valid] in *.
    - apply conv_nonneg; [cbn; lia|]. pose proof (tmax_ge (p_int_size p) true ltac:(lia)).
      cbn [conv]. destruct (v =? 0); lia.
    - destruct (Nat.ltb_spec w (p_int_size p)) as [L|L]; [|apply conv_idem; exact H].
      destruct s.
      + apply conv_signed_range; [lia|]. pose proof (conv_signed_bounds w v ltac:(lia)).
        pose proof (half_mono w (p_int_size p) ltac:(lia)). lia.
      + apply conv_nonneg; [cbn; lia|]. pose proof (conv_uns_range (CInt w false) v ltac:(cbn; auto)).
        pose proof (half_double w (p_int_size p) ltac:(lia)). pose proof (space_half w ltac:(lia)). cbn [tmax] in *. lia.
  Qed.

  Lemma valid_common : forall a b, valid a -> valid b -> valid (common p a b).
  Proof.
    intros a b Ha Hb. unfold common.
    destruct (promote_CInt a) as (w & s & Ea), (promote_CInt b) as (w' & s' & Eb). rewrite Ea, Eb.
    pose proof (promote_wide _ _ _ Ha Ea). pose proof (promote_wide _ _ _ Hb Eb).
    destruct (Nat.eqb_spec w w'), (Nat.ltb_spec w w'); cbn [valid]; lia.
  Qed.

  Lemma tmax_common : forall a b, valid a -> valid b ->
    tmax a <= tmax (common p a b) /\ tmax b <= tmax (common p a b).
  Proof.
    intros a b Ha Hb. pose proof (tmax_promote a Ha) as Pa. pose proof (tmax_promote b Hb) as Pb. unfold common.
    destruct (promote_CInt a) as (w & s & Ea), (promote_CInt b) as (w' & s' & Eb). rewrite Ea in *. rewrite Eb in *.
    pose proof (promote_wide _ _ _ Ha Ea). pose proof (promote_wide _ _ _ Hb Eb).
    destruct (Nat.eqb_spec w w') as [->|N].
    - cbn [tmax] in *. pose proof (space_half w' ltac:(lia)). pose proof (half_pos w' ltac:(lia)).
      destruct s, s'; cbn [andb]; lia.
    - destruct (Nat.ltb_spec w w').
      + cbn [tmax] in *. pose proof (space_half w ltac:(lia)). pose proof (half_pos w ltac:(lia)).
        pose proof (half_double w w' ltac:(lia)). pose proof (space_half w' ltac:(lia)). destruct s, s'; lia.
      + cbn [tmax] in *. pose proof (space_half w' ltac:(lia)). pose proof (half_pos w' ltac:(lia)).
        pose proof (half_double w' w ltac:(lia)). pose proof (space_half w ltac:(lia)). destruct s, s'; lia.
  Qed.

  Lemma common_CInt : forall a b, exists w s, common p a b = CInt w s.
  Proof.
    intros a b. unfold common. destruct (promote_CInt a) as (w & s & ->), (promote_CInt b) as (w' & s' & ->).
    destruct (w =? w')%nat, (w <? w')%nat; eauto.
  Qed.

  Lemma arith_nonneg : forall a b v, valid a -> valid b -> 0 <= v <= tmax (common p a b) -> arith (common p a b) v = Ok v.
  Proof.
    intros a b v Ha Hb Hv. pose proof (valid_common a b Ha Hb) as Hc.
    destruct (common_CInt a b) as (w & s & E). rewrite E in *. cbn [valid tmax arith] in *. destruct s.
    - rewrite <- half_pow2 by lia. pose proof (half_pos w ltac:(lia)).
      destruct (Z.leb_spec (- half w) v), (Z.ltb_spec v (half w)); cbn [andb]; auto; lia.
    - rewrite <- space_pow2. rewrite Z.mod_small by lia. reflexivity.
  Qed.

  (** Sums, differences and products which are not negative and not too large are exact. *)
  Lemma bin_add : forall ta a tb b, valid ta -> valid tb -> 0 <= a <= tmax ta -> 0 <= b <= tmax tb ->
    a + b <= tmax (common p ta tb) -> apply_bin p Add ta a tb b = Ok (a + b).
  Proof.
    intros ta a tb b Ha Hb Ra Rb R. destruct (tmax_common ta tb Ha Hb). cbn [apply_bin].
    rewrite !conv_nonneg by (auto using valid_common; lia). apply arith_nonneg; auto. lia.
  Qed.
  Lemma bin_sub : forall ta a tb b, valid ta -> valid tb -> 0 <= a <= tmax ta -> 0 <= b <= tmax tb ->
    b <= a -> apply_bin p Sub ta a tb b = Ok (a - b).
  Proof.
    intros ta a tb b Ha Hb Ra Rb R. destruct (tmax_common ta tb Ha Hb). cbn [apply_bin].
    rewrite !conv_nonneg by (auto using valid_common; lia). apply arith_nonneg; auto. lia.
  Qed.
  Lemma bin_mul : forall ta a tb b, valid ta -> valid tb -> 0 <= a <= tmax ta -> 0 <= b <= tmax tb ->
    a * b <= tmax (common p ta tb) -> apply_bin p Mul ta a tb b = Ok (a * b).
  Proof.
    intros ta a tb b Ha Hb Ra Rb R. destruct (tmax_common ta tb Ha Hb). cbn [apply_bin].
    rewrite !conv_nonneg by (auto using valid_common; lia). apply arith_nonneg; auto. split; [|lia].
    apply Z.mul_nonneg_nonneg; lia.
  Qed.
  Lemma bin_lt : forall ta a tb b, valid ta -> valid tb -> 0 <= a <= tmax ta -> 0 <= b <= tmax tb ->
    apply_bin p Lt ta a tb b = Ok (if a <? b then 1 else 0).
  Proof.
    intros ta a tb b Ha Hb Ra Rb. destruct (tmax_common ta tb Ha Hb). cbn [apply_bin].
    rewrite !conv_nonneg by (auto using valid_common; lia). reflexivity.
  Qed.

  (** ** Expressions *)

  Lemma eval_var : forall s x t v, lookup x (locals s) = Some (object p t v) -> valid t ->
    eval p sz s (Var x) = Ok (conv t v).
  Proof. intros s x t v H Ht. cbn [eval]. rewrite H. cbn [need bind]. unfold object. apply obj_roundtrip. exact Ht. Qed.

  Lemma lit_int : forall z, 0 <= z <= 255 -> conv (named p sz Int) z = z.
  Proof.
    intros z H. apply conv_nonneg; [cbn; lia|]. pose proof (tmax_ge (p_int_size p) true ltac:(lia)). cbn [named]. lia.
  Qed.

  Lemma int_max : 255 <= tmax (named p sz Int).
  Proof. pose proof (tmax_ge (p_int_size p) true ltac:(lia)). cbn [named]. lia. Qed.
  Lemma size_max : 32767 <= tmax (named p sz Size).
  Proof. apply (tmax_ge sz false). lia. Qed.

  Lemma eval_int : forall s z, 0 <= z <= 255 -> eval p sz s (int z) = Ok z.
  Proof. intros s z H. cbn [int eval]. rewrite lit_int; auto. Qed.

  Lemma eval_bin : forall s o a b ta tb, type_of p sz (locals s) a = Some ta -> type_of p sz (locals s) b = Some tb ->
    eval p sz s (Bin o a b) = (va <- eval p sz s a;; vb <- eval p sz s b;; apply_bin p o ta va tb vb).
  Proof. intros s o a b ta tb Ha Hb. cbn [eval]. rewrite Ha, Hb. reflexivity. Qed.

  (** ** Loops *)

  Fixpoint for_loop (fuel : nat) (cond : expr) (step body : stmt) (n : nat) (s : state) : res flow :=
    v <- eval p sz s cond;;
    if v =? 0 then Ok (Next s)
    else match n with
         | O => Fault OutOfFuel
         | S n' =>
             r <- exec p sz fuel body s;;
             match r with
             | Next s1 =>
                 r1 <- exec p sz fuel step s1;;
                 match r1 with Next s2 => for_loop fuel cond step body n' s2 | Returned _ _ => Ok r1 end
             | Returned _ _ => Ok r
             end
         end.

  Lemma exec_for : forall fuel cond step body s,
    exec p sz fuel (For cond step body) s = for_loop fuel cond step body fuel s.
  Proof.
    intros fuel cond step body s. cbn [exec]. generalize fuel at 3 5. intros n. revert s.
    induction n as [|n IH]; intros s; cbn [for_loop]; auto.
    destruct (eval p sz s cond) as [v|]; auto. cbn [bind]. destruct (v =? 0); auto.
    destruct (exec p sz fuel body s) as [[s1|]|]; auto. cbn [bind].
    destruct (exec p sz fuel step s1) as [[s2|]|]; auto. cbn [bind]. apply IH.
  Qed.

  Lemma lor_small : forall n a b, 0 <= n -> 0 <= a < 2 ^ n -> 0 <= b < 2 ^ n -> 0 <= Z.lor a b < 2 ^ n.
  Proof.
    intros n a b Hn Ha Hb.
    assert (E : Z.lor a b = Z.lor a b mod 2 ^ n).
    { rewrite <- Z.land_ones by lia. rewrite Z.land_lor_distr_l, !Z.land_ones by lia. rewrite !Z.mod_small by lia. reflexivity. }
    rewrite E. apply Z.mod_pos_bound. lia.
  Qed.

  Lemma pow_tmax : forall w s, (1 <= w)%nat -> exists n, 0 <= n /\ tmax (CInt w s) = 2 ^ n - 1.
  Proof.
    intros w s H. cbn [tmax]. destruct s.
    - exists (bits w - 1). split; [unfold bits; lia|]. rewrite half_pow2 by auto. reflexivity.
    - exists (bits w). split; [unfold bits; lia|]. rewrite space_pow2. reflexivity.
  Qed.

  Lemma shl_range : forall t a sh v, valid t -> t <> CBool -> 0 <= a -> 0 <= sh -> c_shl t a sh = Ok v -> 0 <= v <= tmax t.
  Proof.
    intros [|w s] a sh v Ht Nb Ha Hs H; [congruence|]. cbn [valid] in Ht. unfold c_shl in H.
    destruct (sh <? bits (csizeof (CInt w s))); [|discriminate].
    pose proof (proj2 (Z.shiftl_nonneg a sh) Ha) as L. destruct s.
    - destruct (a <? 0); [discriminate|]. cbn [arith] in H. rewrite <- half_pow2 in H by lia.
      destruct (Z.ltb_spec (Z.shiftl a sh) (half w)); rewrite ?andb_false_r in H; [|discriminate].
      destruct (- half w <=? Z.shiftl a sh); cbn [andb] in H; [|discriminate]. injection H as <-. cbn [tmax]. lia.
    - cbn [arith] in H. injection H as <-. rewrite <- space_pow2. cbn [tmax]. pose proof (space_pos w).
      pose proof (Z.mod_pos_bound (Z.shiftl a sh) (space w) ltac:(lia)). lia.
  Qed.

  Lemma common_promote : forall t, valid t -> common p t (promote p t) = promote p t.
  Proof.
    intros t Ht. unfold common. rewrite promote_idem. destruct (promote_CInt t) as (w & s & ->).
    rewrite Nat.eqb_refl, andb_diag. reflexivity.
  Qed.

  (** ** detail/endianess.hpp *)

  (** The body of the loops of lines 22-24, 33-34. *)
  Lemma from_body : forall T ts s fuel r sh idx j off, is_uns T -> valid ts ->
    lookup "retval" (locals s) = Some (object p T r) -> 0 <= r <= tmax T ->
    lookup "shift" (locals s) = Some (object p ts sh) -> 0 <= sh <= tmax ts ->
    lookup "raw_data" (pointers s) = Some off -> eval p sz s idx = Ok (Z.of_nat j) ->
    exec p sz fuel (Assign "retval" (Cast (Param T)
      (Bin BitOr (Var "retval") (Bin Shl (Cast (Param T) (At "raw_data" idx)) (Var "shift"))))) s
    = (b <- load (bytes s) (off + j);;
       v <- c_shl (promote p T) (conv T b) sh;;
       Ok (Next (mk_state (update "retval" (object p T (conv T (c_or r v))) (locals s)) (pointers s) (bytes s)))).
  Proof.
    intros T ts s fuel r sh idx j off HT Hts Er Hr Es Hs Ep Ej. pose proof (valid_uns T HT) as VT.
    cbn [exec]. rewrite Er. cbn [need bind object].
    assert (E : eval p sz s (Cast (Param T) (Bin BitOr (Var "retval") (Bin Shl (Cast (Param T) (At "raw_data" idx)) (Var "shift"))))
      = (b <- load (bytes s) (off + j);; v <- c_shl (promote p T) (conv T b) sh;; Ok (conv T (c_or r v)))).
    { change (eval p sz s (Cast (Param T) ?e)) with (v <- eval p sz s e;; Ok (conv T v)).
      rewrite (eval_bin s BitOr _ _ T (promote p T)); [|cbn [type_of]; rewrite Er; reflexivity|cbn [type_of]; rewrite Es; reflexivity].
      rewrite (eval_var s _ _ _ Er VT). rewrite (conv_nonneg T r) by auto. cbn [bind].
      rewrite (eval_bin s Shl _ _ T ts); [|reflexivity|cbn [type_of]; rewrite Es; reflexivity].
      rewrite (eval_var s _ _ _ Es Hts). rewrite (conv_nonneg ts sh) by auto.
      change (eval p sz s (Cast (Param T) ?e)) with (v <- eval p sz s e;; Ok (conv T v)).
      cbn [eval]. rewrite Ej. cbn [bind]. unfold position. rewrite Ep. cbn [need bind].
      destruct (Z.ltb_spec (Z.of_nat j) 0); [lia|]. cbn [bind]. rewrite Nat2Z.id.
      destruct (load (bytes s) (off + j)) as [b|f]; [|reflexivity]. cbn [bind].
      cbn [apply_bin].
      assert (Es' : conv (promote p ts) sh = sh).
      { rewrite <- (conv_nonneg ts sh) at 1 by auto. rewrite conv_promote by auto. apply conv_nonneg; auto. }
      rewrite Es'. destruct (Z.ltb_spec sh 0); [lia|]. rewrite conv_promote by auto.
      destruct (c_shl (promote p T) (conv T b) sh) as [v|f] eqn:Ev; [|reflexivity]. cbn [bind].
      rewrite common_promote by auto.
      destruct (promote_CInt T) as (w & sg & Ew). pose proof (promote_wide T w sg VT Ew) as Hw.
      pose proof (valid_promote T VT) as VP. pose proof (tmax_promote T VT) as MP. rewrite Ew in *.
      assert (Rv : 0 <= v <= tmax (CInt w sg)).
      { apply (shl_range _ (conv T b) sh); auto; try discriminate; try lia; apply conv_uns_range; exact HT. }
      destruct (pow_tmax w sg ltac:(lia)) as (n & Hn & En).
      pose proof (lor_small n r v Hn ltac:(lia) ltac:(lia)) as L.
      rewrite (conv_nonneg (CInt w sg) r), (conv_nonneg (CInt w sg) v) by (auto; lia).
      rewrite (conv_nonneg (CInt w sg) (Z.lor r v)) by (auto; lia). reflexivity. }
    rewrite E. destruct (load (bytes s) (off + j)) as [b|f]; [|reflexivity]. cbn [bind].
    destruct (c_shl (promote p T) (conv T b) sh); reflexivity.
  Qed.

  Lemma exec_add : forall fuel x t s v c, lookup x (locals s) = Some (object p t v) -> valid t ->
    0 <= v -> 0 <= c <= 255 -> v + c <= tmax t ->
    exec p sz fuel (add_to x (int c)) s = Ok (Next (mk_state (update x (object p t (v + c)) (locals s)) (pointers s) (bytes s))).
  Proof.
    intros fuel x t s v c Ex Ht Hv Hc Hm. unfold add_to. cbn [exec]. rewrite Ex. cbn [need bind object].
    rewrite (eval_bin s Add _ _ t (named p sz Int)); [|cbn [type_of]; rewrite Ex; reflexivity|reflexivity].
    rewrite (eval_var s x t v Ex Ht), (conv_nonneg t v), eval_int by (auto; lia). cbn [bind].
    pose proof int_max. assert (VI : valid (named p sz Int)) by (cbn; lia).
    destruct (tmax_common t (named p sz Int) Ht VI).
    rewrite bin_add by (auto; lia). reflexivity.
  Qed.

  Lemma eval_less : forall s x y t t' a b, lookup x (locals s) = Some (object p t a) -> lookup y (locals s) = Some (object p t' b) ->
    valid t -> valid t' -> 0 <= a <= tmax t -> 0 <= b <= tmax t' ->
    eval p sz s (Bin Lt (Var x) (Var y)) = Ok (if a <? b then 1 else 0).
  Proof.
    intros s x y t t' a b Ex Ey Ht Ht' Ha Hb.
    rewrite (eval_bin s Lt _ _ t t'); [|cbn [type_of]; rewrite Ex; reflexivity|cbn [type_of]; rewrite Ey; reflexivity].
    rewrite (eval_var s x t a Ex Ht), (eval_var s y t' b Ey Ht'), !conv_nonneg by auto. cbn [bind].
    apply bin_lt; auto.
  Qed.

  Let size := named p sz Size.

  Lemma valid_size : valid size.
  Proof. cbn. lia. Qed.

  Lemma eval_back : forall s x y a b, lookup x (locals s) = Some (object p size a) -> lookup y (locals s) = Some (object p size b) ->
    0 <= b < a -> a <= tmax size ->
    eval p sz s (Bin Sub (Bin Sub (Var x) (Var y)) (int 1)) = Ok (a - b - 1).
  Proof.
    intros s x y a b Ex Ey Hb Ha. pose proof valid_size as V. pose proof int_max.
    assert (VI : valid (named p sz Int)) by (cbn; lia).
    rewrite (eval_bin s Sub _ _ (common p size size) (named p sz Int));
      [|cbn [type_of]; rewrite Ex, Ey; reflexivity|reflexivity].
    rewrite (eval_bin s Sub _ _ size size); [|cbn [type_of]; rewrite Ex; reflexivity|cbn [type_of]; rewrite Ey; reflexivity].
    rewrite (eval_var s x _ a Ex V), (eval_var s y _ b Ey V), !conv_nonneg by (auto; lia). cbn [bind].
    rewrite bin_sub by (auto; lia). cbn [bind]. rewrite eval_int by lia. cbn [bind].
    destruct (tmax_common size size V V). apply bin_sub; auto using valid_common; lia.
  Qed.

  Section From.
    Variables (T ts : cty) (e : endianess) (mem : list Z) (off n : nat).
    Hypothesis HT : is_uns T.
    Hypothesis Hts : valid ts.
    Hypothesis Mts : 64 <= tmax ts.
    Hypothesis Hn : Z.of_nat n <= tmax size.
    Variable idx : expr.

    Definition from_state (i : nat) (sh r : Z) : state :=
      mk_state [("i", object p size (Z.of_nat i)); ("shift", object p ts sh); ("retval", object p T r); ("n", object p size (Z.of_nat n))]
        [("raw_data", off)] mem.

    Hypothesis Hidx : forall i sh r, (i < n)%nat -> eval p sz (from_state i sh r) idx = Ok (Z.of_nat (byte_index e n i)).

    Lemma from_loop : forall k fuel0 fuel i r, (i + k = n)%nat -> (i <= 8)%nat -> (k <= fuel)%nat -> 0 <= r <= tmax T ->
      for_loop fuel0 (Bin Lt (Var "i") (Var "n")) (increment "i";;; add_to "shift" (int 8))
        (Assign "retval" (Cast (Param T)
          (Bin BitOr (Var "retval") (Bin Shl (Cast (Param T) (At "raw_data" idx)) (Var "shift"))))) fuel
        (from_state i (8 * Z.of_nat i) r)
      = (v <- from_endianess_loop p T e mem off n k i (8 * Z.of_nat i) r;;
         Ok (Next (from_state n (8 * Z.of_nat n) v))).
    Proof.
      pose proof valid_size as V. pose proof (valid_uns T HT) as VT.
      induction k as [|k IH]; intros fuel0 fuel i r Ek Hi8 Hf Hr.
      - assert (i = n) as -> by lia. cbn [from_endianess_loop bind].
        destruct fuel as [|fuel]; cbn [for_loop];
          rewrite (eval_less (from_state n (8 * Z.of_nat n) r) "i" "n" size size (Z.of_nat n) (Z.of_nat n)) by (auto; lia);
          rewrite Z.ltb_irrefl; reflexivity.
      - destruct fuel as [|fuel]; [lia|]. cbn [for_loop from_endianess_loop].
        rewrite (eval_less (from_state i (8 * Z.of_nat i) r) "i" "n" size size (Z.of_nat i) (Z.of_nat n)) by (auto; lia).
        destruct (Z.ltb_spec (Z.of_nat i) (Z.of_nat n)); [|lia]. cbn [bind]. change (1 =? 0) with false.
        rewrite (from_body T ts _ fuel0 r (8 * Z.of_nat i) idx (byte_index e n i) off); auto; try lia; try (apply Hidx; lia).
        change (bytes (from_state i (8 * Z.of_nat i) r)) with mem.
        destruct (load mem (off + byte_index e n i)) as [b|f]; [|reflexivity]. cbn [bind].
        destruct (c_shl (promote p T) (conv T b) (8 * Z.of_nat i)) as [v|f] eqn:Ev; [|reflexivity]. cbn [bind].
        assert (Hi' : (i + 1 <= 8)%nat).
        { unfold c_shl in Ev. destruct (Z.ltb_spec (8 * Z.of_nat i) (bits (csizeof (promote p T)))) as [L|L]; [|discriminate].
          destruct (promote_CInt T) as (w & sg & Ew). pose proof (promote_wide T w sg VT Ew). rewrite Ew in L.
          cbn [csizeof] in L. unfold bits in L. lia. }
        change (mk_state (update "retval" (object p T (conv T (c_or r v))) (locals (from_state i (8 * Z.of_nat i) r)))
                  (pointers (from_state i (8 * Z.of_nat i) r)) mem) with (from_state i (8 * Z.of_nat i) (conv T (c_or r v))).
        cbn [exec]. unfold increment. change (Assign "i" (Bin Add (Var "i") (int 1))) with (add_to "i" (int 1)).
        rewrite (exec_add fuel0 "i" size _ (Z.of_nat i)) by (auto; lia). cbn [bind].
        rewrite (exec_add fuel0 "shift" ts _ (8 * Z.of_nat i)) by (auto; lia). cbn [bind].
        specialize (IH fuel0 fuel (S i) (conv T (c_or r v)) ltac:(lia) ltac:(lia) ltac:(lia) (conv_uns_range T _ HT)).
        replace (8 * Z.of_nat i + 8) with (8 * Z.of_nat (S i)) by lia.
        replace (Z.of_nat i + 1) with (Z.of_nat (S i)) by lia. exact IH.
    Qed.
  End From.

  Lemma exec_seq : forall fuel a b s s', exec p sz fuel a s = Ok (Next s') -> exec p sz fuel (a;;; b) s = exec p sz fuel b s'.
  Proof. intros fuel a b s s' H. cbn [exec]. rewrite H. reflexivity. Qed.

  Lemma exec_zero : forall fuel x T s, valid T ->
    exec p sz fuel (Auto x (Cast (Param T) (int 0))) s = Ok (Next (define x (object p T (conv T 0)) s)).
  Proof.
    intros fuel x T s HT. cbn [exec type_of need bind]. cbn [eval]. rewrite eval_int by lia. cbn [bind named]. reflexivity.
  Qed.

  Lemma exec_define : forall fuel T x z s, 0 <= z <= 255 ->
    exec p sz fuel (Define T x (int z)) s = Ok (Next (define x (object p (named p sz T) z) s)).
  Proof. intros fuel T x z s Hz. cbn [exec]. rewrite eval_int by lia. reflexivity. Qed.

  Definition from_start (mem : list Z) (off n : nat) : state :=
    mk_state [("n", object p size (Z.of_nat n))] [("raw_data", off)] mem.

  Lemma from_impl : forall T e mem off n fuel, is_uns T -> Z.of_nat n <= tmax size -> (n <= fuel)%nat ->
    match from_endianess_impl p T e mem off n with
    | Ok v => exists s, exec p sz fuel (from_endianess_impl_src T e) (from_start mem off n) = Ok (Returned s v) /\ bytes s = mem
                        /\ 0 <= v <= tmax T
    | Fault f => exec p sz fuel (from_endianess_impl_src T e) (from_start mem off n) = Fault f
    end.
  Proof.
    intros T e mem off n fuel HT Hn Hf. pose proof (valid_uns T HT) as VT. pose proof valid_size as V.
    assert (R0 : 0 <= conv T 0 <= tmax T) by (apply conv_uns_range; auto).
    assert (R : forall k i sh r v, 0 <= r <= tmax T -> from_endianess_loop p T e mem off n k i sh r = Ok v -> 0 <= v <= tmax T).
    { induction k as [|k IH]; intros i sh r v Hr; cbn [from_endianess_loop].
      - intros H. injection H as <-. exact Hr.
      - destruct (load mem _); [|discriminate]. cbn [bind]. destruct (c_shl _ _ _); [|discriminate]. cbn [bind].
        apply IH. apply conv_uns_range. exact HT. }
    unfold from_endianess_impl.
    assert (G : forall ts idx, valid ts -> 64 <= tmax ts ->
      (forall i sh r, (i < n)%nat -> eval p sz (from_state T ts mem off n i sh r) idx = Ok (Z.of_nat (byte_index e n i))) ->
      forall c, exec p sz fuel c (from_start mem off n)
        = (r1 <- for_loop fuel (Bin Lt (Var "i") (Var "n")) (increment "i";;; add_to "shift" (int 8))
             (Assign "retval" (Cast (Param T)
               (Bin BitOr (Var "retval") (Bin Shl (Cast (Param T) (At "raw_data" idx)) (Var "shift"))))) fuel
             (from_state T ts mem off n 0 0 (conv T 0));;
           match r1 with
           | Next s => v <- eval p sz s (Var "retval");; Ok (Returned s v)
           | Returned _ _ => Ok r1
           end) ->
      match from_endianess_loop p T e mem off n n 0 0 (conv T 0) with
      | Ok v => exists s, exec p sz fuel c (from_start mem off n) = Ok (Returned s v) /\ bytes s = mem /\ 0 <= v <= tmax T
      | Fault f => exec p sz fuel c (from_start mem off n) = Fault f
      end).
    { intros ts idx Hts Mts Hidx c Ec.
      pose proof (from_loop T ts e mem off n HT Hts Mts Hn idx Hidx n fuel fuel 0%nat (conv T 0) ltac:(lia) ltac:(lia) ltac:(lia) R0) as L.
      change (8 * Z.of_nat 0) with 0 in L. rewrite Ec, L.
      destruct (from_endianess_loop p T e mem off n n 0 0 (conv T 0)) as [v|f] eqn:Ev; [|reflexivity]. cbn [bind].
      specialize (R n 0%nat 0 (conv T 0) v R0 Ev).
      rewrite (eval_var (from_state T ts mem off n n (8 * Z.of_nat n) v) "retval" T v eq_refl VT). rewrite conv_nonneg by auto.
      cbn [bind]. eexists. split; [reflexivity|]. split; [reflexivity|]. exact R. }
    destruct e.
    - apply (G size (Var "i")); auto.
      + pose proof size_max. fold size in H. lia.
      + intros i sh r Hi'. cbn [byte_index]. rewrite (eval_var (from_state T size mem off n i sh r) "i" size (Z.of_nat i) eq_refl V), conv_nonneg; auto. lia.
      + unfold from_endianess_impl_src.
        rewrite (exec_seq _ _ _ _ _ (exec_zero fuel "retval" T _ VT)).
        rewrite (exec_seq _ _ _ _ _ (exec_define fuel Size "shift" 0 _ ltac:(lia))).
        rewrite (exec_seq _ _ _ _ _ (exec_define fuel Size "i" 0 _ ltac:(lia))).
        cbn [exec]. rewrite <- exec_for. reflexivity.
    - apply (G (named p sz Unsigned) (Bin Sub (Bin Sub (Var "n") (Var "i")) (int 1))); auto.
      + cbn. lia.
      + pose proof (tmax_ge (p_int_size p) false ltac:(lia)). cbn [named]. lia.
      + intros i sh r Hi'. cbn [byte_index]. rewrite (eval_back (from_state T (named p sz Unsigned) mem off n i sh r) "n" "i" (Z.of_nat n) (Z.of_nat i) eq_refl eq_refl) by lia.
        f_equal. lia.
      + unfold from_endianess_impl_src.
        rewrite (exec_seq _ _ _ _ _ (exec_zero fuel "retval" T _ VT)).
        rewrite (exec_seq _ _ _ _ _ (exec_define fuel Unsigned "shift" 0 _ ltac:(lia))).
        rewrite (exec_seq _ _ _ _ _ (exec_define fuel Size "i" 0 _ ltac:(lia))).
        cbn [exec]. rewrite <- exec_for. reflexivity.
  Qed.

  (** Lines 40-50. *)
  Lemma from_endianess_ok : forall T e mem off n fuel, is_uns T -> Z.of_nat n <= tmax size -> (n <= fuel)%nat ->
    match from_endianess p T e mem off n with
    | Ok v => exists s, exec p sz fuel (from_endianess_src p T e) (from_start mem off n) = Ok (Returned s v) /\ bytes s = mem
                        /\ 0 <= v <= tmax T
    | Fault f => exec p sz fuel (from_endianess_src p T e) (from_start mem off n) = Fault f
    end.
  Proof.
    intros T e mem off n fuel HT Hn Hf. pose proof (valid_uns T HT) as VT. pose proof valid_size as V.
    unfold from_endianess, from_endianess_src. destruct (native_endianess p e).
    - rewrite (exec_seq _ _ _ _ _ (exec_zero fuel "retval" T _ VT)).
      change (define "retval" (object p T (conv T 0)) (from_start mem off n))
        with (mk_state [("retval", object p T (conv T 0)); ("n", object p size (Z.of_nat n))] [("raw_data", off)] mem).
      rewrite object_conv by exact VT. set (s := mk_state _ _ _).
      assert (C : exec p sz fuel (CopyFrom "retval" "raw_data" (Var "n")) s
        = (bs <- load_range mem off n;; if (csizeof T <? n)%nat then Fault OutOfBounds
           else Ok (Next (mk_state [("retval", (T, overwrite (obj_bytes p T (conv T 0)) bs)); ("n", object p size (Z.of_nat n))]
                            [("raw_data", off)] mem)))).
      { change (exec p sz fuel (CopyFrom "retval" "raw_data" (Var "n")) s) with
          (k <- eval p sz s (Var "n");;
           src <- load_range mem (off + Z.to_nat 0) (Z.to_nat k);;
           bs' <- put_bytes (obj_bytes p T (conv T 0)) src;;
           Ok (Next (mk_state [("retval", (T, bs')); ("n", object p size (Z.of_nat n))] [("raw_data", off)] mem))).
        rewrite (eval_var s "n" size (Z.of_nat n) eq_refl V). rewrite conv_nonneg by (auto; lia). cbn [bind]. rewrite Nat2Z.id.
        change (Z.to_nat 0) with 0%nat. rewrite Nat.add_0_r.
        destruct (load_range mem off n) as [bs|f] eqn:El; [|reflexivity]. cbn [bind].
        assert (Lb : List.length bs = n).
        { revert El. clear. revert off bs. induction n as [|n IH]; intros off bs; cbn [load_range].
          - intros H. injection H as <-. reflexivity.
          - destruct (load mem off); [|discriminate]. cbn [bind]. destruct (load_range mem (S off) n) eqn:E; [|discriminate].
            cbn [bind]. intros H. injection H as <-. cbn. f_equal. eapply IH. eauto. }
        unfold put_bytes. rewrite obj_bytes_length, Lb. destruct (csizeof T <? n)%nat; reflexivity. }
      cbn [exec] in *. rewrite C. destruct (load_range mem off n) as [bs|f]; [|reflexivity]. cbn [bind].
      destruct (csizeof T <? n)%nat; [reflexivity|]. cbn [bind].
      set (s2 := mk_state _ _ _).
      change (eval p sz s2 (Var "retval")) with (obj_value p T (overwrite (obj_bytes p T (conv T 0)) bs)).
      destruct (obj_value p T (overwrite (obj_bytes p T (conv T 0)) bs)) as [v|f] eqn:Ev; [|reflexivity]. cbn [bind].
      eexists. split; [reflexivity|]. split; [reflexivity|].
      unfold obj_value in Ev. destruct T as [|w sg].
      + assert (B : v = 0 \/ v = 1); [|cbn [tmax]; lia].
        destruct ((match p_endianess p with
                   | LITTLE => undigits (overwrite (obj_bytes p CBool (conv CBool 0)) bs)
                   | BIG => undigits (rev (overwrite (obj_bytes p CBool (conv CBool 0)) bs))
                   end =? 0)
                  || (match p_endianess p with
                      | LITTLE => undigits (overwrite (obj_bytes p CBool (conv CBool 0)) bs)
                      | BIG => undigits (rev (overwrite (obj_bytes p CBool (conv CBool 0)) bs))
                      end =? 1)) eqn:B; [|discriminate].
        injection Ev as Ev. change (conv CBool 0) with 0 in B. rewrite Ev in B. lia.
      + assert (Ev' : conv (CInt w sg) (match p_endianess p with
                                        | LITTLE => undigits (overwrite (obj_bytes p (CInt w sg) (conv (CInt w sg) 0)) bs)
                                        | BIG => undigits (rev (overwrite (obj_bytes p (CInt w sg) (conv (CInt w sg) 0)) bs))
                                        end) = v) by congruence.
        rewrite <- Ev'. apply conv_uns_range. exact HT.
    - pose proof (from_impl T e mem off n fuel HT Hn Hf) as G.
      assert (C : exec p sz fuel (ReturnCall (Param T) from_params (from_endianess_impl_src T e) [Pointer "raw_data"; Value (Var "n")]) (from_start mem off n)
        = (r <- exec p sz fuel (from_endianess_impl_src T e) (from_start mem off n);;
           match r with
           | Returned s1 v => Ok (Returned (mk_state [("n", object p size (Z.of_nat n))] [("raw_data", off)] (bytes s1)) (conv T v))
           | Next _ => Fault TypeMismatch
           end)).
      { cbn [exec]. cbn [bind_params from_params from_start pointers locals lookup need bind String.eqb Ascii.eqb Bool.eqb].
        fold (from_start mem off n).
        rewrite (eval_var (from_start mem off n) "n" size (Z.of_nat n) eq_refl V), conv_nonneg by (auto; lia). reflexivity. }
      rewrite C. clear C. destruct (from_endianess_impl p T e mem off n) as [v|f].
      + destruct G as (s & G1 & G2 & G3). rewrite G1. cbn [bind]. rewrite conv_nonneg by auto.
        eexists. split; [reflexivity|]. split; [exact G2|exact G3].
      + rewrite G. reflexivity.
  Qed.

  (** Lines 53-62. *)
  Section To.
    Variables (T : cty) (e : endianess) (off n : nat).
    Hypothesis HT : is_uns T.
    Hypothesis Hn : Z.of_nat n <= tmax size.
    Variable idx : expr.

    Definition to_state (i : nat) (x : Z) (mem : list Z) : state :=
      mk_state [("i", object p size (Z.of_nat i)); ("n", object p size (Z.of_nat n)); ("x", object p T x)] [("raw_data", off)] mem.

    Hypothesis Hidx : forall i x mem, (i < n)%nat -> eval p sz (to_state i x mem) idx = Ok (Z.of_nat (byte_index e n i)).

    Lemma to_byte : forall i x mem, 0 <= x <= tmax T ->
      eval p sz (to_state i x mem) (Bin BitAnd (Var "x") (int 255)) = Ok (c_and x 255).
    Proof.
      intros i x mem Hx. pose proof (valid_uns T HT) as VT. pose proof int_max.
      assert (VI : valid (named p sz Int)) by (cbn; lia).
      rewrite (eval_bin _ BitAnd _ _ T (named p sz Int)) by reflexivity.
      rewrite (eval_var (to_state i x mem) "x" T x eq_refl VT), conv_nonneg, eval_int by (auto; lia). cbn [bind apply_bin].
      destruct (tmax_common T (named p sz Int) VT VI).
      assert (L : Z.land x 255 = x mod 256) by (change 255 with (Z.ones 8); apply Z.land_ones; lia).
      pose proof (Z.mod_pos_bound x 256 ltac:(lia)).
      rewrite (conv_nonneg _ x), (conv_nonneg _ 255) by (auto using valid_common; lia).
      rewrite conv_nonneg by (auto using valid_common; lia). reflexivity.
    Qed.

    Lemma to_shift : forall fuel i x mem, 0 <= x <= tmax T ->
      exec p sz fuel (Assign "x" (Cast (Param T) (Bin Shr (Var "x") (int 8)))) (to_state i x mem)
      = (v <- c_shr (promote p T) x 8;; Ok (Next (to_state i (conv T v) mem))).
    Proof.
      intros fuel i x mem Hx. pose proof (valid_uns T HT) as VT. pose proof int_max.
      assert (VI : valid (named p sz Int)) by (cbn; lia).
      change (exec p sz fuel (Assign "x" (Cast (Param T) (Bin Shr (Var "x") (int 8)))) (to_state i x mem)) with
        (v <- (w <- eval p sz (to_state i x mem) (Bin Shr (Var "x") (int 8));; Ok (conv T w));; Ok (Next (to_state i v mem))).
      rewrite (eval_bin _ Shr _ _ T (named p sz Int)) by reflexivity.
      rewrite (eval_var (to_state i x mem) "x" T x eq_refl VT), conv_nonneg, eval_int by (auto; lia). cbn [bind apply_bin].
      pose proof (tmax_promote _ VI). pose proof (tmax_promote _ VT).
      rewrite (conv_nonneg _ 8), (conv_nonneg _ x) by (auto using valid_promote; lia). change (8 <? 0) with false. cbv iota.
      destruct (c_shr (promote p T) x 8); reflexivity.
    Qed.

    Lemma to_loop : forall k fuel0 fuel i x mem, (i + k = n)%nat -> (k <= fuel)%nat -> 0 <= x <= tmax T ->
      match to_endianess_loop p T e mem off n k i x with
      | Ok mem' => exists s, for_loop fuel0 (Bin Lt (Var "i") (Var "n")) (increment "i";;; Assign "x" (Cast (Param T) (Bin Shr (Var "x") (int 8))))
                       (AssignAt "raw_data" idx (Bin BitAnd (Var "x") (int 255))) fuel (to_state i x mem) = Ok (Next s) /\ bytes s = mem'
      | Fault f => for_loop fuel0 (Bin Lt (Var "i") (Var "n")) (increment "i";;; Assign "x" (Cast (Param T) (Bin Shr (Var "x") (int 8))))
                       (AssignAt "raw_data" idx (Bin BitAnd (Var "x") (int 255))) fuel (to_state i x mem) = Fault f
      end.
    Proof.
      pose proof valid_size as V. pose proof (valid_uns T HT) as VT.
      induction k as [|k IH]; intros fuel0 fuel i x mem Ek Hf Hx.
      - assert (i = n) as -> by lia. cbn [to_endianess_loop].
        exists (to_state n x mem). split; [|reflexivity].
        destruct fuel as [|fuel]; cbn [for_loop];
          rewrite (eval_less (to_state n x mem) "i" "n" size size (Z.of_nat n) (Z.of_nat n)) by (auto; lia);
          rewrite Z.ltb_irrefl; reflexivity.
      - destruct fuel as [|fuel]; [lia|]. cbn [for_loop to_endianess_loop].
        rewrite (eval_less (to_state i x mem) "i" "n" size size (Z.of_nat i) (Z.of_nat n)) by (auto; lia).
        destruct (Z.ltb_spec (Z.of_nat i) (Z.of_nat n)); [|lia]. cbn [bind]. change (1 =? 0) with false.
        assert (B : exec p sz fuel0 (AssignAt "raw_data" idx (Bin BitAnd (Var "x") (int 255))) (to_state i x mem)
          = (m <- store mem (off + byte_index e n i) (conv (CInt 1 false) (c_and x 255));; Ok (Next (to_state i x m)))).
        { cbn [exec]. rewrite to_byte by auto. cbn [bind]. rewrite Hidx by lia. cbn [bind]. unfold position.
          change (lookup "raw_data" (pointers (to_state i x mem))) with (Some off). cbn [need bind].
          destruct (Z.ltb_spec (Z.of_nat (byte_index e n i)) 0); [lia|]. cbn [bind]. rewrite Nat2Z.id. reflexivity. }
        rewrite B. destruct (store mem (off + byte_index e n i) (conv (CInt 1 false) (c_and x 255))) as [m|f]; [|reflexivity].
        cbn [bind]. cbn [exec]. unfold increment. change (Assign "i" (Bin Add (Var "i") (int 1))) with (add_to "i" (int 1)).
        rewrite (exec_add fuel0 "i" size _ (Z.of_nat i)) by (auto; lia). cbn [bind].
        replace (Z.of_nat i + 1) with (Z.of_nat (S i)) by lia.
        change (mk_state (update "i" (object p size (Z.of_nat (S i))) (locals (to_state i x m))) (pointers (to_state i x m)) (bytes (to_state i x m)))
          with (to_state (S i) x m).
        assert (S : exec p sz fuel0 (Assign "x" (Cast (Param T) (Bin Shr (Var "x") (int 8)))) (to_state (S i) x m)
          = (v <- c_shr (promote p T) x 8;; Ok (Next (to_state (S i) (conv T v) m)))) by (apply to_shift; auto).
        cbn [exec] in S. rewrite S. destruct (c_shr (promote p T) x 8) as [v|f]; [|reflexivity]. cbn [bind].
        apply IH; try lia. apply conv_uns_range. exact HT.
    Qed.
  End To.

  Definition to_start (T : cty) (x : Z) (mem : list Z) (off n : nat) : state :=
    mk_state [("n", object p size (Z.of_nat n)); ("x", object p T x)] [("raw_data", off)] mem.

  Lemma to_impl : forall T e mem off n x fuel, is_uns T -> Z.of_nat n <= tmax size -> (n <= fuel)%nat -> 0 <= x <= tmax T ->
    match to_endianess_loop p T e mem off n n 0 x with
    | Ok mem' => exists s, exec p sz fuel (to_endianess_impl_src T e) (to_start T x mem off n) = Ok (Next s) /\ bytes s = mem'
    | Fault f => exec p sz fuel (to_endianess_impl_src T e) (to_start T x mem off n) = Fault f
    end.
  Proof.
    intros T e mem off n x fuel HT Hn Hf Hx. pose proof valid_size as V.
    destruct e; unfold to_endianess_impl_src;
      rewrite (exec_seq _ _ _ _ _ (exec_define fuel Size "i" 0 _ ltac:(lia))), exec_for;
      change (define "i" (object p (named p sz Size) 0) (to_start T x mem off n)) with (to_state T off n 0 x mem).
    - apply (to_loop T LITTLE off n HT Hn (Var "i")); try lia; auto.
      intros i x' m Hi'. cbn [byte_index]. rewrite (eval_var (to_state T off n i x' m) "i" size (Z.of_nat i) eq_refl V), conv_nonneg; auto. lia.
    - apply (to_loop T BIG off n HT Hn (Bin Sub (Bin Sub (Var "n") (Var "i")) (int 1))); try lia; auto.
      intros i x' m Hi'. cbn [byte_index]. rewrite (eval_back (to_state T off n i x' m) "n" "i" (Z.of_nat n) (Z.of_nat i) eq_refl eq_refl) by lia.
      f_equal. lia.
  Qed.

  (** Lines 65-72. *)
  Lemma to_endianess_ok : forall T e mem off n x fuel, is_uns T -> Z.of_nat n <= tmax size -> (n <= fuel)%nat -> 0 <= x <= tmax T ->
    match to_endianess p T e mem off x n with
    | Ok mem' => exists s, exec p sz fuel (to_endianess_src p T e) (to_start T x mem off n) = Ok (Next s) /\ bytes s = mem'
    | Fault f => exec p sz fuel (to_endianess_src p T e) (to_start T x mem off n) = Fault f
    end.
  Proof.
    intros T e mem off n x fuel HT Hn Hf Hx. pose proof (valid_uns T HT) as VT. pose proof valid_size as V.
    unfold to_endianess, to_endianess_src. destruct (native_endianess p e).
    - change (exec p sz fuel (CopyTo "raw_data" "x" (Var "n")) (to_start T x mem off n)) with
        (k <- eval p sz (to_start T x mem off n) (Var "n");;
         src <- first_bytes (Z.to_nat k) (obj_bytes p T (conv T x));;
         m <- store_range mem (off + Z.to_nat 0) src;;
         Ok (Next (to_start T x m off n))).
      rewrite (eval_var (to_start T x mem off n) "n" size (Z.of_nat n) eq_refl V). rewrite !conv_nonneg by (auto; lia). cbn [bind].
      rewrite Nat2Z.id. change (Z.to_nat 0) with 0%nat. rewrite Nat.add_0_r. unfold first_bytes. rewrite obj_bytes_length.
      destruct (csizeof T <? n)%nat; [reflexivity|]. cbn [bind].
      destruct (store_range mem off (firstn n (obj_bytes p T x))) as [m|f]; [|reflexivity]. cbn [bind]. eauto.
    - pose proof (to_impl T e mem off n x fuel HT Hn Hf Hx) as G.
      assert (C : exec p sz fuel (Call None None (to_params T) (to_endianess_impl_src T e) [Pointer "raw_data"; Value (Var "x"); Value (Var "n")])
                    (to_start T x mem off n)
        = (r <- exec p sz fuel (to_endianess_impl_src T e) (to_start T x mem off n);;
           match r with
           | Next s1 => Ok (Next (to_start T x (bytes s1) off n))
           | Returned _ _ => Fault TypeMismatch
           end)).
      { cbn [exec]. cbn [bind_params to_params].
        change (lookup "raw_data" (pointers (to_start T x mem off n))) with (Some off). cbn [need bind].
        rewrite (eval_var (to_start T x mem off n) "x" T x eq_refl VT), (eval_var (to_start T x mem off n) "n" size (Z.of_nat n) eq_refl V).
        rewrite !conv_nonneg by (auto; lia). cbn [bind]. reflexivity. }
      rewrite C. clear C. destruct (to_endianess_loop p T e mem off n n 0 x) as [m|f].
      + destruct G as (s & G1 & G2). rewrite G1. cbn [bind]. eexists. split; [reflexivity|]. exact G2.
      + rewrite G. reflexivity.
  Qed.

  (** ** detail/signed_representation.hpp *)

  Lemma promote_ull : promote p ull = ull.
  Proof. unfold promote, ull. destruct (Nat.ltb_spec 8 (p_int_size p)); [lia|reflexivity]. Qed.

  Lemma common_ull : common p ull ull = ull.
  Proof. unfold common. rewrite promote_ull. reflexivity. Qed.

  Lemma common_wide : forall t, valid t -> common p t ull = ull.
  Proof.
    intros t Ht. unfold common. rewrite promote_ull. destruct (promote_CInt t) as (w & s & E). rewrite E.
    pose proof (promote_wide t w s Ht E). unfold ull. destruct (Nat.eqb_spec w 8) as [->|N].
    - rewrite andb_false_r. reflexivity.
    - destruct (Nat.ltb_spec w 8); [reflexivity|lia].
  Qed.

  Lemma common_int : forall t, valid t -> common p t (named p sz Int) = promote p t.
  Proof.
    intros t Ht. unfold common. cbn [named promote]. rewrite Nat.ltb_irrefl. destruct (promote_CInt t) as (w & s & E). rewrite E.
    pose proof (promote_wide t w s Ht E). destruct (Nat.eqb_spec w (p_int_size p)) as [->|N].
    - rewrite andb_true_r. reflexivity.
    - destruct (Nat.ltb_spec w (p_int_size p)); [lia|reflexivity].
  Qed.

  Lemma bits_ull : 2 ^ bits 8 = space 8.
  Proof. symmetry. apply space_pow2. Qed.

  Lemma conv_ull : forall v, conv ull v = v mod space 8.
  Proof. intros v. apply conv_unsigned. Qed.

  Lemma ull_range : forall v, 0 <= v < space 8 -> conv ull v = v.
  Proof. intros v H. rewrite conv_ull. apply Z.mod_small. exact H. Qed.

  Lemma conv_ull_range : forall v, 0 <= conv ull v < space 8.
  Proof. intros v. rewrite conv_ull. apply Z.mod_pos_bound. reflexivity. Qed.

  Lemma ull_bits : forall f a b, (f = Z.land \/ f = Z.lor \/ f = Z.lxor) -> conv ull (f (conv ull a) (conv ull b)) = f (conv ull a) (conv ull b).
  Proof.
    intros f a b Hf. rewrite !conv_ull. rewrite <- bits_ull. change (bits 8) with 64. rewrite <- !Z.land_ones by lia.
    destruct Hf as [->|[->| ->]]; apply Z.bits_inj'; intros n Hn;
      repeat rewrite ?Z.land_spec, ?Z.lor_spec, ?Z.lxor_spec;
      destruct (Z.testbit a n), (Z.testbit b n), (Z.testbit (Z.ones 64) n); reflexivity.
  Qed.

  Lemma sign_mask_range : forall w, 0 <= sign_mask w < space 8.
  Proof. intros w. unfold sign_mask. rewrite bits_ull. apply Z.mod_pos_bound. reflexivity. Qed.

  Lemma sizeof_range : forall w, (w <= 8)%nat -> conv size (Z.of_nat w) = Z.of_nat w.
  Proof. intros w H. apply conv_nonneg; [apply valid_size|]. pose proof size_max. fold size in H0. lia. Qed.

  (** [0b10000000ull << 8 * (sizeof(T) - 1)] *)
  Lemma eval_mask : forall s w sg, (1 <= w <= 8)%nat -> eval p sz s (mask_src (CInt w sg)) = Ok (sign_mask w).
  Proof.
    intros s w sg Hw. pose proof valid_size as V. pose proof int_max. pose proof size_max as SM. fold size in SM.
    assert (VI : valid (named p sz Int)) by (cbn; lia).
    unfold mask_src. rewrite (eval_bin s Shl _ _ ull (common p (named p sz Int) (common p size (named p sz Int)))) by reflexivity.
    change (eval p sz s (Lit UnsignedLongLong 128)) with (Ok (conv ull 128)). rewrite ull_range by (split; [lia|reflexivity]). cbn [bind].
    rewrite (eval_bin s Mul _ _ (named p sz Int) (common p size (named p sz Int))) by reflexivity.
    rewrite eval_int by lia. cbn [bind].
    rewrite (eval_bin s Sub _ _ size (named p sz Int)) by reflexivity.
    change (eval p sz s (SizeofType (Param (CInt w sg)))) with (Ok (conv size (Z.of_nat w))).
    rewrite sizeof_range by lia. cbn [bind]. rewrite eval_int by lia. cbn [bind].
    rewrite bin_sub by (auto; lia). cbn [bind].
    destruct (tmax_common size (named p sz Int) V VI) as [M1 M2].
    pose proof (valid_common size (named p sz Int) V VI) as VC.
    destruct (tmax_common (named p sz Int) (common p size (named p sz Int)) VI VC) as [M3 M4].
    rewrite bin_mul by (auto; lia). cbn [bind apply_bin].
    pose proof (valid_common (named p sz Int) _ VI VC) as VD.
    pose proof (tmax_promote _ VD). rewrite conv_nonneg by (auto using valid_promote; lia).
    destruct (Z.ltb_spec (8 * (Z.of_nat w - 1)) 0); [lia|]. rewrite promote_ull, ull_range by (split; [lia|reflexivity]).
    unfold c_shl. cbn [csizeof ull]. destruct (Z.ltb_spec (8 * (Z.of_nat w - 1)) (bits 8)) as [L|L]; [|unfold bits in L; lia].
    cbn [arith]. unfold sign_mask. replace (8 * (Z.of_nat w - 1)) with (bits (w - 1)) by (unfold bits; lia). reflexivity.
  Qed.

  Lemma type_mask : forall vs T, type_of p sz vs (mask_src T) = Some ull.
  Proof. intros vs T. change (type_of p sz vs (mask_src T)) with (Some (promote p ull)). rewrite promote_ull. reflexivity. Qed.

  Lemma exec_mask : forall fuel s x w sg, (1 <= w <= 8)%nat ->
    exec p sz fuel (Auto x (mask_src (CInt w sg))) s = Ok (Next (define x (object p ull (sign_mask w)) s)).
  Proof. intros fuel s x w sg Hw. cbn [exec]. rewrite type_mask. cbn [need bind]. rewrite eval_mask by auto. reflexivity. Qed.

  Lemma eval_and_ull : forall s x y a b, lookup x (locals s) = Some (object p ull a) -> lookup y (locals s) = Some (object p ull b) ->
    0 <= a < space 8 -> 0 <= b < space 8 -> eval p sz s (Bin BitAnd (Var x) (Var y)) = Ok (c_and a b).
  Proof.
    intros s x y a b Ex Ey Ha Hb. assert (VU : valid ull) by (cbn; lia).
    rewrite (eval_bin s BitAnd _ _ ull ull); [|cbn [type_of]; rewrite Ex; reflexivity|cbn [type_of]; rewrite Ey; reflexivity].
    rewrite (eval_var s x ull a Ex VU), (eval_var s y ull b Ey VU). cbn [bind apply_bin]. rewrite common_ull, !conv_idem by auto.
    rewrite ull_bits by auto. rewrite !ull_range by auto. reflexivity.
  Qed.

  Lemma eval_var_ull : forall s x a, lookup x (locals s) = Some (object p ull a) -> 0 <= a < space 8 -> eval p sz s (Var x) = Ok a.
  Proof. intros s x a Ex Ha. rewrite (eval_var s x ull a Ex) by (cbn; lia). rewrite ull_range by auto. reflexivity. Qed.

  Lemma eval_not_ull : forall s x a, lookup x (locals s) = Some (object p ull a) -> 0 <= a < space 8 ->
    eval p sz s (Un BitNot (Var x)) = Ok (c_not ull a).
  Proof.
    intros s x a Ex Ha.
    change (eval p sz s (Un BitNot (Var x))) with
      (t <- need (option_map fst (lookup x (locals s)));; v <- eval p sz s (Var x);; apply_un p BitNot t v).
    rewrite Ex, (eval_var_ull s x a Ex Ha). cbn [option_map object fst need bind apply_un]. rewrite promote_ull, (ull_range a) by auto.
    reflexivity.
  Qed.

  Lemma eval_cond : forall s c a b t, type_of p sz (locals s) a = Some t -> type_of p sz (locals s) b = Some t -> valid t ->
    eval p sz s (Cond c a b) = (v <- eval p sz s c;; r <- (if v =? 0 then eval p sz s b else eval p sz s a);; Ok (conv t r)).
  Proof.
    intros s c a b t Ha Hb Ht. cbn [eval]. rewrite Ha, Hb. cbn [need bind].
    assert (E : type_of_cond p t t = t).
    { unfold type_of_cond. destruct t as [|w sg]; cbn [same_type]; auto. rewrite Nat.eqb_refl, eqb_reflx. reflexivity. }
    rewrite E. reflexivity.
  Qed.

  Definition value_start (v : Z) (mem : list Z) : state := mk_state [("value", object p ull v)] [] mem.

  Lemma neg_cast : forall s T e, valid T ->
    eval p sz s (Cast (Param T) (Un Neg (Cast (Param T) e)))
    = (v <- eval p sz s e;; r <- c_neg (promote p T) (conv T v);; Ok (conv T r)).
  Proof.
    intros s T e HT. cbn [eval type_of need named]. rewrite <- !bind_assoc. cbn [bind].
    destruct (eval p sz s e) as [v|]; [|reflexivity]. cbn [bind apply_un]. rewrite conv_promote by auto. reflexivity.
  Qed.

  (** Lines 13-33. *)
  Lemma from_signed_impl : forall w m v mem fuel, (1 <= w <= 8)%nat -> 0 <= v < space 8 ->
    match from_signed_mode_impl p w m v with
    | Ok r => exists s, exec p sz fuel (from_signed_mode_impl_src (CInt w true) m) (value_start v mem) = Ok (Returned s r) /\ bytes s = mem
                        /\ conv (CInt w true) r = r
    | Fault f => exec p sz fuel (from_signed_mode_impl_src (CInt w true) m) (value_start v mem) = Fault f
    end.
  Proof.
    intros w m v mem fuel Hw Hv. set (T := CInt w true). assert (VT : valid T) by exact Hw.
    pose proof (sign_mask_range w) as Hm. assert (VU : valid ull) by (cbn; lia). pose proof int_max. pose proof valid_size as V.
    assert (VI : valid (named p sz Int)) by (cbn; lia). pose proof size_max as SM. fold size in SM.
    unfold from_signed_mode_impl, from_signed_mode_impl_src. fold T.
    destruct m.
    - rewrite (exec_seq _ _ _ _ _ (exec_mask fuel _ "sign_mask" w true Hw)).
      set (s1 := define "sign_mask" _ _).
      assert (E1 : exec p sz fuel (Auto "magnitude_mask"
        (Bin BitXor
           (Bin Shr (Un BitNot (Lit UnsignedLongLong 0))
              (Bin Mul (int 8) (Bin Sub (SizeofVar "value") (SizeofType (Param T)))))
           (Var "sign_mask"))) s1 = Ok (Next (define "magnitude_mask" (object p ull (magnitude_mask w)) s1))).
      { cbn [exec].
        assert (Et : type_of p sz (locals s1) (Bin BitXor
           (Bin Shr (Un BitNot (Lit UnsignedLongLong 0))
              (Bin Mul (int 8) (Bin Sub (SizeofVar "value") (SizeofType (Param T)))))
           (Var "sign_mask")) = Some ull).
        { transitivity (Some (common p (promote p (promote p ull)) ull)); [reflexivity|]. rewrite !promote_ull, common_ull. reflexivity. }
        rewrite Et. cbn [need bind].
        rewrite (eval_bin s1 BitXor _ _ ull ull);
          [|transitivity (Some (promote p (promote p ull))); [reflexivity|rewrite !promote_ull; reflexivity]|reflexivity].
        rewrite (eval_bin s1 Shr _ _ ull (common p (named p sz Int) (common p size size)));
          [|transitivity (Some (promote p ull)); [reflexivity|rewrite promote_ull; reflexivity]|reflexivity].
        change (eval p sz s1 (Un BitNot (Lit UnsignedLongLong 0)))
          with (Ok (conv (promote p ull) (Z.lnot (conv (promote p ull) (conv ull 0))))). rewrite promote_ull. cbn [bind].
        rewrite (eval_bin s1 Mul _ _ (named p sz Int) (common p size size)) by reflexivity. rewrite eval_int by lia. cbn [bind].
        rewrite (eval_bin s1 Sub _ _ size size) by reflexivity.
        change (eval p sz s1 (SizeofVar "value")) with (Ok (conv size (Z.of_nat 8))).
        change (eval p sz s1 (SizeofType (Param T))) with (Ok (conv size (Z.of_nat w))).
        rewrite !sizeof_range by lia. cbn [bind]. rewrite bin_sub by (auto; lia). cbn [bind].
        pose proof (valid_common size size V V) as VC. destruct (tmax_common size size V V) as [M1 M2].
        destruct (tmax_common (named p sz Int) (common p size size) VI VC) as [M3 M4].
        rewrite bin_mul by (auto; lia). cbn [bind apply_bin].
        pose proof (valid_common (named p sz Int) _ VI VC) as VD.
        pose proof (tmax_promote _ VD). rewrite conv_nonneg by (auto using valid_promote; lia).
        destruct (Z.ltb_spec (8 * (Z.of_nat 8 - Z.of_nat w)) 0); [lia|]. unfold c_shr. rewrite promote_ull. cbn [csizeof ull].
        destruct (Z.ltb_spec (8 * (Z.of_nat 8 - Z.of_nat w)) (bits 8)) as [L|L]; [|unfold bits in L; lia]. cbn [bind].
        rewrite (eval_var s1 "sign_mask" ull (sign_mask w) eq_refl VU). cbn [bind]. rewrite common_ull, ull_bits by auto.
        rewrite (conv_idem ull (sign_mask w)), (ull_range (sign_mask w)) by auto.
        assert (Em : conv ull (Z.shiftr (conv ull (conv ull (Z.lnot (conv ull (conv ull 0))))) (8 * (Z.of_nat 8 - Z.of_nat w)))
                     = Z.shiftr (c_not ull 0) (bits (8 - w))).
        { assert (Cw : In w [1; 2; 3; 4; 5; 6; 7; 8]%nat) by (cbn; lia).
          cbn in Cw. repeat (destruct Cw as [<-|Cw]; [reflexivity|]). contradiction. }
        rewrite Em. reflexivity. }
      rewrite (exec_seq _ _ _ _ _ E1). clear E1.
      set (s2 := define "magnitude_mask" _ _). pose proof (magnitude_mask_half w Hw) as Hmm.
      assert (Rm : 0 <= magnitude_mask w < space 8).
      { pose proof (half_ge w ltac:(lia)). pose proof (half_mono w 8 ltac:(lia)). pose proof (space_half 8 ltac:(lia)). lia. }
      cbn [exec].
      rewrite (eval_cond s2 _ _ _ T) by (auto; reflexivity).
      rewrite (eval_and_ull s2 "value" "sign_mask" v (sign_mask w)) by (auto; reflexivity). cbn [bind].
      destruct (c_and v (sign_mask w) =? 0); cbn [negb].
      + change (eval p sz s2 (Cast (Param T) (Var "value"))) with (x <- eval p sz s2 (Var "value");; Ok (conv T x)).
        rewrite (eval_var_ull s2 "value" v) by (auto; reflexivity). cbn [bind]. rewrite conv_idem by auto.
        eexists. split; [reflexivity|]. split; [reflexivity|]. first [reflexivity|apply conv_idem; auto].
      + rewrite neg_cast by auto. rewrite (eval_and_ull s2 "value" "magnitude_mask" v (magnitude_mask w)) by (auto; reflexivity).
        cbn [bind]. destruct (c_neg (promote p T) (conv T (c_and v (magnitude_mask w)))) as [r|f]; [|reflexivity]. cbn [bind].
        rewrite conv_idem by auto. eexists. split; [reflexivity|]. split; [reflexivity|]. first [reflexivity|apply conv_idem; auto].
    - rewrite (exec_seq _ _ _ _ _ (exec_mask fuel _ "sign_mask" w true Hw)). set (s1 := define "sign_mask" _ _).
      cbn [exec]. rewrite (eval_cond s1 _ _ _ T) by (auto; reflexivity).
      rewrite (eval_and_ull s1 "value" "sign_mask" v (sign_mask w)) by (auto; reflexivity). cbn [bind].
      destruct (c_and v (sign_mask w) =? 0); cbn [negb].
      + change (eval p sz s1 (Cast (Param T) (Var "value"))) with (x <- eval p sz s1 (Var "value");; Ok (conv T x)).
        rewrite (eval_var_ull s1 "value" v) by (auto; reflexivity). cbn [bind]. rewrite conv_idem by auto.
        eexists. split; [reflexivity|]. split; [reflexivity|]. first [reflexivity|apply conv_idem; auto].
      + rewrite neg_cast by auto. rewrite (eval_not_ull s1 "value" v) by (auto; reflexivity).
        cbn [bind]. destruct (c_neg (promote p T) (conv T (c_not ull v))) as [r|f]; [|reflexivity]. cbn [bind].
        rewrite conv_idem by auto. eexists. split; [reflexivity|]. split; [reflexivity|]. first [reflexivity|apply conv_idem; auto].
    - rewrite (exec_seq _ _ _ _ _ (exec_mask fuel _ "sign_mask" w true Hw)). set (s1 := define "sign_mask" _ _).
      cbn [exec]. rewrite (eval_cond s1 _ _ _ T) by (auto; reflexivity).
      rewrite (eval_and_ull s1 "value" "sign_mask" v (sign_mask w)) by (auto; reflexivity). cbn [bind].
      destruct (c_and v (sign_mask w) =? 0); cbn [negb].
      + change (eval p sz s1 (Cast (Param T) (Var "value"))) with (x <- eval p sz s1 (Var "value");; Ok (conv T x)).
        rewrite (eval_var_ull s1 "value" v) by (auto; reflexivity). cbn [bind]. rewrite conv_idem by auto.
        eexists. split; [reflexivity|]. split; [reflexivity|]. first [reflexivity|apply conv_idem; auto].
      + rewrite neg_cast by auto.
        rewrite (eval_bin s1 Add _ _ ull (named p sz Int));
          [|transitivity (Some (promote p ull)); [reflexivity|rewrite promote_ull; reflexivity]|reflexivity].
        rewrite (eval_not_ull s1 "value" v) by (auto; reflexivity). cbn [bind]. rewrite eval_int by lia. cbn [bind apply_bin].
        rewrite common_int, promote_ull by auto. unfold c_not. rewrite conv_idem by auto. rewrite (ull_range 1) by (split; [lia|reflexivity]).
        unfold c_add. destruct (arith ull (conv ull (Z.lnot v) + 1)) as [x|f]; [|reflexivity]. cbn [bind].
        destruct (c_neg (promote p T) (conv T x)) as [r|f]; [|reflexivity]. cbn [bind].
        rewrite conv_idem by auto. eexists. split; [reflexivity|]. split; [reflexivity|]. first [reflexivity|apply conv_idem; auto].
    - rewrite (exec_seq _ _ _ _ _ (exec_mask fuel _ "offset" w true Hw)). set (s1 := define "offset" _ _).
      cbn [exec].
      change (eval p sz s1 (Cast (Param T) (Bin Sub (Var "value") (Var "offset")))) with
        (x <- eval p sz s1 (Bin Sub (Var "value") (Var "offset"));; Ok (conv T x)).
      rewrite (eval_bin s1 Sub _ _ ull ull) by reflexivity.
      rewrite (eval_var_ull s1 "value" v), (eval_var_ull s1 "offset" (sign_mask w)) by (auto; reflexivity). cbn [bind apply_bin].
      rewrite common_ull, !ull_range by auto. unfold c_sub. destruct (arith ull (v - sign_mask w)) as [x|f]; [|reflexivity]. cbn [bind].
      eexists. split; [reflexivity|]. split; [reflexivity|]. first [reflexivity|apply conv_idem; auto].
  Qed.

  Lemma obj_value_int : forall w sg bs, (1 <= w <= 8)%nat -> exists r, obj_value p (CInt w sg) bs = Ok r /\ conv (CInt w sg) r = r.
  Proof. intros w sg bs Hw. unfold obj_value. eexists. split; [reflexivity|]. apply conv_idem. exact Hw. Qed.

  Lemma indet_length : forall n, List.length (indet_bytes p n) = n.
  Proof. intros n. unfold indet_bytes. rewrite map_length, seq_length. reflexivity. Qed.

  (** Lines 36-45. *)
  Lemma from_signed_ok : forall w m v mem fuel, (1 <= w <= 8)%nat -> 0 <= v < space 8 ->
    match from_signed_mode p w m v with
    | Ok r => exists s, exec p sz fuel (from_signed_mode_src p (CInt w true) m) (value_start v mem) = Ok (Returned s r) /\ bytes s = mem
                        /\ conv (CInt w true) r = r
    | Fault f => exec p sz fuel (from_signed_mode_src p (CInt w true) m) (value_start v mem) = Fault f
    end.
  Proof.
    intros w m v mem fuel Hw Hv. assert (VU : valid ull) by (cbn; lia).
    unfold from_signed_mode, from_signed_mode_src. destruct (native_signed_mode p m).
    - set (T := CInt w true).
      assert (E : exec p sz fuel (Declare (Param T) "retval";;; Copy "retval" "value" (SizeofVar "retval");;; Return (Var "retval"))
                    (value_start v mem)
        = (k <- Ok (conv size (Z.of_nat w));;
           src <- first_bytes (Z.to_nat k) (obj_bytes p ull (conv ull v));;
           bs <- put_bytes (indet_bytes p w) src;;
           x <- obj_value p T bs;;
           Ok (Returned (mk_state [("retval", (T, bs)); ("value", object p ull v)] [] mem) x))).
      { cbn [exec bind].
        change (define "retval" (named p sz (Param T), indet_bytes p (csizeof (named p sz (Param T)))) (value_start v mem))
          with (mk_state [("retval", (T, indet_bytes p w)); ("value", object p ull v)] [] mem).
        set (s := mk_state _ _ _).
        change (lookup "retval" (locals s)) with (Some (T, indet_bytes p w)).
        change (lookup "value" (locals s)) with (Some (object p ull v)).
        change (eval p sz s (SizeofVar "retval")) with (Ok (conv size (Z.of_nat w))).
        cbn [need bind object].
        destruct (first_bytes _ _) as [src|]; [|reflexivity]. cbn [bind].
        destruct (put_bytes _ _) as [bs|]; reflexivity. }
      rewrite E. clear E. rewrite sizeof_range by lia. cbn [bind]. rewrite Nat2Z.id, (ull_range v) by auto.
      unfold first_bytes. rewrite obj_bytes_length. cbn [csizeof ull].
      destruct (Nat.ltb_spec 8 w); [lia|]. cbn [bind]. unfold put_bytes. rewrite indet_length, firstn_length, obj_bytes_length. cbn [csizeof ull].
      destruct (Nat.ltb_spec w (Nat.min w 8)); [lia|]. cbn [bind].
      assert (Eo : overwrite (indet_bytes p w) (firstn w (obj_bytes p ull v)) = firstn w (obj_bytes p ull v)).
      { unfold overwrite. rewrite firstn_length, obj_bytes_length. cbn [csizeof ull]. rewrite Nat.min_l by lia.
        rewrite skipn_all2 by (rewrite indet_length; lia). apply app_nil_r. }
      rewrite Eo. destruct (obj_value_int w true (firstn w (obj_bytes p ull v)) Hw) as (r & Er & Rr). fold T in Er. rewrite Er. cbn [bind].
      eexists. split; [reflexivity|]. split; [reflexivity|exact Rr].
    - pose proof (from_signed_impl w m v mem fuel Hw Hv) as G.
      assert (C : exec p sz fuel (ReturnCall (Param (CInt w true)) value_params (from_signed_mode_impl_src (CInt w true) m) [Value (Var "value")]) (value_start v mem)
        = (r <- exec p sz fuel (from_signed_mode_impl_src (CInt w true) m) (value_start v mem);;
           match r with
           | Returned s1 x => Ok (Returned (mk_state [("value", object p ull v)] [] (bytes s1)) (conv (CInt w true) x))
           | Next _ => Fault TypeMismatch
           end)).
      { cbn [exec]. cbn [bind_params value_params].
        rewrite (eval_var_ull (value_start v mem) "value" v) by (auto; reflexivity). reflexivity. }
      rewrite C. clear C. destruct (from_signed_mode_impl p w m v) as [r|f].
      + destruct G as (s & G1 & G2 & G3). rewrite G1. cbn [bind].
        eexists. split; [rewrite G3; reflexivity|]. split; [exact G2|exact G3].
      + rewrite G. reflexivity.
  Qed.

  Definition signed_start (w : nat) (z : Z) (mem : list Z) : state := mk_state [("value", object p (CInt w true) z)] [] mem.

  (** [value >= 0] *)
  Lemma eval_ge : forall s w z, (1 <= w <= 8)%nat -> lookup "value" (locals s) = Some (object p (CInt w true) z) -> conv (CInt w true) z = z ->
    eval p sz s (Bin Ge (Var "value") (int 0)) = Ok (if 0 <=? z then 1 else 0).
  Proof.
    intros s w z Hw Ex Hz. assert (VT : valid (CInt w true)) by exact Hw.
    rewrite (eval_bin s Ge _ _ (CInt w true) (named p sz Int)); [|cbn [type_of]; rewrite Ex; reflexivity|reflexivity].
    rewrite (eval_var s "value" _ z Ex VT), eval_int by lia. cbn [bind apply_bin]. rewrite common_int by auto.
    rewrite conv_promote, Hz by auto.
    rewrite (conv_nonneg _ 0); [reflexivity|apply valid_promote; auto|]. pose proof (tmax_promote _ VT). cbn [tmax] in *.
    pose proof (half_ge w ltac:(lia)). lia.
  Qed.

  (** [-value] *)
  Lemma eval_neg : forall s w z, (1 <= w <= 8)%nat -> lookup "value" (locals s) = Some (object p (CInt w true) z) -> conv (CInt w true) z = z ->
    eval p sz s (Un Neg (Var "value")) = c_neg (promote p (CInt w true)) z.
  Proof.
    intros s w z Hw Ex Hz. assert (VT : valid (CInt w true)) by exact Hw.
    change (eval p sz s (Un Neg (Var "value"))) with
      (t <- need (option_map fst (lookup "value" (locals s)));; v <- eval p sz s (Var "value");; apply_un p Neg t v).
    rewrite (eval_var s "value" _ z Ex VT), Ex. cbn [option_map object fst need bind apply_un]. rewrite conv_promote, Hz by auto. reflexivity.
  Qed.

  Lemma cast_ull : forall s e, eval p sz s (Cast UnsignedLongLong e) = (v <- eval p sz s e;; Ok (conv ull v)).
  Proof. reflexivity. Qed.

  Lemma neg_fits : forall t a r, valid t -> t <> CBool -> c_neg t a = Ok r -> conv t r = r.
  Proof.
    intros [|w [|]] a r Ht N H; [congruence| |]; unfold c_neg in H; cbn [arith valid] in *.
    - rewrite <- half_pow2 in H by lia. destruct (Z.leb_spec (- half w) (- a)), (Z.ltb_spec (- a) (half w)); try discriminate.
      injection H as <-. apply conv_signed_range; lia.
    - injection H as <-. rewrite <- space_pow2. rewrite conv_unsigned. apply Z.mod_mod. pose proof (space_pos w). lia.
  Qed.

  Lemma sub_fits : forall t a b r, valid t -> t <> CBool -> c_sub t a b = Ok r -> conv t r = r.
  Proof.
    intros t a b r Ht N H. apply (neg_fits t (b - a) r); auto. unfold c_neg. replace (- (b - a)) with (a - b) by lia. exact H.
  Qed.

  (** Lines 48-65. *)
  Lemma to_signed_impl : forall w m z mem fuel, (1 <= w <= 8)%nat -> conv (CInt w true) z = z ->
    match to_signed_mode_impl p w m z with
    | Ok r => exists s, exec p sz fuel (to_signed_mode_impl_src (CInt w true) m) (signed_start w z mem) = Ok (Returned s r) /\ bytes s = mem
                        /\ 0 <= r < space 8
    | Fault f => exec p sz fuel (to_signed_mode_impl_src (CInt w true) m) (signed_start w z mem) = Fault f
    end.
  Proof.
    intros w m z mem fuel Hw Hz. set (T := CInt w true). assert (VT : valid T) by exact Hw. fold T in Hz.
    pose proof (sign_mask_range w) as Hm. assert (VU : valid ull) by (cbn; lia).
    assert (VP : valid (promote p T)) by (apply valid_promote; auto).
    assert (NP : promote p T <> CBool) by (destruct (promote_CInt T) as (w' & s' & ->); discriminate).
    unfold to_signed_mode_impl, to_signed_mode_impl_src. fold T.
    destruct m.
    - rewrite (exec_seq _ _ _ _ _ (exec_mask fuel _ "sign_mask" w true Hw)). set (s1 := define "sign_mask" _ _).
      cbn [exec]. rewrite (eval_cond s1 _ _ _ ull); auto.
      2:{ transitivity (Some (common p ull ull)); [reflexivity|rewrite common_ull; reflexivity]. }
      rewrite (eval_ge s1 w z) by (auto; reflexivity). cbn [bind].
      destruct (0 <=? z); cbn [Z.eqb].
      + rewrite cast_ull, (eval_var s1 "value" T z eq_refl VT), Hz. cbn [bind]. rewrite conv_idem by auto.
        eexists. split; [reflexivity|]. split; [reflexivity|]. apply conv_ull_range.
      + rewrite (eval_bin s1 BitOr _ _ ull ull) by reflexivity. rewrite cast_ull, (eval_neg s1 w z) by (auto; reflexivity). fold T.
        destruct (c_neg (promote p T) z) as [n|f]; [|reflexivity]. cbn [bind].
        rewrite (eval_var_ull s1 "sign_mask" (sign_mask w)) by (auto; reflexivity). cbn [bind apply_bin]. rewrite common_ull.
        rewrite ull_bits by auto. rewrite (conv_idem ull n), (ull_range (sign_mask w)) by auto.
        pose proof (ull_bits Z.lor n (sign_mask w) ltac:(auto)) as B. rewrite (ull_range (sign_mask w)) in B by auto. unfold c_or.
        rewrite B. eexists. split; [reflexivity|]. split; [reflexivity|]. rewrite <- B. apply conv_ull_range.
    - set (s1 := signed_start w z mem).
      cbn [exec]. rewrite (eval_cond s1 _ _ _ ull); auto.
      2:{ transitivity (Some (promote p ull)); [reflexivity|rewrite promote_ull; reflexivity]. }
      rewrite (eval_ge s1 w z) by (auto; reflexivity). cbn [bind].
      destruct (0 <=? z); cbn [Z.eqb].
      + rewrite cast_ull, (eval_var s1 "value" T z eq_refl VT), Hz. cbn [bind]. rewrite conv_idem by auto.
        eexists. split; [reflexivity|]. split; [reflexivity|]. apply conv_ull_range.
      + assert (En : eval p sz s1 (Un BitNot (Cast UnsignedLongLong (Un Neg (Var "value"))))
          = (n <- c_neg (promote p T) z;; Ok (c_not ull (conv ull n)))).
        { transitivity (v <- eval p sz s1 (Cast UnsignedLongLong (Un Neg (Var "value")));; apply_un p BitNot ull v); [reflexivity|].
          rewrite cast_ull, (eval_neg s1 w z) by (auto; reflexivity). fold T. destruct (c_neg (promote p T) z) as [n|f]; [|reflexivity].
          cbn [bind apply_un]. rewrite promote_ull, conv_idem by auto. reflexivity. }
        rewrite En. destruct (c_neg (promote p T) z) as [n|f]; [|reflexivity]. cbn [bind]. unfold c_not. rewrite conv_idem by auto.
        eexists. split; [reflexivity|]. split; [reflexivity|]. apply conv_ull_range.
    - set (s1 := signed_start w z mem).
      cbn [exec]. rewrite (eval_cond s1 _ _ _ ull) by (auto; reflexivity).
      rewrite (eval_ge s1 w z) by (auto; reflexivity). cbn [bind].
      destruct (0 <=? z); cbn [Z.eqb].
      + rewrite cast_ull, (eval_var s1 "value" T z eq_refl VT), Hz. cbn [bind]. rewrite conv_idem by auto.
        eexists. split; [reflexivity|]. split; [reflexivity|]. apply conv_ull_range.
      + assert (En : eval p sz s1 (Bin Sub (Un Neg (Var "value")) (int 1))
          = (n <- c_neg (promote p T) z;; c_sub (promote p T) n 1)).
        { rewrite (eval_bin s1 Sub _ _ (promote p T) (named p sz Int)) by reflexivity.
          rewrite (eval_neg s1 w z) by (auto; reflexivity). fold T.
          destruct (c_neg (promote p T) z) as [n|f] eqn:Ec; [|reflexivity]. cbn [bind]. rewrite eval_int by lia. cbn [bind apply_bin].
          rewrite common_int, promote_idem by auto. rewrite (neg_fits _ _ _ VP NP Ec).
          rewrite (conv_nonneg _ 1) by (auto; pose proof (tmax_promote _ VT); assert (tmax T = half w - 1) by reflexivity; pose proof (half_ge w ltac:(lia)); lia).
          reflexivity. }
        assert (Et : type_of p sz (locals s1) (Bin Sub (Un Neg (Var "value")) (int 1)) = Some (promote p T)).
        { transitivity (Some (common p (promote p T) (named p sz Int))); [reflexivity|]. rewrite common_int, promote_idem by auto. reflexivity. }
        rewrite cast_ull. cbn [eval] in En |- *. rewrite Et. cbn [need bind].
        cbn [eval] in En. rewrite En.
        destruct (c_neg (promote p T) z) as [n|f]; [|reflexivity]. cbn [bind].
        destruct (c_sub (promote p T) n 1) as [d|f] eqn:Ed; [|reflexivity]. cbn [bind apply_un]. rewrite promote_idem.
        rewrite (sub_fits _ _ _ _ VP NP Ed). rewrite conv_idem by auto. unfold c_not.
        eexists. split; [reflexivity|]. split; [reflexivity|]. apply conv_ull_range.
    - rewrite (exec_seq _ _ _ _ _ (exec_mask fuel _ "offset" w true Hw)). set (s1 := define "offset" _ _).
      cbn [exec]. rewrite cast_ull. rewrite (eval_bin s1 Add _ _ T ull) by reflexivity.
      rewrite (eval_var s1 "value" T z eq_refl VT), (eval_var_ull s1 "offset" (sign_mask w)) by (auto; reflexivity). cbn [bind apply_bin].
      rewrite common_wide, Hz, (ull_range (sign_mask w)) by auto. unfold c_add. cbn [arith ull bind].
      rewrite <- space_pow2. rewrite ull_range by (apply Z.mod_pos_bound; reflexivity).
      eexists. split; [reflexivity|]. split; [reflexivity|]. apply Z.mod_pos_bound. reflexivity.
  Qed.

  (** Lines 68-78. *)
  Lemma to_signed_ok : forall w m z mem fuel, (1 <= w <= 8)%nat -> conv (CInt w true) z = z ->
    match to_signed_mode p w m z with
    | Ok r => exists s, exec p sz fuel (to_signed_mode_src p (CInt w true) m) (signed_start w z mem) = Ok (Returned s r) /\ bytes s = mem
                        /\ 0 <= r < space 8
    | Fault f => exec p sz fuel (to_signed_mode_src p (CInt w true) m) (signed_start w z mem) = Fault f
    end.
  Proof.
    intros w m z mem fuel Hw Hz. assert (VT : valid (CInt w true)) by exact Hw.
    unfold to_signed_mode, to_signed_mode_src. destruct (native_signed_mode p m).
    - set (T := CInt w true) in *.
      assert (E : exec p sz fuel (Declare UnsignedLongLong "retval";;; Copy "retval" "value" (SizeofVar "value");;; Return (Var "retval"))
                    (signed_start w z mem)
        = (k <- Ok (conv size (Z.of_nat w));;
           src <- first_bytes (Z.to_nat k) (obj_bytes p T (conv T z));;
           bs <- put_bytes (indet_bytes p 8) src;;
           x <- obj_value p ull bs;;
           Ok (Returned (mk_state [("retval", (ull, bs)); ("value", object p T z)] [] mem) x))).
      { cbn [exec bind].
        change (define "retval" (named p sz UnsignedLongLong, indet_bytes p (csizeof (named p sz UnsignedLongLong))) (signed_start w z mem))
          with (mk_state [("retval", (ull, indet_bytes p 8)); ("value", object p T z)] [] mem).
        set (s := mk_state _ _ _).
        change (lookup "retval" (locals s)) with (Some (ull, indet_bytes p 8)).
        change (lookup "value" (locals s)) with (Some (object p T z)).
        change (eval p sz s (SizeofVar "value")) with (Ok (conv size (Z.of_nat w))).
        cbn [need bind object].
        destruct (first_bytes _ _) as [src|]; [|reflexivity]. cbn [bind].
        destruct (put_bytes _ _) as [bs|]; reflexivity. }
      rewrite E. clear E. rewrite sizeof_range by lia. cbn [bind]. rewrite Nat2Z.id, Hz.
      unfold first_bytes. rewrite obj_bytes_length. change (csizeof T) with w.
      destruct (Nat.ltb_spec w w); [lia|]. cbn [bind]. rewrite firstn_all2 by (rewrite obj_bytes_length; reflexivity).
      unfold put_bytes. rewrite indet_length, obj_bytes_length. change (csizeof T) with w.
      destruct (Nat.ltb_spec 8 w); [lia|]. cbn [bind].
      set (bs := overwrite _ _). unfold obj_value. cbn [ull bind]. fold ull. set (u := match p_endianess p with LITTLE => _ | BIG => _ end).
      eexists. split; [reflexivity|]. split; [reflexivity|]. apply conv_ull_range.
    - pose proof (to_signed_impl w m z mem fuel Hw Hz) as G.
      assert (C : exec p sz fuel (ReturnCall UnsignedLongLong (signed_params (CInt w true)) (to_signed_mode_impl_src (CInt w true) m) [Value (Var "value")]) (signed_start w z mem)
        = (r <- exec p sz fuel (to_signed_mode_impl_src (CInt w true) m) (signed_start w z mem);;
           match r with
           | Returned s1 x => Ok (Returned (mk_state [("value", object p (CInt w true) z)] [] (bytes s1)) (conv ull x))
           | Next _ => Fault TypeMismatch
           end)).
      { cbn [exec]. cbn [bind_params signed_params].
        rewrite (eval_var (signed_start w z mem) "value" (CInt w true) z eq_refl VT), Hz. reflexivity. }
      rewrite C. clear C. destruct (to_signed_mode_impl p w m z) as [r|f].
      + destruct G as (s & G1 & G2 & G3). rewrite G1. cbn [bind]. rewrite ull_range by auto.
        eexists. split; [reflexivity|]. split; [exact G2|exact G3].
      + rewrite G. reflexivity.
  Qed.

  (** *** serialization.hpp *)

  Lemma width_max : forall n, (n <= 8)%nat -> Z.of_nat n <= tmax size.
  Proof. intros n H. pose proof (tmax_ge sz false ltac:(lia)). change (Z.of_nat n <= tmax (CInt sz false)).
    generalize dependent (tmax (CInt sz false)). intros. lia. Qed.

  Lemma csizeof_le : forall T, valid T -> (1 <= csizeof T <= 8)%nat.
  Proof. intros [|w s]; cbn; lia. Qed.

  (** Lines 59-62. *)
  Lemma read_unsigned_ok : forall T e mem off fuel, is_uns T -> (8 <= fuel)%nat ->
    run_read p sz fuel (read_unsigned_src p T e) mem off = from_endianess p T e mem off (csizeof T).
  Proof.
    intros T e mem off fuel HT Hf. pose proof (valid_uns T HT) as VT. pose proof (csizeof_le T VT) as Hc.
    unfold run_read, read_unsigned_src. set (s0 := mk_state _ _ _).
    assert (C : exec p sz fuel (ReturnCall (Param T) from_params (from_endianess_src p T e) [Pointer "sequence"; Value (SizeofType (Param T))]) s0
      = (r <- exec p sz fuel (from_endianess_src p T e) (from_start mem off (csizeof T));;
         match r with
         | Returned s1 v => Ok (Returned (mk_state (locals s0) (pointers s0) (bytes s1)) (conv T v))
         | Next _ => Fault TypeMismatch
         end)).
    { transitivity (r <- exec p sz fuel (from_endianess_src p T e)
          (mk_state [("n", object p size (conv size (Z.of_nat (csizeof T))))] [("raw_data", off)] mem);;
         match r with
         | Returned s1 v => Ok (Returned (mk_state (locals s0) (pointers s0) (bytes s1)) (conv T v))
         | Next _ => Fault TypeMismatch
         end); [reflexivity|]. rewrite object_conv by apply valid_size. reflexivity. }
    rewrite C. clear C. pose proof (from_endianess_ok T e mem off (csizeof T) fuel HT (width_max (csizeof T) ltac:(lia)) ltac:(lia)) as G.
    destruct (from_endianess p T e mem off (csizeof T)) as [v|f].
    - destruct G as (s & -> & _ & G). cbn [bind]. rewrite conv_nonneg by auto. reflexivity.
    - rewrite G. reflexivity.
  Qed.

  (** Lines 63-68. *)
  Lemma read_signed_ok : forall w e m mem off fuel, (1 <= w <= 8)%nat -> (8 <= fuel)%nat ->
    run_read p sz fuel (read_signed_src p (CInt w true) e m) mem off
    = (tmp <- from_endianess p ull e mem off w;; from_signed_mode p w m tmp).
  Proof.
    intros w e m mem off fuel Hw Hf. assert (VU : is_uns ull) by (cbn; lia). set (T := CInt w true).
    assert (VT : valid T) by exact Hw.
    unfold run_read, read_signed_src. set (s0 := mk_state _ _ _).
    set (first := Call _ _ _ _ _). set (second := ReturnCall _ _ _ _).
    assert (C : exec p sz fuel first s0
      = (r <- exec p sz fuel (from_endianess_src p ull e) (from_start mem off w);;
         match r with
         | Returned s1 v => Ok (Next (define "tmp" (object p ull v) (mk_state [] [("sequence", off)] (bytes s1))))
         | Next _ => Fault TypeMismatch
         end)).
    { transitivity (r <- exec p sz fuel (from_endianess_src p ull e)
          (mk_state [("n", object p size (conv size (Z.of_nat w)))] [("raw_data", off)] mem);;
         match r with
         | Returned s1 v => Ok (Next (define "tmp" (object p ull v) (mk_state [] [("sequence", off)] (bytes s1))))
         | Next _ => Fault TypeMismatch
         end); [reflexivity|]. rewrite object_conv by apply valid_size. reflexivity. }
    change (exec p sz fuel (first;;; second) s0) with
      (r <- exec p sz fuel first s0;; match r with Next s' => exec p sz fuel second s' | Returned _ _ => Ok r end).
    rewrite C. clear C. pose proof (from_endianess_ok ull e mem off w fuel VU (width_max w ltac:(lia)) ltac:(lia)) as G.
    destruct (from_endianess p ull e mem off w) as [v|f]; [|rewrite G; reflexivity].
    destruct G as (s & -> & Hs & G). cbn [bind]. rewrite Hs.
    assert (Hv : 0 <= v < space 8) by (cbn [tmax ull] in G; lia).
    assert (C : exec p sz fuel second (define "tmp" (object p ull v) (mk_state [] [("sequence", off)] mem))
      = (r <- exec p sz fuel (from_signed_mode_src p T m) (value_start v mem);;
         match r with
         | Returned s1 x => Ok (Returned (mk_state [("tmp", object p ull v)] [("sequence", off)] (bytes s1)) (conv T x))
         | Next _ => Fault TypeMismatch
         end)).
    { unfold second. cbn [exec bind_params value_params].
      rewrite (eval_var_ull _ "tmp" v) by (auto; reflexivity). reflexivity. }
    rewrite C. clear C. pose proof (from_signed_ok w m v mem fuel Hw Hv) as K. fold T in K.
    destruct (from_signed_mode p w m v) as [r|f]; [|rewrite K; reflexivity].
    destruct K as (s' & -> & _ & K). cbn [bind]. rewrite K. reflexivity.
  Qed.

  (** Lines 127-130. *)
  Lemma write_unsigned_ok : forall T e z mem off fuel, is_uns T -> (8 <= fuel)%nat -> 0 <= z <= tmax T ->
    run_write p sz fuel (write_unsigned_src p T e) T z mem off = to_endianess p T e mem off z (csizeof T).
  Proof.
    intros T e z mem off fuel HT Hf Hz. pose proof (valid_uns T HT) as VT. pose proof (csizeof_le T VT) as Hc.
    unfold run_write, write_unsigned_src. set (s0 := mk_state _ _ _).
    assert (C : exec p sz fuel (Call None None (to_params T) (to_endianess_src p T e) [Pointer "sequence"; Value (Var "x"); Value (SizeofVar "x")]) s0
      = (r <- exec p sz fuel (to_endianess_src p T e) (to_start T z mem off (csizeof T));;
         match r with
         | Next s1 => Ok (Next (mk_state (locals s0) (pointers s0) (bytes s1)))
         | Returned _ _ => Fault TypeMismatch
         end)).
    { cbn [exec bind_params to_params]. rewrite (eval_var s0 "x" T z eq_refl VT), (conv_nonneg T z) by auto.
      transitivity (r <- exec p sz fuel (to_endianess_src p T e)
          (mk_state [("n", object p size (conv size (Z.of_nat (csizeof T)))); ("x", object p T z)] [("raw_data", off)] mem);;
         match r with
         | Next s1 => Ok (Next (mk_state (locals s0) (pointers s0) (bytes s1)))
         | Returned _ _ => Fault TypeMismatch
         end); [reflexivity|]. rewrite object_conv by apply valid_size. reflexivity. }
    rewrite C. clear C.
    pose proof (to_endianess_ok T e mem off (csizeof T) z fuel HT (width_max (csizeof T) ltac:(lia)) ltac:(lia) Hz) as G.
    destruct (to_endianess p T e mem off z (csizeof T)) as [v|f].
    - destruct G as (s & -> & G). cbn [bind bytes]. rewrite G. reflexivity.
    - rewrite G. reflexivity.
  Qed.

  (** Lines 131-136. *)
  Lemma write_signed_ok : forall w e m z mem off fuel, (1 <= w <= 8)%nat -> (8 <= fuel)%nat -> conv (CInt w true) z = z ->
    run_write p sz fuel (write_signed_src p (CInt w true) e m) (CInt w true) z mem off
    = (tmp <- to_signed_mode p w m z;; to_endianess p ull e mem off tmp w).
  Proof.
    intros w e m z mem off fuel Hw Hf Hz. assert (VU : is_uns ull) by (cbn; lia). set (T := CInt w true) in *.
    assert (VT : valid T) by exact Hw.
    unfold run_write, write_signed_src. set (s0 := mk_state _ _ _).
    set (first := Call (Some _) _ _ _ _). set (second := Call None _ _ _ _).
    change (exec p sz fuel (first;;; second) s0) with
      (r <- exec p sz fuel first s0;; match r with Next s' => exec p sz fuel second s' | Returned _ _ => Ok r end).
    assert (C : exec p sz fuel first s0
      = (r <- exec p sz fuel (to_signed_mode_src p T m) (signed_start w z mem);;
         match r with
         | Returned s1 v => Ok (Next (define "tmp" (object p ull v) (mk_state (locals s0) [("sequence", off)] (bytes s1))))
         | Next _ => Fault TypeMismatch
         end)).
    { unfold first. cbn [exec bind_params signed_params]. rewrite (eval_var s0 "x" T z eq_refl VT), Hz. reflexivity. }
    rewrite C. clear C. pose proof (to_signed_ok w m z mem fuel Hw Hz) as K. fold T in K.
    destruct (to_signed_mode p w m z) as [r|f]; [|rewrite K; reflexivity].
    destruct K as (s' & -> & Hs & K). cbn [bind]. rewrite Hs.
    set (s1 := define _ _ _).
    assert (C : exec p sz fuel second s1
      = (r <- exec p sz fuel (to_endianess_src p ull e) (to_start ull r mem off w);;
         match r with
         | Next s2 => Ok (Next (mk_state (locals s1) (pointers s1) (bytes s2)))
         | Returned _ _ => Fault TypeMismatch
         end)).
    { unfold second. cbn [exec bind_params to_params].
      rewrite (eval_var_ull s1 "tmp" r) by (auto; reflexivity).
      transitivity (x <- exec p sz fuel (to_endianess_src p ull e)
          (mk_state [("n", object p size (conv size (Z.of_nat w))); ("x", object p ull r)] [("raw_data", off)] mem);;
         match x with
         | Next s2 => Ok (Next (mk_state (locals s1) (pointers s1) (bytes s2)))
         | Returned _ _ => Fault TypeMismatch
         end); [reflexivity|]. rewrite object_conv by apply valid_size. reflexivity. }
    rewrite C. clear C.
    assert (Hr : 0 <= r <= tmax ull) by (cbn [tmax ull]; lia).
    pose proof (to_endianess_ok ull e mem off w r fuel VU (width_max w ltac:(lia)) ltac:(lia) Hr) as G.
    destruct (to_endianess p ull e mem off r w) as [v|f].
    - destruct G as (s & -> & G). cbn [bind bytes]. rewrite G. reflexivity.
    - rewrite G. reflexivity.
  Qed.
End Host.
