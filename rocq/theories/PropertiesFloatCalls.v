(** C105: callbacks whose parameters and results contain floating point values. *)

From Coq Require Import List ZArith Bool Arith Lia SpecFloat.
From Verif Require Import Base CInt IntModel TypeLevel Serial TupleModel Rpc FloatModel FloatCalls.
From Verif Require Import Spec SpecRpc Conditions IntProofs SignedProofs SerialProofs CodecFacts TypeLevelProofs TupleProofs RpcProofs
  MemFacts Hosts PropertiesRpc PropertiesFloat.
Import ListNotations.
Open Scope nat_scope.

Section EtyInd.
  Variable P : ety -> Prop.
  Hypothesis Hint : forall t, P (EInt t).
  Hypothesis Hfloat : forall T, P (EFloat T).
  Hypothesis Harr : forall t n, P t -> P (EArr t n).
  Hypothesis Huser : forall s fs, Forall P fs -> P (EUser s fs).
  Fixpoint ety_ind_nested (t : ety) : P t :=
    match t with
    | EInt t => Hint t
    | EFloat T => Hfloat T
    | EArr t n => Harr t n (ety_ind_nested t)
    | EUser s fs =>
        Huser s fs ((fix go (l : list ety) : Forall P l :=
                       match l with
                       | [] => Forall_nil _
                       | f :: l' => Forall_cons _ (ety_ind_nested f) (go l')
                       end) fs)
    end.
End EtyInd.

(** ** Floating point types seen as signed integers of the same size *)

Fixpoint lower (t : ety) : ty :=
  match t with
  | EInt t => t
  | EFloat T => TSig (fl_size T)
  | EArr t n => TArr (lower t) n
  | EUser s fs => TUser s (map lower fs)
  end.

(** The signed integer having the bits of a floating point value. *)
Definition float_int (T : float_type) (f : spec_float) : Z := conv (CInt (fl_size T) true) (float_bits T f).
Definition int_float (T : float_type) (z : Z) : spec_float := bits_float T (z mod space (fl_size T)).

(** A value which is not of type [t]. *)
Definition wrong (t : ty) : val :=
  match t with
  | TBool | TUns _ | TSig _ => VList []
  | _ => VInt 0
  end.

Section Pairwise.
  Context {A B C : Type}.
  Variable F : A -> B -> C.
  Fixpoint pairwise (l : list A) (l' : list B) : list C :=
    match l, l' with
    | a :: l1, b :: l2 => F a b :: pairwise l1 l2
    | _, _ => []
    end.
End Pairwise.

Fixpoint lower_val (t : ety) (v : evalue) {struct t} : val :=
  match t, v with
  | EInt t, EVal v => v
  | EInt t, _ => wrong t
  | EFloat T, EFlt f => VInt (float_int T f)
  | EFloat T, _ => VList []
  | EArr t' n, EList vs => VList (map (lower_val t') vs)
  | EArr _ _, _ => VInt 0
  | EUser _ fs, EList vs => VList (pairwise lower_val fs vs)
  | EUser _ _, _ => VInt 0
  end.

Fixpoint raise (t : ety) (v : val) {struct t} : evalue :=
  match t, v with
  | EInt _, v => EVal v
  | EFloat T, VInt z => EFlt (int_float T z)
  | EArr t' n, VList vs => EList (map (raise t') vs)
  | EUser _ fs, VList vs => EList (pairwise raise fs vs)
  | _, _ => EList []
  end.

(** Every floating point type fits in an [unsigned long long]. *)
Fixpoint small_floats (t : ety) : Prop :=
  match t with
  | EInt _ => True
  | EFloat T => 1 <= fl_size T <= 8
  | EArr t _ => small_floats t
  | EUser _ fs => fold_right (fun f acc => small_floats f /\ acc) True fs
  end.

Lemma small_floats_user : forall s fs, small_floats (EUser s fs) <-> Forall small_floats fs.
Proof.
  intros s fs. cbn [small_floats]. induction fs as [|f fs IH]; cbn [fold_right].
  - split; auto.
  - rewrite IH. split; [intros [H1 H2]; constructor; auto|intros H; inversion H; auto].
Qed.

Lemma esizeof_lower : forall t, esizeof t = sizeof (lower t).
Proof. induction t using ety_ind_nested; cbn [esizeof lower sizeof]; auto. rewrite IHt. reflexivity. Qed.

Lemma eserialization_size_lower : forall t, eserialization_size t = serialization_size (lower t).
Proof.
  induction t using ety_ind_nested; cbn [eserialization_size lower serialization_size]; auto.
  - rewrite esizeof_lower. reflexivity.
  - f_equal. rewrite map_map. apply map_ext_Forall. exact H.
Qed.

Lemma sizes_lower : forall ts, map eserialization_size ts = map serialization_size (map lower ts).
Proof. intros ts. rewrite map_map. apply map_ext. apply eserialization_size_lower. Qed.

Lemma eelement_offset_lower : forall ts i, eelement_offset ts i = element_offset (map lower ts) i.
Proof. intros ts i. unfold eelement_offset, element_offset. rewrite sizes_lower. reflexivity. Qed.

Lemma etuple_size_lower : forall ts, etuple_size ts = tuple_size (map lower ts).
Proof. intros ts. unfold etuple_size, tuple_size. rewrite sizes_lower. reflexivity. Qed.

Lemma nth_error_pairwise : forall (A B C : Type) (F : A -> B -> C) l l' i,
  nth_error (pairwise F l l') i =
  match nth_error l i, nth_error l' i with
  | Some a, Some b => Some (F a b)
  | _, _ => None
  end.
Proof.
  intros A B C F. induction l as [|a l IH]; intros [|b l'] [|i]; cbn [pairwise nth_error]; auto.
  destruct (nth_error l i); reflexivity.
Qed.

Lemma skipn_cons : forall (A : Type) (l : list A) k a l', skipn k l = a :: l' ->
  nth_error l k = Some a /\ skipn (S k) l = l'.
Proof.
  intros A l k. revert l. induction k as [|k IH]; intros [|b l] a l' H; cbn [skipn nth_error] in *; try discriminate.
  - injection H as -> ->. auto.
  - destruct (IH l a l' H) as [H1 H2]. split; auto.
Qed.

Lemma map_repeat_eq : forall (A B : Type) (g : A -> B) a n, map g (repeat a n) = repeat (g a) n.
Proof. intros A B g a. induction n as [|n IH]; [reflexivity|]. cbn [repeat map]. rewrite IH. reflexivity. Qed.

Section Lowering.
  Variable p : platform.
  Variable e : endianess.
  Variable m : signed_mode.
  Hypothesis Hm : native_signed_mode p m = true.

  Lemma write_float_lower : forall T f mem off, 1 <= fl_size T <= 8 ->
    compiled (write_float p T e m f mem off)
    = write_as p e m (TSig (fl_size T)) (VInt (float_int T f)) mem off.
  Proof.
    intros T f mem off Hs. unfold write_float, float_to_signed_mode. cbn [write_as]. unfold to_signed_mode. rewrite Hm.
    assert (H8 : (8 <? fl_size T) = false) by (apply Nat.ltb_ge; lia). rewrite H8. cbn [compiled sizeof].
    assert (E : obj_bytes p (CInt (fl_size T) false) (float_bits T f)
                = obj_bytes p (CInt (fl_size T) true) (float_int T f)).
    { unfold obj_bytes, float_int. cbn [csizeof].
      rewrite <- (digits_mod (fl_size T) (conv _ _)), conv_signed_mod, digits_mod by lia. reflexivity. }
    rewrite E. reflexivity.
  Qed.

  Lemma read_float_lower : forall T mem off, 1 <= fl_size T <= 8 ->
    (f <- compiled (read_float p T e m mem off);; Ok (EFlt f))
    = (v <- read_as p e m (TSig (fl_size T)) mem off;; Ok (raise (EFloat T) v)).
  Proof.
    intros T mem off Hs. unfold read_float, float_from_signed_mode. cbn [read_as]. unfold from_signed_mode. rewrite Hm.
    assert (H8 : (8 <? fl_size T) = false) by (apply Nat.ltb_ge; lia). rewrite H8. cbn [compiled sizeof].
    destruct (from_endianess p ull e mem off (fl_size T)) as [tmp|flt]; cbn [bind]; [|reflexivity].
    unfold obj_value. cbn [bind raise]. unfold int_float. rewrite conv_signed_mod by lia. rewrite conv_unsigned. reflexivity.
  Qed.

  Lemma wrong_write : forall t mem off, write_as p e m t (wrong t) mem off = Fault TypeMismatch.
  Proof. intros [| | | |] mem off; reflexivity. Qed.

  Lemma ewrite_as_lower : forall t v mem off, small_floats t ->
    ewrite_as p e m t v mem off = write_as p e m (lower t) (lower_val t v) mem off.
  Proof.
    induction t as [t|T|t n IH|s fs IH] using ety_ind_nested; intros v mem off Hs.
    - cbn [lower]. destruct v as [v|f|vs]; cbn [ewrite_as lower_val]; rewrite ?wrong_write; reflexivity.
    - cbn [lower]. destruct v as [v|f|vs]; cbn [ewrite_as lower_val]; [reflexivity| |reflexivity].
      apply write_float_lower. exact Hs.
    - destruct v as [v|f|vs]; [reflexivity|reflexivity|]. cbn [ewrite_as lower lower_val write_as].
      cbn [small_floats] in Hs.
      change (match n with 0 => 1 | S _ => n * sizeof (lower t) end) with (sizeof (TArr (lower t) n)).
      change (match n with 0 => 1 | S _ => n * esizeof t end) with (esizeof (EArr t n)).
      rewrite (esizeof_lower (EArr t n)), (esizeof_lower t). cbn [lower].
      generalize (sizeof (TArr (lower t) n) / sizeof (lower t)). intros k. generalize 0. revert mem.
      induction k as [|k IHk]; intros mem i; [reflexivity|].
      destruct (n <=? i); [reflexivity|]. rewrite nth_error_map. destruct (nth_error vs i) as [v|]; cbn [option_map]; [|reflexivity].
      rewrite (IH v mem _ Hs). destruct (write_as p e m (lower t) (lower_val t v) mem (off + i * sizeof (lower t))); cbn [bind]; [|reflexivity].
      apply IHk.
    - destruct v as [v|f|vs]; [reflexivity|reflexivity|]. cbn [ewrite_as lower lower_val write_as].
      apply small_floats_user in Hs.
      assert (G : forall l i mem, Forall small_floats l -> 
        Forall (fun t => forall v mem off, small_floats t -> ewrite_as p e m t v mem off = write_as p e m (lower t) (lower_val t v) mem off) l ->
        (forall j, nth_error l j = nth_error fs (i + j)) ->
        (fix go (l : list ety) (i : nat) (mem : list Z) {struct l} : res (list Z) :=
           match l with
           | [] => Ok mem
           | f :: l' =>
               match nth_error vs i with
               | None => Fault TypeMismatch
               | Some v =>
                   o <- eelement_offset fs i;;
                   mem' <- ewrite_as p e m f v mem (off + o);;
                   go l' (S i) mem'
               end
           end) l i mem
        = (fix go (l : list ty) (i : nat) (mem : list Z) {struct l} : res (list Z) :=
           match l with
           | [] => Ok mem
           | f :: l' =>
               match nth_error (pairwise lower_val fs vs) i with
               | None => Fault TypeMismatch
               | Some v =>
                   o <- element_offset (map lower fs) i;;
                   mem' <- write_as p e m f v mem (off + o);;
                   go l' (S i) mem'
               end
           end) (map lower l) i mem).
      { clear mem. induction l as [|f l IHl]; intros i mem Hl HF Hn; [reflexivity|]. cbn [map].
        inversion Hl as [|? ? Hf Hl']; subst. inversion HF as [|? ? HFf HFl]; subst.
        rewrite nth_error_pairwise. pose proof (Hn 0) as H0. cbn [nth_error] in H0. rewrite Nat.add_0_r in H0. rewrite <- H0.
        destruct (nth_error vs i) as [v|]; [|reflexivity].
        rewrite eelement_offset_lower. destruct (element_offset (map lower fs) i) as [o|]; cbn [bind]; [|reflexivity].
        rewrite HFf by exact Hf. destruct (write_as p e m (lower f) (lower_val f v) mem (off + o)); cbn [bind]; [|reflexivity].
        apply IHl; auto. intros j. pose proof (Hn (S j)) as Hj. cbn [nth_error] in Hj. rewrite Hj. f_equal. lia. }
      apply G; auto.
  Qed.

  Lemma eread_as_lower : forall t mem off, small_floats t ->
    eread_as p e m t mem off = (v <- read_as p e m (lower t) mem off;; Ok (raise t v)).
  Proof.
    induction t as [t|T|t n IH|s fs IH] using ety_ind_nested; intros mem off Hs.
    - cbn [eread_as lower]. destruct (read_as p e m t mem off); reflexivity.
    - cbn [eread_as lower]. apply read_float_lower. exact Hs.
    - cbn [eread_as lower read_as small_floats] in *. rewrite bind_assoc. cbn [bind raise].
      rewrite (esizeof_lower t). generalize 0. induction n as [|n IHn]; intros i; [reflexivity|].
      rewrite (IH mem _ Hs), !bind_assoc.
      destruct (read_as p e m (lower t) mem (off + i * sizeof (lower t))) as [v|]; cbn [bind]; [|reflexivity].
      specialize (IHn (S i)). rewrite !bind_assoc.
      match goal with |- _ = (bind ?a _) => destruct a as [vs|]; cbn [bind] in * end.
      + match goal with |- (bind ?a _) = _ => destruct a as [ws|]; cbn [bind] in *; [|discriminate] end.
        injection IHn as ->. reflexivity.
      + match goal with |- (bind ?a _) = _ => destruct a as [ws|]; cbn [bind] in *; [discriminate|] end.
        exact IHn.
    - cbn [eread_as lower read_as]. apply small_floats_user in Hs. rewrite bind_assoc. cbn [bind raise].
      assert (G : forall l i, Forall small_floats l -> 
        Forall (fun t => forall mem off, small_floats t -> eread_as p e m t mem off = (v <- read_as p e m (lower t) mem off;; Ok (raise t v))) l ->
        (fix go (l : list ety) (i : nat) {struct l} : res (list evalue) :=
           match l with
           | [] => Ok []
           | f :: l' =>
               o <- eelement_offset fs i;;
               v <- eread_as p e m f mem (off + o);;
               vs <- go l' (S i);;
               Ok (v :: vs)
           end) l i
        = (vs <- (fix go (l : list ty) (i : nat) {struct l} : res (list val) :=
             match l with
             | [] => Ok []
             | f :: l' =>
                 o <- element_offset (map lower fs) i;;
                 v <- read_as p e m f mem (off + o);;
                 vs <- go l' (S i);;
                 Ok (v :: vs)
             end) (map lower l) i;; Ok (pairwise raise l vs))).
      { induction l as [|f l IHl]; intros i Hl HF; [reflexivity|]. cbn [map].
        inversion Hl as [|? ? Hf Hl']; subst. inversion HF as [|? ? HFf HFl]; subst.
        rewrite eelement_offset_lower, bind_assoc.
        destruct (element_offset (map lower fs) i) as [o|]; cbn [bind]; [|reflexivity].
        rewrite (HFf mem (off + o) Hf), !bind_assoc.
        destruct (read_as p e m (lower f) mem (off + o)) as [v|]; cbn [bind]; [|reflexivity].
        rewrite (IHl (S i) Hl' HFl), !bind_assoc.
        match goal with |- (bind ?a _) = _ => destruct a as [ws|]; reflexivity end. }
      rewrite (G fs 0 Hs IH), bind_assoc. reflexivity.
  Qed.

  (** ** Tuples *)

  Lemma eset_lower : forall ts i t x mem, Forall small_floats ts -> nth_error ts i = Some t ->
    eset p e m ts i x mem = set p (tuple_at e m (map lower ts) 0) i (lower_val t x) mem.
  Proof.
    intros ts i t x mem Hs Ht. unfold eset, set. cbn [tuple_at v_types v_e v_m v_kind v_begin write_at].
    rewrite !at17_nth_error, nth_error_map, Ht. cbn [option_map]. rewrite eelement_offset_lower.
    destruct (element_offset (map lower ts) i); cbn [bind]; [|reflexivity].
    rewrite Forall_forall in Hs. apply ewrite_as_lower, Hs, (nth_error_In _ _ Ht).
  Qed.

  Lemma eget_lower : forall ts i t mem, Forall small_floats ts -> nth_error ts i = Some t ->
    eget p e m ts i mem = (v <- get p (tuple_at e m (map lower ts) 0) i mem;; Ok (raise t v)).
  Proof.
    intros ts i t mem Hs Ht. unfold eget, get. cbn [tuple_at v_types v_e v_m v_kind v_begin read_at].
    rewrite !at17_nth_error, nth_error_map, Ht. cbn [option_map]. rewrite eelement_offset_lower.
    destruct (element_offset (map lower ts) i); cbn [bind]; [|reflexivity].
    rewrite Forall_forall in Hs. apply eread_as_lower, Hs, (nth_error_In _ _ Ht).
  Qed.

  Lemma elay_lower : forall ts post k args mem, Forall small_floats ts -> skipn k ts = post -> length args = length post ->
    elay p e m ts (seq k (length post)) args mem
    = lay p (tuple_at e m (map lower ts) 0) (seq k (length post)) (pairwise lower_val post args) mem.
  Proof.
    intros ts. induction post as [|t post IH]; intros k args mem Hs Hk Hl.
    - destruct args; [reflexivity|discriminate].
    - destruct args as [|a args]; [discriminate|]. cbn [length seq elay lay pairwise].
      destruct (skipn_cons _ _ _ _ _ Hk) as [Ht Hk'].
      rewrite (eset_lower ts k t a mem Hs Ht).
      destruct (set p (tuple_at e m (map lower ts) 0) k (lower_val t a) mem); cbn [bind]; [|reflexivity].
      apply IH; auto.
  Qed.

  Lemma eget_each_lower : forall ts post k mem, Forall small_floats ts -> skipn k ts = post ->
    eget_each p e m ts (seq k (length post)) mem
    = (vs <- get_each p (tuple_at e m (map lower ts) 0) (seq k (length post)) mem;; Ok (pairwise raise post vs)).
  Proof.
    intros ts. induction post as [|t post IH]; intros k mem Hs Hk; [reflexivity|].
    cbn [length seq eget_each get_each].
    destruct (skipn_cons _ _ _ _ _ Hk) as [Ht Hk'].
    rewrite (eget_lower ts k t mem Hs Ht), !bind_assoc.
    destruct (get p (tuple_at e m (map lower ts) 0) k mem); cbn [bind]; [|reflexivity].
    rewrite (IH (S k) mem Hs Hk'), !bind_assoc.
    destruct (get_each p (tuple_at e m (map lower ts) 0) (seq (S k) (length post)) mem); reflexivity.
  Qed.

  Lemma econstruct_lower : forall ts args mem, Forall small_floats ts -> length args = length ts ->
    econstruct p e m ts args mem = construct p e m (map lower ts) (pairwise lower_val ts args) mem.
  Proof.
    intros ts args mem Hs Hl. unfold econstruct, construct. rewrite map_length. unfold make_index_sequence14.
    apply elay_lower; auto.
  Qed.

  Lemma lower_default : forall t, small_floats t -> lower_val t (edefault t) = default_val (lower t).
  Proof.
    induction t as [t|T|t n IH|s fs IH] using ety_ind_nested; intros Hs; cbn [edefault lower lower_val default_val].
    - reflexivity.
    - unfold float_int, float_bits, fl_sign. f_equal. cbn [small_floats] in Hs.
      pose proof (half_pos (fl_size T) ltac:(lia)). apply (conv_signed_range (fl_size T) 0); lia.
    - f_equal. rewrite map_repeat_eq. f_equal. apply IH. exact Hs.
    - apply small_floats_user in Hs. f_equal. induction fs as [|f fs IHfs]; [reflexivity|].
      inversion IH; subst. inversion Hs; subst. cbn [map pairwise]. f_equal; auto.
  Qed.

  Lemma lower_defaults : forall ts, Forall small_floats ts ->
    pairwise lower_val ts (map edefault ts) = map default_val (map lower ts).
  Proof.
    induction ts as [|t ts IH]; intros H; [reflexivity|]. inversion H; subst. cbn [map pairwise].
    f_equal; [apply lower_default|apply IH]; assumption.
  Qed.

  Lemma eread_tuple_lower : forall (X : Type) ts (src : source X) x, Forall small_floats ts ->
    eread_tuple p e m ts src x = read_tuple p e m (map lower ts) src x.
  Proof.
    intros X ts src x Hs. unfold eread_tuple, read_tuple, default_construct.
    rewrite econstruct_lower, lower_defaults, etuple_size_lower by (auto; rewrite map_length; reflexivity).
    destruct (construct _ _ _ _ _ _); cbn [bind]; [|reflexivity].
    unfold fill_tuple, v_end. cbn [tuple_at v_begin v_types Nat.add]. rewrite Nat.sub_0_r. reflexivity.
  Qed.

  Lemma ewrite_tuple_lower : forall (X : Type) ts args (dest : destination X) x,
    Forall small_floats ts -> length args = length ts ->
    ewrite_tuple p e m ts args dest x = write_tuple p e m (map lower ts) (pairwise lower_val ts args) dest x.
  Proof.
    intros X ts args dest x Hs Hl. unfold ewrite_tuple, write_tuple. rewrite econstruct_lower, etuple_size_lower by auto.
    destruct (construct _ _ _ _ _ _); cbn [bind]; [|reflexivity].
    unfold content, v_end. cbn [tuple_at v_begin v_types Nat.add]. rewrite Nat.sub_0_r. reflexivity.
  Qed.

  Lemma einvoke_lower : forall (X A : Type) ts (g : list evalue -> X -> X * A) mem x, Forall small_floats ts ->
    einvoke p e m ts g mem x
    = invoke p (tuple_at e m (map lower ts) 0) (fun vs => g (pairwise raise ts vs)) mem x.
  Proof.
    intros X A ts g mem x Hs. unfold einvoke, invoke. cbn [tuple_at v_types].
    rewrite map_length. unfold make_index_sequence14. rewrite (eget_each_lower ts ts 0 mem Hs) by reflexivity.
    rewrite bind_assoc. reflexivity.
  Qed.
End Lowering.

(** ** Callbacks, keys, dispatchers *)

Definition lower_sig (s : esignature) : signature :=
  mk_sig (map lower (es_params s)) (option_map lower (es_ret s)).

Definition lower_ret (r : option ety) (v : evalue) : val :=
  match r with
  | Some t => lower_val t v
  | None => VInt 0
  end.

Definition lower_func {X : Type} (f : efunc X) : func X :=
  mk_func (lower_sig (ef_sig f)) (fun vs x =>
    let (x', r) := ef_call f (pairwise raise (es_params (ef_sig f)) vs) x in
    (x', lower_ret (es_ret (ef_sig f)) r)).

Definition lower_keyring {X : Type} (kr : ekeyring X) : keyring X :=
  mk_keyring (ekr_e kr) (ekr_m kr) (map (fun nf => (fst nf, lower_func (snd nf))) (ekr_funcs kr)).

Definition lower_key (k : ekey) : key :=
  mk_key (ek_index_size k) (ek_index k) (lower_sig (ek_sig k)) (ek_e k) (ek_m k).

Definition small_sig (s : esignature) : Prop :=
  Forall small_floats (es_params s) /\ match es_ret s with Some t => small_floats t | None => True end.

(** The same callback, up to the equality of functions. *)
Definition lowered {X : Type} (f : efunc X) (f' : func X) : Prop :=
  f_sig f' = lower_sig (ef_sig f) /\ forall vs x, f_call f' vs x = f_call (lower_func f) vs x.

Section LoweredCalls.
  Variable p : platform.
  Context {X : Type}.

  Lemma ecall_lowered : forall e m (f : efunc X) f' ft src dest x, native_signed_mode p m = true ->
    small_sig (ef_sig f) -> lowered f f' ->
    ecall p e m f src dest x = run p (make_action ft e m f') src dest x.
  Proof.
    intros e m f f' ft src dest x Hm [Hs Hr] [Esig Ecall].
    assert (E : run p (make_action ft e m f') src dest x = call p e m f' src dest x).
    { destruct ft; cbn [make_action run m_e m_m m_func]; [reflexivity|symmetry; apply call_static]. }
    rewrite E. clear E. unfold ecall, call. rewrite Esig. cbn [lower_sig sig_params sig_ret].
    rewrite eread_tuple_lower by auto.
    assert (Ei : forall st x1,
      invoke p (tuple_at e m (map lower (es_params (ef_sig f))) 0) (f_call f') st x1
      = ('(x2, r) <- einvoke p e m (es_params (ef_sig f)) (ef_call f) st x1;; Ok (x2, lower_ret (es_ret (ef_sig f)) r))).
    { intros st x1. rewrite einvoke_lower by auto. unfold invoke. rewrite bind_assoc.
      destruct (get_each _ _ _ _) as [vs|]; cbn [bind]; [|reflexivity]. rewrite Ecall. cbn [lower_func f_call].
      destruct (ef_call f (pairwise raise (es_params (ef_sig f)) vs) x1); reflexivity. }
    destruct (es_ret (ef_sig f)) as [t|]; cbn [option_map];
      (destruct (read_tuple p e m (map lower (es_params (ef_sig f))) src x) as [[x1 st]|]; cbn [bind]; [|reflexivity]);
      rewrite Ei; destruct (einvoke p e m (es_params (ef_sig f)) (ef_call f) st x1) as [[x2 r]|]; cbn [bind]; try reflexivity.
    unfold insert. rewrite ewrite_tuple_lower by auto. reflexivity.
  Qed.

  Lemma edispatch_lowered : forall (kr : ekeyring X) (kr' : keyring X) ft src dest x,
    native_signed_mode p (ekr_m kr) = true -> Forall (fun nf => small_sig (ef_sig (snd nf))) (ekr_funcs kr) ->
    kr_e kr' = ekr_e kr -> kr_m kr' = ekr_m kr ->
    Forall2 (fun nf nf' => fst nf' = fst nf /\ lowered (snd nf) (snd nf')) (ekr_funcs kr) (kr_funcs kr') ->
    edispatch p kr src dest x = dispatch p (make_dispatcher kr' ft) src dest x.
  Proof.
    intros kr kr' ft src dest x Hm Hs Ee Em HF. pose proof (Forall2_length HF) as Hl.
    unfold edispatch, dispatch, get_index. cbn [make_dispatcher d_keyring]. rewrite Ee, Em.
    assert (Ew : kr_index_size kr' = ekr_index_size kr) by (unfold kr_index_size, ekr_index_size; rewrite Hl; reflexivity).
    assert (Es : d_size (make_dispatcher kr' ft) = ekr_size kr).
    { unfold d_size, kr_size, ekr_size. cbn [make_dispatcher d_keyring]. rewrite Ew, Hl. reflexivity. }
    rewrite Ew, Es. set (w := ekr_index_size kr).
    assert (Hsm : Forall small_floats [EInt (TUns w)]) by (constructor; [exact I|constructor]).
    rewrite eread_tuple_lower by auto. cbn [map lower].
    destruct (read_tuple p (ekr_e kr) (ekr_m kr) [TUns w] src x) as [[x1 st]|]; cbn [bind]; [|reflexivity].
    rewrite (eget_lower p (ekr_e kr) (ekr_m kr) Hm [EInt (TUns w)] 0 (EInt (TUns w)) st Hsm) by reflexivity. cbn [map lower].
    destruct (get p (tuple_at (ekr_e kr) (ekr_m kr) [TUns w] 0) 0 st) as [[z|vs]|]; cbn [bind raise]; [|reflexivity|reflexivity].
    destruct (Z.to_nat z <? ekr_size kr); [|reflexivity].
    unfold action_at. cbn [make_dispatcher d_actions]. rewrite nth_error_map.
    assert (Hn : forall i, match nth_error (ekr_funcs kr) i, nth_error (kr_funcs kr') i with
                           | Some nf, Some nf' => small_sig (ef_sig (snd nf)) /\ lowered (snd nf) (snd nf')
                           | None, None => True
                           | _, _ => False
                           end).
    { clear - HF Hs. induction HF as [|nf nf' l l' [_ H] HF IH]; intros [|i]; cbn [nth_error]; auto; inversion Hs; subst; auto.
      apply IH. assumption. }
    specialize (Hn (Z.to_nat z)).
    destruct (nth_error (ekr_funcs kr) (Z.to_nat z)) as [nf|], (nth_error (kr_funcs kr') (Z.to_nat z)) as [nf'|];
      try contradiction; cbn [option_map bind]; [|reflexivity].
    destruct Hn as [Hsm' Hlow]. rewrite (ecall_lowered _ _ _ _ ft _ _ _ Hm Hsm' Hlow). rewrite Ee, Em. reflexivity.
  Qed.

  Lemma ekey_write_lower : forall k args (dest : destination X) x, native_signed_mode p (ek_m k) = true ->
    small_sig (ek_sig k) -> length args = length (es_params (ek_sig k)) ->
    ekey_write p k args dest x = key_write p (lower_key k) (pairwise lower_val (es_params (ek_sig k)) args) dest x.
  Proof.
    intros k args dest x Hm [Hs _] Hl. unfold ekey_write, key_write.
    assert (Hs' : Forall small_floats (EInt (TUns (ek_index_size k)) :: es_params (ek_sig k))) by (constructor; [exact I|exact Hs]).
    rewrite (ewrite_tuple_lower p (ek_e k) (ek_m k) Hm X _ (_ :: args) dest x Hs') by (cbn [length]; lia). reflexivity.
  Qed.

  Lemma ekey_read_lower : forall k (src : source X) x, native_signed_mode p (ek_m k) = true -> small_sig (ek_sig k) ->
    ekey_read p k src x =
    ('(x', o) <- key_read p (lower_key k) src x;;
     Ok (x', match es_ret (ek_sig k), o with Some t, Some v => Some (raise t v) | _, _ => None end)).
  Proof.
    intros k src x Hm [_ Hr]. unfold ekey_read, key_read. cbn [lower_key k_sig lower_sig sig_ret k_e k_m].
    destruct (es_ret (ek_sig k)) as [t|]; cbn [option_map]; [|reflexivity].
    assert (Hs : Forall small_floats [t]) by (constructor; auto).
    rewrite eread_tuple_lower by auto. cbn [map].
    destruct (read_tuple p (ek_e k) (ek_m k) [lower t] src x) as [[x1 st]|]; cbn [bind]; [|reflexivity].
    rewrite (eget_lower p (ek_e k) (ek_m k) Hm [t] 0 t st Hs) by reflexivity. cbn [map].
    destruct (get p (tuple_at (ek_e k) (ek_m k) [lower t] 0) 0 st); reflexivity.
  Qed.
End LoweredCalls.

(** ** Conditions and specification *)

(** A type usable with the format on the host: as [ty_ok], the floating point
    types being interchange formats of at most eight bytes. *)
Fixpoint ewire_size (t : ety) : nat :=
  match t with
  | EInt t => wire_size t
  | EFloat T => fl_size T
  | EArr t n => n * ewire_size t
  | EUser _ fs => list_sum (map ewire_size fs)
  end.

Fixpoint ety_ok (p : platform) (e : endianess) (m : signed_mode) (t : ety) : Prop :=
  match t with
  | EInt t => ty_ok p e m t
  | EFloat T => ieee T /\ sig_host_ok p e m (fl_size T)
  | EArr t n => ety_ok p e m t /\ esizeof t = ewire_size t /\ 1 <= n /\ 1 <= esizeof t
  | EUser _ fs => fold_right (fun f acc => ety_ok p e m f /\ acc) True fs
  end.

Definition esig_ok (p : platform) (e : endianess) (m : signed_mode) (s : esignature) : Prop :=
  Forall (ety_ok p e m) (es_params s) /\ match es_ret s with Some t => ety_ok p e m t | None => True end.

Definition ekeyring_ok {X : Type} (p : platform) (kr : ekeyring X) : Prop :=
  (Z.of_nat (length (ekr_funcs kr)) < 2 ^ 64)%Z
  /\ Forall (fun nf => esig_ok p (ekr_e kr) (ekr_m kr) (ef_sig (snd nf))) (ekr_funcs kr).

(** Values of a type: every number of the interchange format, both zeros, the
    infinities and NaN (one, see FloatModel.v). *)
Fixpoint eencodable (p : platform) (m : signed_mode) (t : ety) (v : evalue) : Prop :=
  match t, v with
  | EInt t, EVal v => encodable p m t v
  | EFloat T, EFlt f => valid_binary (fl_prec T) (fl_emax T) f = true
  | EArr t n, EList vs => length vs = n /\ Forall (eencodable p m t) vs
  | EUser _ fs, EList vs =>
      (fix go (fs : list ety) (vs : list evalue) : Prop :=
         match fs, vs with
         | [], [] => True
         | f :: fs', v :: vs' => eencodable p m f v /\ go fs' vs'
         | _, _ => False
         end) fs vs
  | _, _ => False
  end.

Definition eret_encodable (p : platform) (m : signed_mode) (r : option ety) (v : evalue) : Prop :=
  match r with
  | Some t => eencodable p m t v
  | None => True
  end.

(** Encodings: a floating point value is sent as its bits. *)
Fixpoint eenc (e : endianess) (m : signed_mode) (t : ety) (v : evalue) : list Z :=
  match t, v with
  | EInt t, EVal v => enc e m t v
  | EFloat T, EFlt f => wire_bytes e (fl_size T) (float_bits T f)
  | EArr t _, EList vs => flat_map (eenc e m t) vs
  | EUser _ fs, EList vs =>
      (fix go (fs : list ety) (vs : list evalue) : list Z :=
         match fs, vs with
         | f :: fs', v :: vs' => eenc e m f v ++ go fs' vs'
         | _, _ => []
         end) fs vs
  | _, _ => []
  end.

Fixpoint eenc_list (e : endianess) (m : signed_mode) (ts : list ety) (vs : list evalue) : list Z :=
  match ts, vs with
  | t :: ts', v :: vs' => eenc e m t v ++ eenc_list e m ts' vs'
  | _, _ => []
  end.

Lemma ewire_size_lower : forall t, ewire_size t = wire_size (lower t).
Proof.
  induction t using ety_ind_nested; cbn [ewire_size lower wire_size]; auto.
  f_equal. rewrite map_map. apply map_ext_Forall. exact H.
Qed.

Lemma ety_ok_user : forall p e m s fs, ety_ok p e m (EUser s fs) <-> Forall (ety_ok p e m) fs.
Proof.
  intros p e m s fs. cbn [ety_ok]. induction fs as [|f fs IH]; cbn [fold_right].
  - split; auto.
  - rewrite IH. split; [intros [H1 H2]; constructor; auto|intros H; inversion H; auto].
Qed.

Lemma ety_ok_small : forall p e m t, ety_ok p e m t -> small_floats t.
Proof.
  intros p e m. induction t as [t|T|t n IH|s fs IH] using ety_ind_nested; intros H.
  - exact I.
  - destruct H as [[_ _ _ H] _]. exact H.
  - apply IH. apply H.
  - apply ety_ok_user in H. apply small_floats_user. rewrite Forall_forall in *. auto.
Qed.

Lemma ety_ok_lower : forall p e m t, ety_ok p e m t -> ty_ok p e m (lower t).
Proof.
  intros p e m. induction t as [t|T|t n IH|s fs IH] using ety_ind_nested; intros H.
  - exact H.
  - destruct H as [[_ _ _ H] Hh]. repeat split; cbn [lower wf_ty host_ok layout_ok]; auto; lia.
  - cbn [ety_ok] in H. destruct H as (H & Hs & Hn & H1). destruct (IH H) as (W & Ho & L).
    rewrite esizeof_lower in *. rewrite ewire_size_lower in Hs. repeat split; cbn [lower wf_ty host_ok layout_ok]; auto.
  - apply ety_ok_user in H. cbn [lower]. unfold ty_ok. cbn [wf_ty host_ok layout_ok].
    induction fs as [|f fs IHfs]; cbn [map fold_right]; [auto|].
    inversion IH as [|? ? Hf Hfs]; subst. inversion H as [|? ? Ff Ffs]; subst.
    destruct (Hf Ff) as (W & Ho & L). destruct (IHfs Hfs Ffs) as (W' & Ho' & L'). auto.
Qed.

(** Signed integers written with the native signed mode: all of them. *)
Lemma eencodable_lower : forall p e m t v, wf_platform p -> native_signed_mode p m = true -> ety_ok p e m t ->
  eencodable p m t v -> encodable p m (lower t) (lower_val t v) /\ raise t (lower_val t v) = v.
Proof.
  intros p e m t v Hp Hm. pose proof (native_signed_mode_eq p m Hp Hm) as Em. revert v.
  induction t as [t|T|t n IH|s fs IH] using ety_ind_nested; intros v Hok Hv.
  - destruct v as [v|f|vs]; try contradiction. auto.
  - destruct v as [v|f|vs]; try contradiction. destruct Hok as [HT Hh]. cbn [eencodable] in Hv.
    destruct (C52_bits T HT f Hv) as [Hb Hbits]. destruct HT as [_ _ _ Hs]. cbn [lower lower_val raise].
    split; [split; cbn [has_type all_signed]|].
    + unfold float_int. apply conv_signed_bounds. lia.
    + right. rewrite Em. cbn [min_ok]. right. rewrite <- Em. exact Hm.
    + unfold int_float, float_int. rewrite conv_signed_mod by lia. rewrite Z.mod_small by exact Hb. rewrite Hbits. reflexivity.
  - destruct v as [v|f|vs]; try contradiction. cbn [eencodable] in Hv. destruct Hv as [Hl Hv]. cbn [ety_ok] in Hok.
    assert (G : Forall (fun v => encodable p m (lower t) (lower_val t v) /\ raise t (lower_val t v) = v) vs).
    { rewrite Forall_forall in *. intros v Hin. apply IH; [apply Hok|auto]. }
    clear Hv. cbn [lower lower_val raise]. unfold encodable. cbn [has_type all_signed]. rewrite map_length, !Forall_map.
    rewrite map_map. split; [split; [split; auto|]|].
    + eapply Forall_impl; [|exact G]. intros a [[H _] _]. exact H.
    + eapply Forall_impl; [|exact G]. intros a [[_ H] _]. exact H.
    + f_equal. clear Hl. induction G as [|v vs [_ Hv] G IHG]; [reflexivity|]. cbn [map]. rewrite Hv, IHG. reflexivity.
  - destruct v as [v|f|vs]; try contradiction. apply ety_ok_user in Hok. cbn [eencodable] in Hv.
    cbn [lower lower_val raise]. unfold encodable. cbn [has_type all_signed].
    assert (G : (((fix go (fs : list ty) (vs : list val) : Prop :=
         match fs, vs with
         | [], [] => True
         | f :: fs', v :: vs' => has_type f v /\ go fs' vs'
         | _, _ => False
         end) (map lower fs) (pairwise lower_val fs vs)) /\
      ((fix go (fs : list ty) (vs : list val) : Prop :=
         match fs, vs with
         | f :: fs', v :: vs' => all_signed (sig_encodable p m) f v /\ go fs' vs'
         | _, _ => True
         end) (map lower fs) (pairwise lower_val fs vs))) /\ pairwise raise fs (pairwise lower_val fs vs) = vs).
    { revert vs Hv. induction fs as [|f fs IHfs]; intros [|v vs] Hv; try contradiction; [repeat split|].
      inversion IH as [|? ? Hf Hfs]; subst. inversion Hok as [|? ? Ff Ffs]; subst. destruct Hv as [Hv Hvs].
      destruct (Hf v Ff Hv) as [[H1 H2] H3]. destruct (IHfs Hfs Ffs vs Hvs) as [[H4 H5] H6]. cbn [map pairwise].
      repeat split; auto. rewrite H3, H6. reflexivity. }
    destruct G as [G1 G2]. split; [exact G1|]. f_equal. exact G2.
Qed.

Lemma eencodable_lower_list : forall p e m ts vs, wf_platform p -> native_signed_mode p m = true -> Forall (ety_ok p e m) ts ->
  Forall2 (eencodable p m) ts vs ->
  Forall2 (encodable p m) (map lower ts) (pairwise lower_val ts vs) /\ pairwise raise ts (pairwise lower_val ts vs) = vs.
Proof.
  intros p e m ts vs Hp Hm Hok H. induction H as [|t v ts vs Hv H IH]; [split; [constructor|reflexivity]|].
  inversion Hok as [|? ? Ot Ots]; subst. destruct (eencodable_lower p e m t v) as [H1 H2]; auto. destruct IH as [H3 H4]; auto.
  cbn [map pairwise]. split; [constructor; auto|]. rewrite H2, H4. reflexivity.
Qed.

Lemma enc_lower : forall p e m t v, wf_platform p -> native_signed_mode p m = true -> ety_ok p e m t ->
  eencodable p m t v -> enc e m (lower t) (lower_val t v) = eenc e m t v.
Proof.
  intros p e m t v Hp Hm. pose proof (native_signed_mode_eq p m Hp Hm) as Em. revert v.
  induction t as [t|T|t n IH|s fs IH] using ety_ind_nested; intros v Hok Hv.
  - destruct v as [v|f|vs]; try contradiction. reflexivity.
  - destruct v as [v|f|vs]; try contradiction. cbn [lower lower_val enc eenc]. destruct Hok as [HT _].
    destruct (C52_bits T HT f Hv) as [Hb _]. destruct HT as [_ _ _ Hs].
    rewrite Em, !wire_bytes_digits. rewrite <- digits_twos by (unfold float_int; try apply conv_signed_bounds; lia).
    rewrite <- (digits_mod _ (float_int T f)). unfold float_int. rewrite conv_signed_mod, digits_mod by lia. reflexivity.
  - destruct v as [v|f|vs]; try contradiction. cbn [eencodable] in Hv. destruct Hv as [_ Hv]. cbn [ety_ok] in Hok.
    cbn [lower lower_val enc eenc]. induction Hv as [|v vs Hv Hvs IHv]; [reflexivity|]. cbn [map flat_map].
    rewrite IHv, (IH v) by (auto; apply Hok). reflexivity.
  - destruct v as [v|f|vs]; try contradiction. apply ety_ok_user in Hok. cbn [eencodable] in Hv. cbn [lower lower_val enc eenc].
    revert vs Hv. induction fs as [|f fs IHfs]; intros [|v vs] Hv; try contradiction; [reflexivity|].
    inversion IH as [|? ? Hf Hfs]; subst. inversion Hok as [|? ? Ff Ffs]; subst. destruct Hv as [Hv Hvs].
    cbn [map pairwise]. rewrite (Hf v Ff Hv), (IHfs Hfs Ffs vs Hvs). reflexivity.
Qed.

Lemma enc_list_lower : forall p e m ts vs, wf_platform p -> native_signed_mode p m = true -> Forall (ety_ok p e m) ts ->
  Forall2 (eencodable p m) ts vs -> enc_list e m (map lower ts) (pairwise lower_val ts vs) = eenc_list e m ts vs.
Proof.
  intros p e m ts vs Hp Hm Hok H. induction H as [|t v ts vs Hv H IH]; [reflexivity|].
  inversion Hok as [|? ? Ot Ots]; subst. cbn [map pairwise enc_list eenc_list]. rewrite (enc_lower p e m t v), IH by auto. reflexivity.
Qed.

Lemma esig_ok_small : forall p e m s, esig_ok p e m s -> small_sig s.
Proof.
  intros p e m s [H1 H2]. split.
  - rewrite Forall_forall in *. intros t Ht. apply (ety_ok_small p e m). auto.
  - destruct (es_ret s); [|exact I]. apply (ety_ok_small p e m). exact H2.
Qed.

Lemma esig_ok_lower : forall p e m s, esig_ok p e m s -> sig_ok p e m (lower_sig s).
Proof.
  intros p e m s [H1 H2]. split; cbn [lower_sig sig_params sig_ret].
  - rewrite Forall_map. rewrite Forall_forall in *. intros t Ht. apply ety_ok_lower. auto.
  - destruct (es_ret s); cbn [option_map ret_ty_ok]; [|exact I]. apply ety_ok_lower. exact H2.
Qed.

(** ** C105 *)

Lemma ekeyring_small : forall (X : Type) p (kr : ekeyring X), ekeyring_ok p kr ->
  Forall (fun nf => small_sig (ef_sig (snd nf))) (ekr_funcs kr).
Proof.
  intros X p kr [_ H]. eapply Forall_impl; [|exact H]. intros nf Hs. eapply esig_ok_small. exact Hs.
Qed.

(** A dispatcher handles floating point types as it handles the signed integers
    of the same size which have the same bits. *)
Theorem C105_dispatch : forall (X : Type) p (kr : ekeyring X) ft src dest x,
  native_signed_mode p (ekr_m kr) = true -> ekeyring_ok p kr ->
  edispatch p kr src dest x = dispatch p (make_dispatcher (lower_keyring kr) ft) src dest x.
Proof.
  intros X p kr ft src dest x Hm Hok. apply edispatch_lowered; auto.
  - apply (ekeyring_small X p kr Hok).
  - cbn [lower_keyring kr_funcs]. clear. induction (ekr_funcs kr) as [|nf l IH]; cbn [map]; constructor; auto.
    cbn [fst snd]. split; [reflexivity|]. split; [reflexivity|]. auto.
Qed.

Lemma ekr_get_lower : forall (X : Type) (kr : ekeyring X) name f,
  kr_get (lower_keyring kr) name (lower_func f) = option_map lower_key (ekr_get kr name f).
Proof.
  intros X kr name f. unfold kr_get, ekr_get, lower_keyring, kr_index_size, ekr_index_size. cbn [kr_funcs kr_e kr_m].
  rewrite map_map, map_length. cbn [fst]. destruct (find17 Nat.eqb (map (fun x => fst x) (ekr_funcs kr)) name); reflexivity.
Qed.

Lemma ekeyring_ok_lower : forall (X : Type) p (kr : ekeyring X), ekeyring_ok p kr -> keyring_ok p (lower_keyring kr).
Proof.
  intros X p kr [H1 H2]. split; cbn [lower_keyring kr_funcs kr_e kr_m]; [rewrite map_length; exact H1|].
  rewrite Forall_map. eapply Forall_impl; [|exact H2]. intros nf H. apply esig_ok_lower. exact H.
Qed.

(** A request: the index, then the arguments, floating point values being sent
    as their bits. *)
Theorem C105_packet : forall (X : Type) p (kr : ekeyring X) name f k args dest (x : X),
  wf_platform p -> native_signed_mode p (ekr_m kr) = true -> ekeyring_ok p kr ->
  In (name, f) (ekr_funcs kr) -> ekr_get kr name f = Some k ->
  Forall2 (eencodable p (ekr_m kr)) (es_params (ef_sig f)) args ->
  exists i, nth_error (map fst (ekr_funcs kr)) i = Some name
    /\ ekey_write p k args dest x
       = push dest (wire_bytes (ekr_e kr) (ekr_index_size kr) (Z.of_nat i)
                    ++ eenc_list (ekr_e kr) (ekr_m kr) (es_params (ef_sig f)) args) x.
Proof.
  intros X p kr name f k args dest x Hp Hm Hok Hin Hk Ha.
  assert (Hin' : In (name, lower_func f) (kr_funcs (lower_keyring kr))).
  { cbn [lower_keyring kr_funcs]. apply (in_map (fun nf => (fst nf, lower_func (snd nf))) _ _ Hin). }
  assert (Hk' : kr_get (lower_keyring kr) name (lower_func f) = Some (lower_key k)) by (rewrite ekr_get_lower, Hk; reflexivity).
  assert (Hs : esig_ok p (ekr_e kr) (ekr_m kr) (ef_sig f)).
  { destruct Hok as [_ F]. rewrite Forall_forall in F. apply (F _ Hin). }
  destruct (eencodable_lower_list p (ekr_e kr) (ekr_m kr) _ _ Hp Hm (proj1 Hs) Ha) as [Ha' _].
  destruct (C24_packet X p (lower_keyring kr) name (lower_func f) (lower_key k) _ dest x Hp (ekeyring_ok_lower _ _ _ Hok) Hin' Hk' Ha')
    as (i & Hi & Hw & _).
  assert (Ek : ek_sig k = ef_sig f /\ ek_m k = ekr_m kr).
  { unfold ekr_get in Hk. destruct (find17 _ _ _); [|discriminate]. injection Hk as <-. auto. }
  destruct Ek as [Es Em].
  exists i. split.
  - cbn [lower_keyring kr_funcs] in Hi. rewrite nth_error_map in *. destruct (nth_error (ekr_funcs kr) i) as [nf|]; [|discriminate].
    cbn [option_map] in *. congruence.
  - rewrite ekey_write_lower; rewrite ?Es, ?Em; auto.
    + rewrite Hw. unfold request. cbn [lower_keyring kr_e kr_m lower_func f_sig lower_sig sig_params].
      rewrite (enc_list_lower p) by (auto; apply Hs). f_equal. f_equal. f_equal.
      unfold kr_index_size, ekr_index_size. cbn [lower_keyring kr_funcs]. rewrite map_length. reflexivity.
    + apply (esig_ok_small p _ _ _ Hs).
    + symmetry. apply (Forall2_length Ha).
Qed.

(** Callbacks over a user state, seen as callbacks over the wires. *)
Definition elift_func {S : Type} (f : efunc S) : efunc (wires S) :=
  mk_efunc (ef_sig f) (fun args w =>
    let (s, r) := ef_call f args (w_user w) in (mk_wires (w_in w) (w_out w) s, r)).

Definition elift_keyring {S : Type} (kr : ekeyring S) : ekeyring (wires S) :=
  mk_ekeyring (ekr_e kr) (ekr_m kr) (map (fun nf => (fst nf, elift_func (snd nf))) (ekr_funcs kr)).

Lemma eret_lower : forall p e m r v, wf_platform p -> native_signed_mode p m = true ->
  match r with Some t => ety_ok p e m t | None => True end -> eret_encodable p m r v ->
  ret_encodable p m (option_map lower r) (lower_ret r v).
Proof.
  intros p e m [t|] v Hp Hm Hok H; cbn [option_map ret_encodable lower_ret]; [|exact I].
  apply (eencodable_lower p e m t v Hp Hm Hok H).
Qed.

(** A remote call with floating point values, arrays and objects made of them:
    the callback is given the arguments of the caller and the caller is given
    the result of the callback, bit for bit, on any two hosts the native signed
    mode of which is the one of the keyring. *)
Theorem C105_remote_call : forall (S : Type) p q (kr : ekeyring S) name f k args s rest rest',
  wf_platform p -> wf_platform q ->
  native_signed_mode p (ekr_m kr) = true -> native_signed_mode q (ekr_m kr) = true ->
  ekeyring_ok p kr -> ekeyring_ok q kr ->
  In (name, f) (ekr_funcs kr) -> ekr_get (elift_keyring kr) name (elift_func f) = Some k ->
  Forall2 (eencodable p (ekr_m kr)) (es_params (ef_sig f)) args ->
  Forall2 (eencodable q (ekr_m kr)) (es_params (ef_sig f)) args ->
  let (s', r) := ef_call f args s in
  eret_encodable p (ekr_m kr) (es_ret (ef_sig f)) r -> eret_encodable q (ekr_m kr) (es_ret (ef_sig f)) r ->
  exists i packet resp,
    nth_error (map fst (ekr_funcs kr)) i = Some name
    (* the request *)
    /\ ekey_write p k args give_wire (mk_wires [] [] tt) = Ok (mk_wires [] packet tt)
    (* its processing: the callback ran once, on [args] *)
    /\ edispatch q (elift_keyring kr) take_wire give_wire (mk_wires (packet ++ rest) [] s)
       = Ok (mk_wires rest resp s', i)
    (* the reading of the response *)
    /\ ekey_read p k take_wire (mk_wires (resp ++ rest') [] tt)
       = Ok (mk_wires rest' [] tt, option_map (fun _ => r) (es_ret (ef_sig f))).
Proof.
  intros S p q kr name f k args s rest rest' Hp Hq Hmp Hmq Hkp Hkq Hin Hk Hap Haq.
  destruct (ef_call f args s) as [s' r] eqn:Ef. intros Hrp Hrq.
  assert (Hin' : In (name, lower_func f) (kr_funcs (lower_keyring kr))).
  { cbn [lower_keyring kr_funcs]. apply (in_map (fun nf => (fst nf, lower_func (snd nf))) _ _ Hin). }
  assert (Hsp : esig_ok p (ekr_e kr) (ekr_m kr) (ef_sig f)).
  { destruct Hkp as [_ F]. rewrite Forall_forall in F. apply (F _ Hin). }
  assert (Hsq : esig_ok q (ekr_e kr) (ekr_m kr) (ef_sig f)).
  { destruct Hkq as [_ F]. rewrite Forall_forall in F. apply (F _ Hin). }
  destruct (eencodable_lower_list p (ekr_e kr) (ekr_m kr) _ _ Hp Hmp (proj1 Hsp) Hap) as [Hap' Eraise].
  destruct (eencodable_lower_list q (ekr_e kr) (ekr_m kr) _ _ Hq Hmq (proj1 Hsq) Haq) as [Haq' _].
  assert (Hlift : forall P : platform, ekeyring_ok P kr -> keyring_ok P (lift_keyring (lower_keyring kr))).
  { intros P HP. destruct (ekeyring_ok_lower _ _ _ HP) as [H1 H2]. split; cbn [lift_keyring kr_funcs kr_e kr_m].
    - rewrite map_length. exact H1.
    - rewrite Forall_map. exact H2. }
  assert (Ek : ek_sig k = ef_sig f /\ ek_m k = ekr_m kr).
  { unfold ekr_get in Hk. destruct (find17 _ _ _); [|discriminate]. injection Hk as <-. auto. }
  destruct Ek as [Es Em].
  assert (Hk' : kr_get (lift_keyring (lower_keyring kr)) name (lift_func (lower_func f)) = Some (lower_key k)).
  { unfold kr_get, lift_keyring, lower_keyring, kr_index_size. cbn [kr_funcs kr_e kr_m].
    unfold ekr_get, elift_keyring, ekr_index_size in Hk. cbn [ekr_funcs ekr_e ekr_m] in Hk.
    rewrite map_map in Hk. cbn [fst] in Hk. rewrite !map_map, !map_length. rewrite map_length in Hk. cbn [fst].
    destruct (find17 Nat.eqb (map (fun x => fst x) (ekr_funcs kr)) name); [|discriminate]. injection Hk as <-. reflexivity. }
  pose proof (C31_remote_call S p q (lower_keyring kr) ANY name (lower_func f) (lower_key k)
    (pairwise lower_val (es_params (ef_sig f)) args) s rest rest' Hp Hq (Hlift _ Hkp) (Hlift _ Hkq) Hin' Hk' Hap' Haq') as H.
  assert (Ecall : f_call (lower_func f) (pairwise lower_val (es_params (ef_sig f)) args) s
                  = (s', lower_ret (es_ret (ef_sig f)) r)).
  { cbn [lower_func f_call]. rewrite Eraise, Ef. reflexivity. }
  rewrite Ecall in H. cbn [lower_func f_sig lower_sig sig_ret lower_keyring kr_m] in H.
  specialize (H (eret_lower _ _ _ _ _ Hp Hmp (proj2 Hsp) Hrp) (eret_lower _ _ _ _ _ Hq Hmq (proj2 Hsq) Hrq)).
  destruct H as (i & packet & resp & Hi & Hw & Hd & Hr).
  exists i, packet, resp. split; [|split; [|split]].
  - cbn [lower_keyring kr_funcs] in Hi. rewrite nth_error_map in *. destruct (nth_error (ekr_funcs kr) i) as [nf|]; [|discriminate].
    cbn [option_map] in *. congruence.
  - rewrite ekey_write_lower; rewrite ?Es, ?Em; auto; [apply (esig_ok_small p _ _ _ Hsp)|symmetry; apply (Forall2_length Hap)].
  - rewrite <- Hd. apply edispatch_lowered; auto.
    + cbn [elift_keyring ekr_funcs]. rewrite Forall_map. exact (ekeyring_small S q kr Hkq).
    + cbn [elift_keyring ekr_funcs lift_keyring kr_funcs lower_keyring]. clear.
      induction (ekr_funcs kr) as [|nf l IH]; cbn [map]; constructor; auto. cbn [fst snd]. split; [reflexivity|].
      split; [reflexivity|]. intros vs x. cbn [lift_func lower_func elift_func f_call ef_call ef_sig].
      destruct (ef_call (snd nf) (pairwise raise (es_params (ef_sig (snd nf))) vs) (w_user x)). reflexivity.
  - rewrite ekey_read_lower; rewrite ?Es, ?Em; auto; [|apply (esig_ok_small p _ _ _ Hsp)].
    rewrite Hr. cbn [bind]. unfold lower_ret. destruct (es_ret (ef_sig f)) as [t|] eqn:Et; cbn [option_map]; [|reflexivity].
    destruct Hsp as [_ Hsp]. rewrite Et in Hsp.
    rewrite (proj2 (eencodable_lower p (ekr_e kr) (ekr_m kr) t r Hp Hmp Hsp Hrp)). reflexivity.
Qed.

(** ** Other signed modes *)

(** Whether a type has floating point types inside. *)
Fixpoint has_float (t : ety) : bool :=
  match t with
  | EInt _ => false
  | EFloat _ => true
  | EArr t _ => has_float t
  | EUser _ fs => existsb has_float fs
  end.

(** With the two's complement mode, a program which uses such a type compiles
    only where this mode is the native one. *)
Theorem C105_twos : forall p t, has_float t = true -> ecompiles p TWOS_COMPLEMENT t = native_signed_mode p TWOS_COMPLEMENT.
Proof.
  intros p. induction t as [t|T|t n IH|s fs IH] using ety_ind_nested; intros H; cbn [has_float ecompiles] in *.
  - discriminate.
  - unfold float_to_signed_mode, float_from_signed_mode. destruct (native_signed_mode p TWOS_COMPLEMENT); reflexivity.
  - auto.
  - destruct (native_signed_mode p TWOS_COMPLEMENT) eqn:E.
    + apply forallb_forall. intros f Hf. rewrite Forall_forall in IH. destruct (has_float f) eqn:Ef; [apply IH; auto|].
      clear - Ef E. induction f as [t|T|t n IH|s fs IH] using ety_ind_nested; cbn [has_float ecompiles] in *; auto; try discriminate.
      apply forallb_forall. intros f Hf. rewrite Forall_forall in IH. apply IH; auto.
      destruct (has_float f) eqn:G; auto. assert (existsb has_float fs = true) by (apply existsb_exists; eauto). congruence.
    + apply existsb_exists in H. destruct H as (f & Hf & Hff). rewrite Forall_forall in IH.
      apply not_true_iff_false. intros Hall. rewrite forallb_forall in Hall. specialize (Hall f Hf).
      rewrite (IH f Hf Hff) in Hall. discriminate.
Qed.

(** ** Examples *)

(** [float add(float, float)] and [double total(std::array<point, 2>)], with
    [struct point { float x; float y; std::int16_t id; }] (packed). *)
Definition ex_point : ety := EUser 10 [EFloat binary32; EFloat binary32; EInt (TSig 2)].

Definition ex_fadd : efunc log :=
  mk_efunc (mk_esig [EFloat binary32; EFloat binary32] (Some (EFloat binary32))) (fun args s =>
    match args with
    | [EFlt a; EFlt b] => (s ++ [(0, [])], EFlt (SFadd 24 128 a b))
    | _ => (s, EFlt S754_nan)
    end).

Definition ex_total : efunc log :=
  mk_efunc (mk_esig [EArr ex_point 2] (Some (EFloat binary64))) (fun args s =>
    match args with
    | [EList [EList [EFlt a; _; _]; EList [_; EFlt b; _]]] =>
        (s ++ [(1, [])], EFlt (SFadd 53 1024 (SFmul 53 1024 a a) b))
    | _ => (s, EFlt S754_nan)
    end).

Definition ex_fkeyring (m : signed_mode) : ekeyring log := mk_ekeyring BIG m [(10, ex_fadd); (20, ex_total)].

(** 1.5 and -0.25. *)
Definition ex_one_half : spec_float := S754_finite false 12582912 (-23).
Definition ex_quarter : spec_float := S754_finite true 8388608 (-25).

Definition ex_points : evalue :=
  EList [EList [EFlt ex_one_half; EFlt ex_quarter; EVal (VInt (-7))]; EList [EFlt ex_quarter; EFlt ex_one_half; EVal (VInt 5)]].

Lemma ex_fkeyring_ok : ekeyring_ok pc_native (ex_fkeyring TWOS_COMPLEMENT).
Proof.
  split; [vm_compute; reflexivity|].
  pose proof ieee_binary32 as H32. pose proof ieee_binary64 as H64.
  assert (Hh : forall w, sig_host_ok pc_native BIG TWOS_COMPLEMENT w) by (intros w; right; left; reflexivity).
  assert (Hp : ety_ok pc_native BIG TWOS_COMPLEMENT ex_point).
  { apply ety_ok_user. repeat (apply Forall_cons; [first [exact (conj H32 (Hh _))|idtac]|]); [|apply Forall_nil].
    cbn [ety_ok]. split; [cbn [wf_ty]; lia|split; [apply Hh|exact I]]. }
  unfold ex_fkeyring. cbn [ekr_funcs ekr_e ekr_m].
  repeat apply Forall_cons; [| |apply Forall_nil]; cbn [snd ex_fadd ex_total ef_sig]; split; cbn [es_params es_ret].
  - repeat apply Forall_cons; [exact (conj H32 (Hh _))|exact (conj H32 (Hh _))|apply Forall_nil].
  - exact (conj H32 (Hh _)).
  - apply Forall_cons; [|apply Forall_nil]. cbn [ety_ok]. split; [exact Hp|]. split; [reflexivity|]. split; [lia|]. vm_compute. lia.
  - exact (conj H64 (Hh _)).
Qed.

(** 1.5 + (-0.25) = 1.25; (1.5)^2 + 1.5 = 3.75. *)
Example C105_example :
  ekeyring_ok pc_native (ex_fkeyring TWOS_COMPLEMENT)
  /\ native_signed_mode pc_native TWOS_COMPLEMENT = true
  /\ Forall2 (eencodable pc_native TWOS_COMPLEMENT) (es_params (ef_sig ex_fadd)) [EFlt ex_one_half; EFlt ex_quarter]
  /\ Forall2 (eencodable pc_native TWOS_COMPLEMENT) (es_params (ef_sig ex_total)) [ex_points]
  /\ exists k, ekr_get (elift_keyring (ex_fkeyring TWOS_COMPLEMENT)) 10 (elift_func ex_fadd) = Some k
  /\ ekey_write pc_native k [EFlt ex_one_half; EFlt ex_quarter] give_wire (mk_wires [] [] tt)
     = Ok (mk_wires [] [0; 63; 192; 0; 0; 190; 128; 0; 0]%Z tt)
  /\ edispatch pc_native (elift_keyring (ex_fkeyring TWOS_COMPLEMENT)) take_wire give_wire
       (mk_wires [0; 63; 192; 0; 0; 190; 128; 0; 0; 88]%Z [] [])
     = Ok (mk_wires [88]%Z [63; 160; 0; 0]%Z [(0, [])], 0)
  /\ ekey_read pc_native k take_wire (mk_wires [63; 160; 0; 0]%Z [] tt)
     = Ok (mk_wires [] [] tt, Some (EFlt (S754_finite false 10485760 (-23))))
  /\ edispatch pc_native (elift_keyring (ex_fkeyring TWOS_COMPLEMENT)) take_wire give_wire
       (mk_wires [1; 63; 192; 0; 0; 190; 128; 0; 0; 255; 249; 190; 128; 0; 0; 63; 192; 0; 0; 0; 5]%Z [] [])
     = Ok (mk_wires [] [64; 14; 0; 0; 0; 0; 0; 0]%Z [(1, [])], 1).
Proof.
  split; [exact ex_fkeyring_ok|]. split; [reflexivity|].
  split; [repeat (apply Forall2_cons; [reflexivity|]); apply Forall2_nil|].
  split.
  { apply Forall2_cons; [|apply Forall2_nil]. cbn [eencodable ex_points ex_point]. split; [reflexivity|].
    repeat apply Forall_cons; [| |apply Forall_nil]; repeat split; cbn [has_type all_signed]; try reflexivity; range. }
  eexists. split; [vm_compute; reflexivity|]. split; [vm_compute; reflexivity|]. split; [vm_compute; reflexivity|].
  split; vm_compute; reflexivity.
Qed.

(** With another mode the same program may compile and compute something else:
    1.5 and -0.25 become 1 and 0. *)
Theorem C105_modes_refuted : exists (kr : ekeyring log) p k args s packet resp r,
  wf_platform p
  /\ forallb (ecompiles p (ekr_m kr)) (es_params (ef_sig ex_fadd)) = true
  /\ In (10, ex_fadd) (ekr_funcs kr)
  /\ ekr_get (elift_keyring kr) 10 (elift_func ex_fadd) = Some k
  /\ Forall2 (eencodable p (ekr_m kr)) (es_params (ef_sig ex_fadd)) args
  /\ ekey_write p k args give_wire (mk_wires [] [] tt) = Ok (mk_wires [] packet tt)
  /\ edispatch p (elift_keyring kr) take_wire give_wire (mk_wires packet [] s) = Ok (mk_wires [] resp (s ++ [(0, [])]), 0)
  /\ ekey_read p k take_wire (mk_wires resp [] tt) = Ok (mk_wires [] [] tt, Some r)
  /\ snd (ef_call ex_fadd args s) <> r
  /\ r = EFlt (int_to_float binary32 1).
Proof.
  exists (ex_fkeyring SIGNED_MAGNITUDE), pc_native, (mk_ekey 1 0 (ef_sig ex_fadd) BIG SIGNED_MAGNITUDE),
    [EFlt ex_one_half; EFlt ex_quarter], [], [0; 0; 0; 0; 1; 128; 0; 0; 0]%Z, [0; 0; 0; 1]%Z, (EFlt (int_to_float binary32 1)).
  split; [exact pc_native_wf|]. split; [vm_compute; reflexivity|]. split; [left; reflexivity|]. split; [vm_compute; reflexivity|].
  split; [repeat (apply Forall2_cons; [reflexivity|]); apply Forall2_nil|].
  split; [vm_compute; reflexivity|]. split; [vm_compute; reflexivity|]. split; [vm_compute; reflexivity|].
  split; [vm_compute; discriminate|reflexivity].
Qed.

Print Assumptions C105_dispatch.
Print Assumptions C105_packet.
Print Assumptions C105_remote_call.
Print Assumptions C105_twos.
Print Assumptions C105_modes_refuted.
