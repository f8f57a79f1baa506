(** Properties C49 to C51: the Python bindings. *)

From Coq Require Import List ZArith Lia Bool Arith.
From Verif Require Import Base CInt Spec IntModel Conditions MemFacts TypeLevel Serial TupleModel
  TypeLevelProofs IntProofs SignedProofs SerialProofs CodecFacts Bounds TupleProofs SpecRpc Rpc RpcProofs
  Hosts Closed PropertiesTypes PropertiesRpc Buffered SpecBuffered BufferedProofs PropertiesBuffered
  PropertiesBuffers PropertiesPackets PropertiesDuplex PropertiesStreams PropertiesReply Python.
Import ListNotations.
Open Scope nat_scope.

(** ** Conversions *)

(** Instances of user types hold values of these types. *)
Fixpoint py_ok (v : pyval) : Prop :=
  match v with
  | PyInstance t c => has_type t c
  | PyList vs => (fix go (vs : list pyval) : Prop :=
                    match vs with [] => True | v :: vs' => py_ok v /\ go vs' end) vs
  | _ => True
  end.

Lemma py_ok_list : forall vs, py_ok (PyList vs) <-> Forall py_ok vs.
Proof.
  induction vs as [|v vs IH]; cbn [py_ok] in *; split; intros H; auto.
  - destruct H. constructor; auto. apply IH. auto.
  - inversion H; subst. split; auto. apply IH. auto.
Qed.

Fixpoint convert_all (t : ty) (vs : list pyval) : option (list val) :=
  match vs with
  | [] => Some []
  | v :: vs' =>
      match to_cpp t v, convert_all t vs' with
      | Some c, Some cs => Some (c :: cs)
      | _, _ => None
      end
  end.

Lemma to_cpp_array : forall t n vs,
  to_cpp (TArr t n) (PyList vs) = if length vs =? n then option_map VList (convert_all t vs) else None.
Proof.
  intros. cbn [to_cpp]. destruct (length vs =? n); auto. f_equal.
  induction vs as [|v vs IH]; cbn [convert_all]; auto. rewrite IH. reflexivity.
Qed.

Lemma signed_range : forall w, 1 <= w -> (2 ^ (8 * Z.of_nat w - 1))%Z = half w.
Proof. intros. rewrite half_pow2; auto. Qed.
Lemma unsigned_range : forall w, (2 ^ (8 * Z.of_nat w))%Z = space w.
Proof. intros. rewrite space_pow2. reflexivity. Qed.

Lemma int_conversion : forall lo hi z c,
  (if (lo <=? z)%Z && (z <? hi)%Z then Some (VInt z) else None) = Some c -> c = VInt z /\ (lo <= z < hi)%Z.
Proof. intros lo hi z c H. destruct (Z.leb_spec lo z), (Z.ltb_spec z hi); cbn in H; try discriminate. split; [congruence|lia]. Qed.

(** What is converted is a value of the type. *)
Theorem C49_converted : forall t v c, wf_ty t -> py_ok v -> to_cpp t v = Some c -> has_type t c.
Proof.
  induction t using ty_ind_nested; intros v c Hw Hv Hc.
  - assert (forall b, Some (VInt (Z.b2z b)) = Some c -> has_type TBool c).
    { intros b E. injection E as <-. destruct b; cbn; auto. }
    destruct v; cbn [to_cpp] in Hc; try discriminate; eauto. injection Hc as <-. cbn. auto.
  - destruct v; cbn [to_cpp] in Hc; try discriminate; apply int_conversion in Hc; destruct Hc as [-> Hc];
      rewrite unsigned_range in Hc; exact Hc.
  - assert (1 <= w) by (cbn in Hw; lia).
    destruct v; cbn [to_cpp] in Hc; try discriminate; apply int_conversion in Hc; destruct Hc as [-> Hc];
      rewrite signed_range in Hc by auto; exact Hc.
  - destruct v; try discriminate. rewrite to_cpp_array in Hc. destruct (Nat.eqb_spec (length vs) n) as [El|]; [|discriminate].
    destruct (convert_all t vs) as [cs|] eqn:E; cbn [option_map] in Hc; [|discriminate]. injection Hc as <-.
    apply py_ok_list in Hv. assert (Hwt : wf_ty t) by (cbn in Hw; tauto). clear Hw.
    cbn [has_type]. subst n. revert cs E. induction Hv as [|v vs Hv Hvs IH]; intros cs E; cbn [convert_all] in E.
    + injection E as <-. auto.
    + destruct (to_cpp t v) as [c|] eqn:Ec; [|discriminate]. destruct (convert_all t vs) as [cs'|]; [|discriminate].
      injection E as <-. destruct (IH cs' eq_refl). cbn [length]. split; [congruence|]. constructor; eauto.
  - destruct v; try discriminate. cbn [to_cpp] in Hc.
    destruct (ty_eqb (TUser s fs) t) eqn:E; [|discriminate]. injection Hc as <-. apply ty_eqb_eq in E. subst t. exact Hv.
Qed.

(** What a Python object means as a value of a C++ type. *)
Inductive means : ty -> pyval -> val -> Prop :=
| means_bool_bool : forall b, means TBool (PyBool b) (VInt (if b then 1 else 0)%Z)
| means_bool_true : forall z, z <> 0%Z -> means TBool (PyInt z) (VInt 1)
| means_bool_false : means TBool (PyInt 0) (VInt 0)
| means_bool_none : means TBool PyNone (VInt 0)
| means_uns_int : forall w z, (0 <= z < space w)%Z -> means (TUns w) (PyInt z) (VInt z)
| means_uns_bool : forall w (b : bool) (z : Z), z = (if b then 1 else 0)%Z -> (0 <= z < space w)%Z ->
    means (TUns w) (PyBool b) (VInt z)
| means_sig_int : forall w z, (- half w <= z < half w)%Z -> means (TSig w) (PyInt z) (VInt z)
| means_sig_bool : forall w (b : bool) (z : Z), z = (if b then 1 else 0)%Z -> (- half w <= z < half w)%Z ->
    means (TSig w) (PyBool b) (VInt z)
| means_array : forall t vs cs, Forall2 (means t) vs cs -> means (TArr t (length vs)) (PyList vs) (VList cs)
| means_instance : forall s fs c, means (TUser s fs) (PyInstance (TUser s fs) c) c.

(** The objects accepted as arguments, and their values. *)
Theorem C49_accepted : forall t v c, wf_ty t -> (to_cpp t v = Some c <-> means t v c).
Proof.
  assert (Hint : forall lo hi z c, (if (lo <=? z)%Z && (z <? hi)%Z then Some (VInt z) else None) = Some c
                   <-> c = VInt z /\ (lo <= z < hi)%Z).
  { intros lo hi z c. split; [apply int_conversion|]. intros [-> H].
    rewrite (proj2 (Z.leb_le _ _)), (proj2 (Z.ltb_lt _ _)) by lia. reflexivity. }
  induction t using ty_ind_nested; intros v c Hw.
  - destruct v as [|b|z| | | |]; cbn [to_cpp]; try (split; intros H; [discriminate|inversion H]).
    + split; [intros H; injection H as <-; constructor|]. intros H. inversion H. reflexivity.
    + split; [intros H; injection H as <-; destruct b; [apply (means_bool_bool true)|apply (means_bool_bool false)]|].
      intros H. inversion H. destruct b; reflexivity.
    + destruct (Z.eqb_spec z 0) as [->|Hz]; cbn [negb Z.b2z]; split; intros H.
      * injection H as <-. constructor.
      * inversion H; subst; [congruence|reflexivity].
      * injection H as <-. constructor. auto.
      * inversion H; subst; [reflexivity|congruence].
  - destruct v as [|b|z| | | |]; cbn [to_cpp]; try (split; intros H; [discriminate|inversion H]);
      rewrite Hint, unsigned_range; split.
    + intros [-> H]. apply (means_uns_bool w b); auto; destruct b; reflexivity.
    + intros H. inversion H; subst. destruct b; split; auto.
    + intros [-> H]. constructor. auto.
    + intros H. inversion H; subst. auto.
  - assert (1 <= w) by (cbn in Hw; lia).
    destruct v as [|b|z| | | |]; cbn [to_cpp]; try (split; intros H0; [discriminate|inversion H0]);
      rewrite Hint, !signed_range by auto; split.
    + intros [-> H0]. apply (means_sig_bool w b); auto; destruct b; reflexivity.
    + intros H0. inversion H0; subst. destruct b; split; auto.
    + intros [-> H0]. constructor. auto.
    + intros H0. inversion H0; subst. auto.
  - assert (Hwt : wf_ty t) by (cbn in Hw; tauto). clear Hw.
    destruct v as [| | | |vs| |]; try (split; intros H; [discriminate|inversion H]). rewrite to_cpp_array.
    assert (Hall : forall vs cs, convert_all t vs = Some cs <-> Forall2 (means t) vs cs).
    { clear vs c. induction vs as [|v vs IH]; intros cs; cbn [convert_all].
      - split; [intros H; injection H as <-; constructor|]. intros H. inversion H. reflexivity.
      - split.
        + destruct (to_cpp t v) as [c|] eqn:Ec; [|discriminate]. destruct (convert_all t vs) as [cs'|] eqn:Es; [|discriminate].
          intros H. injection H as <-. constructor; [apply IHt; auto|apply IH; auto].
        + intros H. inversion H as [|? c ? cs' H1 H2]; subst. apply (IHt v c Hwt) in H1. apply IH in H2. rewrite H1, H2. reflexivity. }
    destruct (Nat.eqb_spec (length vs) n) as [<-|Hne].
    + split.
      * destruct (convert_all t vs) as [cs|] eqn:E; [|discriminate]. intros H. injection H as <-. constructor. apply Hall. auto.
      * intros H. inversion H; subst. match goal with H : Forall2 _ _ _ |- _ => apply Hall in H; rewrite H end. reflexivity.
    + split; [discriminate|]. intros H. inversion H. congruence.
  - destruct v as [| | | | |u x|]; try (split; intros H0; [discriminate|inversion H0]). cbn [to_cpp].
    destruct (ty_eqb (TUser s fs) u) eqn:E.
    + apply ty_eqb_eq in E. subst u. split; [intros H0; injection H0 as <-; constructor|]. intros H0. inversion H0. reflexivity.
    + split; [discriminate|]. intros H0. inversion H0; subst. rewrite ty_eqb_refl in E. discriminate.
Qed.

Example C49_accepted_example :
  means (TArr TBool 3) (PyList [PyInt (-2); PyBool false; PyInt 0]) (VList [VInt 1; VInt 0; VInt 0])
  /\ ~ (exists c, means (TUns 1) (PyInt 256) c) /\ ~ (exists c, means (TUns 1) PyNone c).
Proof.
  split; [|split; intros (c & H); inversion H; subst; vm_compute in *; intuition discriminate].
  apply (means_array TBool [PyInt (-2); PyBool false; PyInt 0]). repeat constructor; try discriminate.
Qed.

Lemma C49_converted_list : forall ts vs cs, Forall wf_ty ts -> Forall py_ok vs -> to_cpp_list ts vs = Some cs ->
  Forall2 has_type ts cs.
Proof.
  induction ts as [|t ts IH]; intros [|v vs] cs Hw Hv H; cbn [to_cpp_list] in H; try discriminate.
  - injection H as <-. auto.
  - destruct (to_cpp t v) eqn:E; [|discriminate]. destruct (to_cpp_list ts vs) eqn:E'; [|discriminate].
    injection H as <-. inversion Hw; inversion Hv; subst. constructor; eauto using C49_converted.
Qed.

(** A C++ value passed to Python and back is unchanged. *)
Theorem C49_conversion : forall t v, wf_ty t -> has_type t v -> py_ok (of_cpp t v) /\ to_cpp t (of_cpp t v) = Some v.
Proof.
  induction t using ty_ind_nested; intros [z|vs] Hw Hv; try contradiction.
  - cbn in Hv. destruct Hv as [-> | ->]; cbn; auto.
  - split; [exact I|]. cbn [of_cpp to_cpp]. rewrite unsigned_range. cbn [has_type] in Hv.
    destruct (Z.leb_spec 0 z), (Z.ltb_spec z (space w)); cbn; auto; lia.
  - split; [exact I|]. cbn [of_cpp to_cpp]. cbn [has_type] in Hv. rewrite signed_range by (cbn in Hw; lia).
    destruct (Z.leb_spec (- half w) z), (Z.ltb_spec z (half w)); cbn; auto; lia.
  - cbn [has_type] in Hv. destruct Hv as [Hl Hvs]. cbn [of_cpp]. assert (Hwt : wf_ty t) by (cbn in Hw; tauto).
    rewrite py_ok_list, to_cpp_array, map_length, Hl, Nat.eqb_refl.
    assert (G : Forall py_ok (map (of_cpp t) vs) /\ convert_all t (map (of_cpp t) vs) = Some vs).
    { clear Hl. induction Hvs as [|v vs Hv Hvs IH]; cbn [map convert_all]; auto.
      destruct IH as [G1 G2]. destruct (IHt v Hwt Hv) as [G3 G4]. rewrite G4, G2. auto. }
    destruct G as [G1 G2]. rewrite G2. auto.
  - cbn [of_cpp py_ok]. split; [exact Hv|]. cbn [to_cpp]. rewrite ty_eqb_refl. reflexivity.
Qed.

Lemma C49_conversion_list : forall ts vs, Forall wf_ty ts -> Forall2 has_type ts vs ->
  to_cpp_list ts (of_cpp_list ts vs) = Some vs.
Proof.
  intros ts vs Hw H. induction H; cbn [of_cpp_list to_cpp_list]; auto. inversion Hw; subst.
  destruct (C49_conversion x y) as [_ ->]; auto. rewrite IHForall2; auto.
Qed.

(** ** C49: encode *)

(** The request of a key. *)
Definition key_request (k : key) (args : list val) : list Z :=
  request (k_e k) (k_m k) (k_index_size k) (k_index k) (sig_params (k_sig k)) args.

(** A key whose index and parameters are handled by the host. *)
Definition key_ok (p : platform) (k : key) : Prop :=
  1 <= k_index_size k <= 8 /\ (Z.of_nat (k_index k) < space (k_index_size k))%Z
  /\ sig_ok p (k_e k) (k_m k) (k_sig k).

(** The keys of a keyring are. *)
Lemma keyring_key_ok : forall (X : Type) p (kr : keyring X) name f k,
  keyring_ok p kr -> In (name, f) (kr_funcs kr) -> kr_get kr name f = Some k -> key_ok p k.
Proof.
  intros X p kr name f k [Hl Hsigs] Hin Hk. destruct (kr_get_nth X kr name f k Hk Hin) as (Hi & _ & Ek).
  assert (Hlt : k_index k < length (kr_funcs kr)) by (apply nth_error_Some; congruence).
  destruct (index_size X kr Hl) as (Hw & Hsp & _). rewrite Ek. unfold key_ok. cbn [k_index_size k_index k_sig k_e k_m].
  split; [exact Hw|]. split; [lia|]. rewrite Forall_forall in Hsigs. apply (Hsigs (name, f) Hin).
Qed.

Lemma push_array_overflow : forall bs mem i, i <= length mem -> length mem < i + length bs ->
  push array_destination bs (mem, i) = Fault OutOfBounds.
Proof.
  induction bs as [|b bs IH]; intros mem i Hi H; cbn [push length] in *; [lia|].
  unfold array_destination at 1, iterator_destination. cbn [fst snd].
  destruct (Nat.eq_dec i (length mem)).
  - rewrite store_oob by lia. reflexivity.
  - rewrite store_ok by lia. cbn [bind fst snd]. apply IH; rewrite splice_length; cbn; lia.
Qed.

Lemma key_write_request : forall (X : Type) p k args (dest : destination X) x,
  wf_platform p -> key_ok p k -> Forall2 (encodable p (k_m k)) (sig_params (k_sig k)) args ->
  key_write p k args dest x = push dest (key_request k args) x.
Proof.
  intros X p k args dest x Hp (Hw & Hi & Hs) Ha. unfold key_write. rewrite write_tuple_ok; auto.
  - constructor; [|apply Hs]. unfold ty_ok. cbn. repeat split; auto; lia.
  - constructor; auto. split; cbn [has_type all_signed]; auto. lia.
Qed.

Lemma key_request_length : forall p k args, Forall2 (encodable p (k_m k)) (sig_params (k_sig k)) args ->
  length (key_request k args) = k_index_size k + wire_sizes (sig_params (k_sig k)).
Proof.
  intros p k args Ha. unfold key_request, request. rewrite app_length, wire_bytes_length, enc_list_length; auto.
  eapply encodable_has; eauto.
Qed.

(** [encode] on arguments which convert: the request followed by what was in
    memory, or undefined behaviour if the array is too small. *)
Theorem C49_encode_outcome : forall p k args cargs garbage,
  wf_platform p -> key_ok p k -> to_cpp_list (sig_params (k_sig k)) args = Some cargs ->
  Forall2 (encodable p (k_m k)) (sig_params (k_sig k)) cargs ->
  py_encode p k args garbage =
    if wire_sizes (sig_params (k_sig k)) <=? native_sizes (k_sig k) then
      Return (PyBytes (key_request k cargs
        ++ skipn (length (key_request k cargs)) (firstn (payload_length k) (garbage ++ repeat 0%Z (payload_length k)))))
    else Undefined OutOfBounds.
Proof.
  intros p k args cargs garbage Hp Hk Hc Ha. unfold py_encode. rewrite Hc.
  rewrite key_write_request by auto. pose proof (key_request_length p k cargs Ha) as Hl.
  assert (Hpl : payload_length k = k_index_size k + native_sizes (k_sig k)).
  { unfold payload_length, native_sizes, parameters_size. rewrite sum17_list_sum. reflexivity. }
  pose proof (local_array_length (payload_length k) garbage) as Hm.
  destruct (Nat.leb_spec (wire_sizes (sig_params (k_sig k))) (native_sizes (k_sig k))) as [Hle|Hgt].
  - rewrite push_array by (rewrite Hm; lia). cbn [fst]. unfold splice. cbn [firstn app Nat.add]. reflexivity.
  - rewrite push_array_overflow by (rewrite ?Hm; lia). reflexivity.
Qed.

(** [encode] returns the request, whatever was in memory, exactly when the
    parameters are as large in memory as on the wire. *)
Theorem C49_encode : forall p k args cargs,
  wf_platform p -> key_ok p k -> to_cpp_list (sig_params (k_sig k)) args = Some cargs ->
  Forall2 (encodable p (k_m k)) (sig_params (k_sig k)) cargs ->
  ((forall garbage, py_encode p k args garbage = Return (PyBytes (key_request k cargs)))
   <-> native_sizes (k_sig k) = wire_sizes (sig_params (k_sig k))).
Proof.
  intros p k args cargs Hp Hk Hc Ha. pose proof (key_request_length p k cargs Ha) as Hl.
  assert (Hpl : payload_length k = k_index_size k + native_sizes (k_sig k)).
  { unfold payload_length, native_sizes, parameters_size. rewrite sum17_list_sum. reflexivity. }
  split.
  - intros H. specialize (H []). rewrite (C49_encode_outcome p k args cargs) in H by auto.
    destruct (Nat.leb_spec (wire_sizes (sig_params (k_sig k))) (native_sizes (k_sig k))) as [Hle|]; [|discriminate].
    assert (E : length (key_request k cargs
        ++ skipn (length (key_request k cargs)) (firstn (payload_length k) ([] ++ repeat 0%Z (payload_length k))))
        = length (key_request k cargs)) by congruence.
    rewrite app_length, skipn_length, local_array_length in E. lia.
  - intros E garbage. rewrite (C49_encode_outcome p k args cargs) by auto. rewrite E, Nat.leb_refl.
    rewrite skipn_all2 by (rewrite local_array_length; lia). rewrite app_nil_r. reflexivity.
Qed.

(** Integers, booleans and arrays of them are: [encode] is exact for keys
    without user types. *)
Fixpoint plain (t : ty) : Prop :=
  match t with
  | TBool | TUns _ | TSig _ => True
  | TArr t _ => plain t
  | TUser _ _ => False
  end.

Lemma plain_size : forall t, wf_ty t -> plain t -> sizeof t = wire_size t.
Proof.
  induction t; cbn [plain wf_ty]; intros Hw H; auto; try contradiction. rewrite sizeof_arr by tauto.
  cbn [wire_size]. rewrite IHt by tauto. reflexivity.
Qed.

Theorem C49_encode_plain_partial : forall p k args cargs garbage,
  wf_platform p -> key_ok p k -> Forall plain (sig_params (k_sig k)) ->
  to_cpp_list (sig_params (k_sig k)) args = Some cargs ->
  Forall2 (encodable p (k_m k)) (sig_params (k_sig k)) cargs ->
  py_encode p k args garbage = Return (PyBytes (key_request k cargs)).
Proof.
  intros p k args cargs garbage Hp Hk Hpl Hc Ha. apply (proj2 (C49_encode p k args cargs Hp Hk Hc Ha)).
  unfold native_sizes, wire_sizes. f_equal. apply map_ext_in. intros t Ht.
  rewrite Forall_forall in Hpl. apply plain_size; auto.
  assert (Hok : Forall (ty_ok p (k_e k) (k_m k)) (sig_params (k_sig k))) by apply Hk.
  rewrite Forall_forall in Hok. apply Hok. exact Ht.
Qed.

(** Otherwise, uninitialised bytes follow the request: a structure of an 8 bit
    and a 16 bit integer has one byte of padding. *)
Definition ex_pair : pyval := PyInstance (TUser 4 [TUns 1; TSig 2]) (VList [VInt 1; VInt (-2)]).
Theorem C49_encode_refuted : exists p k args cargs garbage,
  wf_platform p /\ key_ok p k /\ to_cpp_list (sig_params (k_sig k)) args = Some cargs
  /\ Forall2 (encodable p (k_m k)) (sig_params (k_sig k)) cargs
  /\ key_request k cargs = [2; 1; 255; 254]%Z
  /\ py_encode p k args garbage = Return (PyBytes [2; 1; 255; 254; 99]%Z).
Proof.
  exists pc_native, ex_key_swap, [ex_pair], [VList [VInt 1; VInt (-2)]], (repeat 99%Z 5).
  split; [apply pc_native_wf|]. split.
  { eapply keyring_key_ok with (kr := ex_keyring) (name := 30) (f := ex_swap); [exact ex_keyring_ok| |reflexivity].
    cbn. auto. }
  split; [reflexivity|]. split; [encs|]. split; vm_compute; reflexivity.
Qed.

(** Arguments which do not convert: [encode] raises [TypeError]; in particular
    an integer which does not fit is not truncated, and the number of arguments
    is checked. *)
Theorem C49_encode_rejects : forall p k args garbage,
  (length args <> length (sig_params (k_sig k))
   \/ (exists i w z, nth_error (sig_params (k_sig k)) i = Some (TUns w) /\ nth_error args i = Some (PyInt z)
        /\ ~ (0 <= z < space w)%Z)
   \/ (exists i w z, 1 <= w /\ nth_error (sig_params (k_sig k)) i = Some (TSig w) /\ nth_error args i = Some (PyInt z)
        /\ ~ (- half w <= z < half w)%Z)) ->
  py_encode p k args garbage = Raise TypeError.
Proof.
  intros p k args garbage H. unfold py_encode.
  assert (G : to_cpp_list (sig_params (k_sig k)) args = None); [|rewrite G; reflexivity].
  revert args H. generalize (sig_params (k_sig k)) as ts.
  assert (N : forall ts args i t v, nth_error ts i = Some t -> nth_error args i = Some v -> to_cpp t v = None ->
              to_cpp_list ts args = None).
  { induction ts as [|t ts IH]; intros [|a args] [|i] u v H1 H2 H3; cbn [nth_error to_cpp_list] in *; try discriminate.
    - injection H1 as ->. injection H2 as ->. rewrite H3. reflexivity.
    - rewrite (IH args i u v); auto. destruct (to_cpp t a); reflexivity. }
  intros ts args [H|[(i & w & z & H1 & H2 & H3)|(i & w & z & Hw & H1 & H2 & H3)]].
  - clear N. revert args H. induction ts as [|t ts IH]; intros [|a args] H; cbn [length to_cpp_list] in *; auto; try lia.
    rewrite IH by lia. destruct (to_cpp t a); reflexivity.
  - eapply N; eauto. cbn [to_cpp]. rewrite unsigned_range.
    destruct (Z.leb_spec 0 z), (Z.ltb_spec z (space w)); cbn; auto. lia.
  - eapply N; eauto. cbn [to_cpp]. rewrite signed_range by auto.
    destruct (Z.leb_spec (- half w) z), (Z.ltb_spec z (half w)); cbn; auto. lia.
Qed.

Example C49_encode_example :
  key_ok pc_native ex_key_add
  /\ py_encode pc_native ex_key_add [PyInt (-2); PyInt 5] [] = Return (PyBytes [0; 255; 254; 5]%Z)
  /\ py_encode pc_native ex_key_add [PyInt (-2); PyInt 256] [] = Raise TypeError
  /\ py_encode pc_native ex_key_add [PyInt 1] [] = Raise TypeError.
Proof.
  split; [|split; [|split]; vm_compute; reflexivity].
  eapply keyring_key_ok with (kr := ex_keyring) (name := 10) (f := ex_add); [exact ex_keyring_ok| |reflexivity].
  cbn. auto.
Qed.

(** ** C49: decode *)

(** The Python object made of a result. *)
Definition py_result (ret : option ty) (r : val) : pyval :=
  match ret with
  | None => PyNone
  | Some t => of_cpp t r
  end.

Lemma decode_source_byte : forall b bs o, is_byte b ->
  decode_source (mk_pyiter (PyInt b :: bs) o) = Ok (mk_pyiter bs (Some (PyInt b)), b).
Proof.
  intros b bs o H. unfold decode_source, py_advance, py_deref. cbn [it_rest it_value].
  assert (E : to_cpp (TUns 1) (PyInt b) = Some (VInt b)); [|rewrite E; reflexivity].
  apply (proj2 (C49_conversion (TUns 1) (VInt b) ltac:(cbn; lia) (proj1 (is_byte_space b) H))).
Qed.

Lemma decode_source_empty : forall o, decode_source (mk_pyiter [] o) = Fault NoInput.
Proof. reflexivity. Qed.

(** The byte getter of [decode] gives the bytes in order, and then fails. *)
Lemma pull_decode : forall n bs o, Forall is_byte bs ->
  pull decode_source n (mk_pyiter (map PyInt bs) o) =
  if n <=? length bs then
    Ok (mk_pyiter (map PyInt (skipn n bs)) (match n with 0 => o | S m => option_map PyInt (nth_error bs m) end), firstn n bs)
  else Fault NoInput.
Proof.
  induction n as [|n IH]; intros bs o H; cbn [pull]; [reflexivity|].
  destruct H as [|b bs Hb Hbs]; cbn [map length]; [reflexivity|].
  rewrite decode_source_byte by auto. cbn [bind]. rewrite IH by auto. change (S n <=? S (length bs)) with (n <=? length bs).
  destruct (Nat.leb_spec n (length bs)); cbn [bind]; auto.
  cbn [skipn firstn]. do 3 f_equal. destruct n; reflexivity.
Qed.

Lemma pull_wire : forall n bs out (s : unit),
  pull take_wire n (mk_wires bs out s) =
  if n <=? length bs then Ok (mk_wires (skipn n bs) out s, firstn n bs) else Fault NoInput.
Proof.
  induction n as [|n IH]; intros bs out s; cbn [pull]; [reflexivity|].
  destruct bs as [|b bs]; [reflexivity|]. unfold take_wire at 1. cbn [w_in w_out w_user bind]. rewrite IH.
  change (S n <=? length (b :: bs)) with (n <=? length bs). destruct (n <=? length bs); reflexivity.
Qed.

(** [decode] returns what the C++ key reads from the same bytes, and fails the
    same way. *)
Theorem C49_decode_same : forall p k bs,
  wf_platform p -> ret_ty_ok p (k_e k) (k_m k) (sig_ret (k_sig k)) -> Forall is_byte bs ->
  py_decode p k (PyBytes bs) =
  match key_read p k take_wire (mk_wires bs [] tt) with
  | Ok (_, Some r) => Return (py_result (sig_ret (k_sig k)) r)
  | Ok (_, None) => Return PyNone
  | Fault NoInput => Raise CastError
  | Fault f => Undefined f
  end.
Proof.
  intros p k bs Hp Hr Hb. unfold py_decode. cbn [py_begin]. unfold key_read.
  destruct (sig_ret (k_sig k)) as [t|]; [|reflexivity]. cbn [ret_ty_ok] in Hr.
  rewrite !read_tuple_ok by auto. rewrite pull_decode, pull_wire by auto.
  destruct (wire_sizes [t] <=? length bs); [|reflexivity]. cbn [bind].
  destruct (get p (tuple_at (k_e k) (k_m k) [t] 0) 0 (firstn (wire_sizes [t]) bs)) as [v|[]]; reflexivity.
Qed.

(** The response of a callback is decoded to its result; what follows is
    ignored. *)
Theorem C49_decode : forall p k r rest,
  wf_platform p -> ret_ty_ok p (k_e k) (k_m k) (sig_ret (k_sig k)) -> ret_encodable p (k_m k) (sig_ret (k_sig k)) r ->
  Forall is_byte rest ->
  py_decode p k (PyBytes (response (k_e k) (k_m k) (sig_ret (k_sig k)) r ++ rest))
  = Return (py_result (sig_ret (k_sig k)) r).
Proof.
  intros p k r rest Hp Hr He Hrest.
  assert (Hb : Forall is_byte (response (k_e k) (k_m k) (sig_ret (k_sig k)) r)).
  { unfold response. destruct (sig_ret (k_sig k)); [apply enc_bytes|constructor]. }
  rewrite C49_decode_same by (auto; apply Forall_app; auto).
  assert (Hl : length (response (k_e k) (k_m k) (sig_ret (k_sig k)) r) = wire_size_ret (sig_ret (k_sig k))).
  { unfold response, wire_size_ret. destruct (sig_ret (k_sig k)); auto. apply enc_length. apply He. }
  rewrite (C28_returns _ p k take_wire _ (mk_wires rest [] tt) r); auto.
  - destruct (sig_ret (k_sig k)); reflexivity.
  - rewrite pull_wire, app_length, Hl.
    destruct (Nat.leb_spec (wire_size_ret (sig_ret (k_sig k))) (wire_size_ret (sig_ret (k_sig k)) + length rest)); [|lia].
    rewrite <- Hl, firstn_app_exact, skipn_app_exact. reflexivity.
Qed.

(** A truncated response is an error, never a value. *)
Theorem C49_decode_truncated : forall p k bs,
  wf_platform p -> ret_ty_ok p (k_e k) (k_m k) (sig_ret (k_sig k)) -> Forall is_byte bs ->
  length bs < wire_size_ret (sig_ret (k_sig k)) ->
  py_decode p k (PyBytes bs) = Raise CastError.
Proof.
  intros p k bs Hp Hr Hb Hl. rewrite C49_decode_same by auto. unfold key_read.
  destruct (sig_ret (k_sig k)) as [t|]; cbn [wire_size_ret ret_ty_ok] in *; [|lia].
  rewrite read_tuple_ok by auto. rewrite pull_wire. replace (wire_sizes [t]) with (wire_size t) by (cbn; lia).
  destruct (Nat.leb_spec (wire_size t) (length bs)); [lia|]. reflexivity.
Qed.

Example C49_decode_example :
  py_decode pc_native ex_key_add (PyBytes [255; 255; 255; 251; 77]%Z) = Return (PyInt (-5))
  /\ py_decode pc_native ex_key_swap (PyBytes [7; 9]%Z) = Return (PyList [PyInt 7; PyInt 9])
  /\ py_decode pc_native ex_key_notify (PyBytes []) = Return PyNone
  /\ py_decode pc_native ex_key_add (PyBytes [255; 255; 255]%Z) = Raise CastError.
Proof. repeat split; vm_compute; reflexivity. Qed.

(** ** C49: the round trip *)

(** A request encoded in Python on the host [p] is resolved by a dispatcher of
    the host [q], in any state it can be in between two packets, and the bytes
    it writes are decoded to the result of the callback. *)
Theorem C49_round_trip : forall (X : Type) p q (kr : keyring X) name f0 k b a (x : X) args cargs payload garbage
    src (dest : destination X) f x1 x2 x3 r,
  wf_platform p -> wf_platform q -> keyring_ok p kr -> keyring_ok q kr -> well_sized true kr ANY ->
  In (name, f0) (kr_funcs kr) -> kr_get kr name f0 = Some k ->
  native_sizes (k_sig k) = wire_sizes (sig_params (k_sig k)) ->
  to_cpp_list (sig_params (k_sig k)) args = Some cargs -> Forall2 (encodable p (k_m k)) (sig_params (k_sig k)) cargs ->
  py_encode p k args garbage = Return (PyBytes payload) ->
  reached q true kr ANY b a x -> mc_in a = [] ->
  nth_error (mc_table a) (k_index k) = Some f ->
  pull src (length payload) x = Ok (x1, payload) ->
  calls q kr f cargs x1 x2 r -> ret_encodable p (k_m k) (sig_ret (k_sig k)) r ->
  push dest (response (k_e k) (k_m k) (sig_ret (k_sig k)) r) x2 = Ok x3 ->
  exists b1 b2,
    read_from q src b x = Ok (b1, x2, RESOLVED_PACKET)
    /\ write_to dest b1 x2 = Ok (b2, x3)
    /\ reached q true kr ANY b2 (mk_machine [] [] (mc_table a)) x3
    /\ py_decode p k (PyBytes (response (k_e k) (k_m k) (sig_ret (k_sig k)) r)) = Return (py_result (sig_ret (k_sig k)) r).
Proof.
  intros X p q kr name f0 k b a x args cargs payload garbage src dest f x1 x2 x3 r
    Hp Hq Hkp Hkq Hws Hin Hget Hnat Hc Ha Henc Hb Hbin Hf Hpull Hcalls Hre Hpush.
  pose proof (keyring_key_ok X p kr name f0 k Hkp Hin Hget) as Hk.
  pose proof (proj2 (C49_encode p k args cargs Hp Hk Hc Ha) Hnat garbage) as E. rewrite Henc in E.
  assert (E' : payload = key_request k cargs) by congruence. clear E Henc.
  destruct (kr_get_nth X kr name f0 k Hget Hin) as (Hi & _ & Ek).
  pose proof (reached_table q true kr ANY Hq Hkq Hws b a x Hb) as Ht.
  assert (Hsig : f_sig f = k_sig k).
  { assert (H1 : nth_error (map f_sig (mc_table a)) (k_index k) = Some (f_sig f)) by (rewrite nth_error_map, Hf; reflexivity).
    rewrite Ht in H1. unfold kr_signatures in H1. rewrite nth_error_map, Hi in H1. cbn in H1.
    rewrite Ek. cbn [k_sig]. congruence. }
  assert (Epk : packet kr (k_index k) f cargs = payload).
  { rewrite E'. unfold packet, key_request. rewrite Hsig. rewrite Ek at 3 4 5 6. reflexivity. }
  assert (Hans : answer kr f r = response (k_e k) (k_m k) (sig_ret (k_sig k)) r).
  { unfold answer. rewrite Hsig. rewrite Ek at 2 3. reflexivity. }
  assert (Hlen : 0 < length (packet kr (k_index k) f cargs)).
  { rewrite Epk, E', (key_request_length p) by auto. destruct Hk. lia. }
  destruct (C39_resolved X q true kr ANY b a x src (k_index k) f cargs 0 x1 x2 r Hq Hkq Hws Hb (or_introl eq_refl) Hf Hcalls
              Hlen Hbin) as (b1 & E1 & H1).
  { rewrite Epk, Nat.sub_0_r. cbn [skipn]. exact Hpull. }
  pose proof (reached_write q true kr ANY Hq Hkq Hws b1 _ x2 dest H1) as Hw. cbn [mc_out mc_in mc_table] in Hw.
  rewrite Hans, Hpush in Hw. destruct Hw as (b2 & E2 & H2).
  exists b1, b2. repeat split; auto.
  rewrite <- (app_nil_r (response _ _ _ _)). apply C49_decode; auto. destruct Hk as (_ & _ & Hs). apply Hs.
Qed.

(** ** C50 *)

(** [new_request] is called on exactly the request; a [bytes] response is
    decoded, here the response of a callback. *)
Theorem C50_call : forall (S : Type) p k args cargs garbage new_request (s s' : S) r rest,
  wf_platform p -> key_ok p k -> native_sizes (k_sig k) = wire_sizes (sig_params (k_sig k)) ->
  to_cpp_list (sig_params (k_sig k)) args = Some cargs -> Forall2 (encodable p (k_m k)) (sig_params (k_sig k)) cargs ->
  ret_encodable p (k_m k) (sig_ret (k_sig k)) r -> Forall is_byte rest ->
  new_request (PyBytes (key_request k cargs)) s
  = Return (s', PyBytes (response (k_e k) (k_m k) (sig_ret (k_sig k)) r ++ rest)) ->
  py_call p new_request k args garbage s = Return (s', py_result (sig_ret (k_sig k)) r).
Proof.
  intros S p k args cargs garbage nr s s' r rest Hp Hk Hn Hc Ha Hr Hrest H. unfold py_call.
  rewrite (proj2 (C49_encode p k args cargs Hp Hk Hc Ha) Hn garbage), H.
  rewrite C49_decode; auto. destruct Hk as (_ & _ & Hs). apply Hs.
Qed.

(** Whatever [encode] returns is what [new_request] is called on.  Any [bytes]
    response is decoded as [decode] does, any other object is returned as it is,
    an exception of [new_request] propagates, and a truncated response is an
    error. *)
Theorem C50_responses : forall (S : Type) p k args garbage payload new_request (s : S),
  wf_platform p -> key_ok p k -> py_encode p k args garbage = Return payload ->
  (forall s' bs v, new_request payload s = Return (s', PyBytes bs) -> py_decode p k (PyBytes bs) = Return v ->
     py_call p new_request k args garbage s = Return (s', v))
  /\ (forall s' v, new_request payload s = Return (s', v) -> (forall bs, v <> PyBytes bs) ->
     py_call p new_request k args garbage s = Return (s', v))
  /\ (forall e, new_request payload s = Raise e -> py_call p new_request k args garbage s = Raise e)
  /\ (forall s' bs, new_request payload s = Return (s', PyBytes bs) -> Forall is_byte bs ->
        length bs < wire_size_ret (sig_ret (k_sig k)) ->
        py_call p new_request k args garbage s = Raise CastError).
Proof.
  intros S p k args garbage payload nr s Hp Hk E. unfold py_call. rewrite E. split; [|split; [|split]].
  - intros s' bs v -> ->. reflexivity.
  - intros s' v -> Hv. destruct v; try reflexivity. destruct (Hv bs eq_refl).
  - intros e ->. reflexivity.
  - intros s' bs -> Hb Hl. rewrite C49_decode_truncated; auto. destruct Hk as (_ & _ & Hs). apply Hs.
Qed.

(** Nothing is sent if the arguments do not convert. *)
Theorem C50_nothing_sent : forall (S : Type) p k args garbage new_request (s : S),
  to_cpp_list (sig_params (k_sig k)) args = None ->
  py_call p new_request k args garbage s = Raise TypeError.
Proof. intros S p k args garbage nr s H. unfold py_call, py_encode. rewrite H. reflexivity. Qed.

(** The base class can not be used: [raise NotImplemented()] raises a
    [TypeError]. *)
Theorem C50_base_class : forall (S : Type) p k args garbage (s : S) s' v,
  py_call p base_new_request k args garbage s <> Return (s', v).
Proof.
  intros S p k args garbage s s' v. unfold py_call, base_new_request. destruct (py_encode p k args garbage); discriminate.
Qed.

(** A client which records the payloads and answers [-5], or [None]. *)
Definition ex_new_request (answer : pyval) (payload : pyval) (s : list pyval) : pyres (list pyval * pyval) :=
  Return (payload :: s, answer).
Example C50_example :
  py_call pc_native (ex_new_request (PyBytes [255; 255; 255; 251]%Z)) ex_key_add [PyInt (-2); PyInt 5] [] []
  = Return ([PyBytes [0; 255; 254; 5]%Z], PyInt (-5))
  /\ py_call pc_native (ex_new_request PyNone) ex_key_add [PyInt (-2); PyInt 5] [] []
     = Return ([PyBytes [0; 255; 254; 5]%Z], PyNone)
  /\ py_call pc_native (ex_new_request PyNone) ex_key_add [PyInt (-2); PyInt 256] [] [] = Raise TypeError.
Proof. repeat split; vm_compute; reflexivity. Qed.

(** ** C51 *)

(** [replace] with a key of the keyring of the dispatcher does what the C++
    [replace] does with the same callback, in any reachable state. *)
Theorem C51_replace : forall (X : Type) p (kr : keyring X) name f0 k b a (x : X) (f : pyfunction),
  wf_platform p -> keyring_ok p kr -> well_sized true kr ANY ->
  In (name, f0) (kr_funcs kr) -> kr_get kr name f0 = Some k -> reached p true kr ANY b a x ->
  let g := py_callback (k_sig k) f in
  exists b',
    py_replace b k f = Ok b'
    /\ replace_buffered b (k_index k) (ByFunctor g) = Some (Ok b')
    /\ reached p true kr ANY b' (mk_machine (mc_in a) (mc_out a) (update (mc_table a) (k_index k) g)) x.
Proof.
  intros X p kr name f0 k b a x f Hp Hk Hs Hin Hget H g.
  destruct (kr_get_nth X kr name f0 k Hget Hin) as (Hi & _ & Ek).
  destruct (keyring_key_ok X p kr name f0 k Hk Hin Hget) as (_ & Hsp & _).
  assert (Hrep : replaceable ANY (kr_signatures kr) (k_index k) (ByFunctor g)).
  { split; [|reflexivity]. unfold kr_signatures. rewrite nth_error_map, Hi. unfold g.
    cbn [option_map snd replacing py_callback f_sig]. rewrite Ek. reflexivity. }
  destruct (reached_step p true kr ANY Hp Hk Hs (Replace (k_index k) (ByFunctor g)) b a x
              (mc_replace (k_index k) g a) x ONone H) as (b' & E & H').
  { split; [exact Hrep|left; reflexivity]. }
  { reflexivity. }
  exists b'. cbn [step] in E.
  destruct (replace_buffered b (k_index k) (ByFunctor g)) as [[b1|]|] eqn:E1; cbn [bind] in E; try discriminate.
  assert (b1 = b') by congruence. subst b1. split; [|split; [reflexivity|exact H']].
  destruct (reached_represents p true kr ANY Hp Hk Hs b a x H) as (ni & no & _ & _ & (Hkr & Hft & _) & _).
  unfold py_replace, py_index, index_length. rewrite Hkr.
  assert (Hz : Z.to_nat (Z.of_nat (k_index k) mod 2 ^ (8 * Z.of_nat (kr_index_size kr))) = k_index k).
  { rewrite unsigned_range. replace (kr_index_size kr) with (k_index_size k) by (rewrite Ek; reflexivity).
    rewrite Z.mod_small by lia. apply Nat2Z.id. }
  rewrite Hz. unfold replace_buffered, replace in E1. rewrite Hkr, Hft in E1.
  destruct (at17 (kr_signatures kr) (k_index k)) as [sg|]; [|discriminate].
  destruct ((k_index k <? d_size (b_dispatcher b)) && sig_eqb sg (f_sig g)); [|discriminate].
  unfold assign_buffered, py_make_action.
  replace (mk_model (k_e k) (k_m k) (py_callback (k_sig k) f)) with (mk_model (kr_e kr) (kr_m kr) g)
    by (unfold g; f_equal; rewrite Ek; reflexivity).
  destruct (assign_action (b_dispatcher b) (k_index k) (Storage (Some (mk_model (kr_e kr) (kr_m kr) g)))); cbn [bind] in *;
    congruence.
Qed.

(** The requests of this key call the Python function, on the arguments
    converted to Python, and the response is its result; the callbacks of the
    other keys, the bytes received and the response to be sent are unchanged. *)
Theorem C51_calls : forall (X : Type) p (kr : keyring X) name f0 k b a (x : X) (f : pyfunction) cargs src x1 x2 pr r,
  wf_platform p -> keyring_ok p kr -> well_sized true kr ANY ->
  In (name, f0) (kr_funcs kr) -> kr_get kr name f0 = Some k -> reached p true kr ANY b a x -> mc_in a = [] ->
  Forall2 (encodable p (k_m k)) (sig_params (k_sig k)) cargs ->
  pull src (length (key_request k cargs)) x = Ok (x1, key_request k cargs) ->
  f (of_cpp_list (sig_params (k_sig k)) cargs) x1 = (x2, pr) ->
  match sig_ret (k_sig k) with Some t => to_cpp t pr = Some r | None => True end ->
  ret_encodable p (k_m k) (sig_ret (k_sig k)) r ->
  exists b1 b2,
    py_replace b k f = Ok b1
    /\ read_from p src b1 x = Ok (b2, x2, RESOLVED_PACKET)
    /\ reached p true kr ANY b2
         (mk_machine [] (response (k_e k) (k_m k) (sig_ret (k_sig k)) r)
            (update (mc_table a) (k_index k) (py_callback (k_sig k) f))) x2.
Proof.
  intros X p kr name f0 k b a x f cargs src x1 x2 pr r Hp Hk Hs Hin Hget H Hbin Ha Hpull Hf Hconv Hr.
  destruct (C51_replace X p kr name f0 k b a x f Hp Hk Hs Hin Hget H) as (b1 & E1 & _ & H1).
  set (g := py_callback (k_sig k) f) in *.
  destruct (kr_get_nth X kr name f0 k Hget Hin) as (Hi & _ & Ek).
  pose proof (reached_table p true kr ANY Hp Hk Hs b a x H) as Ht.
  assert (Hlt : k_index k < length (mc_table a)).
  { rewrite <- (map_length f_sig), Ht. unfold kr_signatures. rewrite map_length. apply nth_error_Some. congruence. }
  assert (Hg : nth_error (update (mc_table a) (k_index k) g) (k_index k) = Some g).
  { clear - Hlt. revert Hlt. generalize (k_index k). induction (mc_table a) as [|h l IH]; intros [|n] Hl; cbn in *;
      try lia; auto. apply IH. lia. }
  assert (Epk : packet kr (k_index k) g cargs = key_request k cargs).
  { unfold packet, key_request. cbn [g py_callback f_sig]. rewrite Ek at 3 4 5. reflexivity. }
  assert (Hlen : 0 < length (packet kr (k_index k) g cargs)).
  { rewrite Epk, (key_request_length p) by auto. pose proof (keyring_key_ok X p kr name f0 k Hk Hin Hget) as (Hw & _). lia. }
  assert (Em : k_m k = kr_m kr) by (rewrite Ek; reflexivity). assert (Ee : k_e k = kr_e kr) by (rewrite Ek; reflexivity).
  set (r' := snd (f_call g cargs x1)).
  assert (Hcall : f_call g cargs x1 = (x2, r')).
  { unfold r', g, py_callback. cbn [f_call]. rewrite Hf. reflexivity. }
  assert (Hresp : response (k_e k) (k_m k) (sig_ret (k_sig k)) r' = response (k_e k) (k_m k) (sig_ret (k_sig k)) r
                  /\ ret_encodable p (k_m k) (sig_ret (k_sig k)) r').
  { unfold r', g, py_callback. cbn [f_call]. rewrite Hf. cbn [snd]. unfold response, ret_encodable in *.
    destruct (sig_ret (k_sig k)); auto. rewrite Hconv. auto. }
  destruct Hresp as [Hresp Hre].
  destruct (C39_resolved X p true kr ANY b1 _ x src (k_index k) g cargs 0 x1 x2 r' Hp Hk Hs H1 (or_introl eq_refl) Hg)
    as (b2 & E2 & H2).
  { split; [rewrite <- Em; exact Ha|]. split; [exact Hcall|]. rewrite <- Em. exact Hre. }
  { exact Hlen. }
  { exact Hbin. }
  { rewrite Epk, Nat.sub_0_r. cbn [skipn]. exact Hpull. }
  exists b1, b2. split; auto. split; auto. unfold answer in H2. cbn [mc_table] in H2.
  change (f_sig g) with (k_sig k) in H2. rewrite <- Em, <- Ee, Hresp in H2. exact H2.
Qed.

(** The framing does not change: the statuses, and the number of bytes to send,
    of any later history are those of the history without the replacement. *)
Theorem C51_framing : forall (X : Type) p (kr : keyring X) name f0 k b a (x : X) (f : pyfunction) ops,
  wf_platform p -> keyring_ok p kr -> well_sized true kr ANY ->
  In (name, f0) (kr_funcs kr) -> kr_get kr name f0 = Some k -> reached p true kr ANY b a x ->
  Forall (fun o => local o = true /\ replaces o = false) ops ->
  along (format_of kr) (legitimate p true kr ANY) ops
    (mk_machine (mc_in a) (mc_out a) (update (mc_table a) (k_index k) (py_callback (k_sig k) f))) x ->
  along (format_of kr) (legitimate p true kr ANY) ops a x ->
  exists b' b1 x1 vs1 b2 x2 vs2,
    py_replace b k f = Ok b'
    /\ run_ops p ops b' x = Ok (b1, x1, vs1)
    /\ run_ops p ops b x = Ok (b2, x2, vs2)
    /\ map shape (filter is_visible vs1) = map shape (filter is_visible vs2).
Proof.
  intros X p kr name f0 k b a x f ops Hp Hk Hs Hin Hget H Hops Hal1 Hal2.
  destruct (C51_replace X p kr name f0 k b a x f Hp Hk Hs Hin Hget H) as (b' & E & Er & H').
  set (g := py_callback (k_sig k) f) in *.
  assert (Hf : filter (fun o => negb (replaces o)) (Replace (k_index k) (ByFunctor g) :: ops) = ops).
  { cbn [filter replaces negb]. clear - Hops. induction Hops as [|o ops [_ Ho] _ IH]; cbn [filter]; auto.
    rewrite Ho. cbn [negb]. rewrite IH. reflexivity. }
  destruct (kr_get_nth X kr name f0 k Hget Hin) as (Hi & _ & Ek).
  destruct (C46_framing X p true kr ANY b a x (Replace (k_index k) (ByFunctor g) :: ops) Hp Hk Hs H)
    as (b1 & x1 & vs1 & b2 & x2 & vs2 & R1 & R2 & R3).
  { constructor; [reflexivity|]. eapply Forall_impl; [|exact Hops]. intros o [Ho _]. exact Ho. }
  { cbn [along]. split.
    - split; [|left; reflexivity]. split; [|reflexivity]. unfold kr_signatures. rewrite nth_error_map, Hi. unfold g.
      cbn [option_map snd replacing py_callback f_sig]. rewrite Ek. reflexivity.
    - intros a1 y v E1. cbn [mc_step] in E1. assert (a1 = mc_replace (k_index k) g a) by (cbn [replacing] in E1; congruence).
      assert (y = x) by congruence. subst a1 y. exact Hal1. }
  { rewrite Hf. exact Hal2. }
  rewrite Hf in R2. cbn [run_ops step] in R1. rewrite Er in R1. cbn [bind] in R1. ok_inv R1 q. destruct q as [[c y] vs].
  exists b', c, y, vs, b2, x2, vs2. split; auto. split; auto. split; auto.
  assert (vs1 = ONone :: vs) by congruence. subst vs1. exact R3.
Qed.

(** With a key of another keyring nothing is checked: the action assigned is
    the one at the index of the key, truncated to the type of the indices of the
    dispatcher; past the last action, the write is out of bounds. *)
Theorem C51_foreign_key : forall (X : Type) p (kr : keyring X) k b a (x : X) (f : pyfunction),
  wf_platform p -> keyring_ok p kr -> well_sized true kr ANY -> reached p true kr ANY b a x ->
  let j := Z.to_nat (Z.of_nat (k_index k) mod space (kr_index_size kr)) in
  if j <? length (kr_funcs kr) then
    exists b', py_replace b k f = Ok b'
      /\ nth_error (d_actions (b_dispatcher b')) j = Some (Storage (Some (mk_model (k_e k) (k_m k) (py_callback (k_sig k) f))))
      /\ (forall i, i <> j -> nth_error (d_actions (b_dispatcher b')) i = nth_error (d_actions (b_dispatcher b)) i)
  else py_replace b k f = Fault OutOfBounds.
Proof.
  intros X p kr k b a x f Hp Hk Hs H j.
  destruct (reached_represents p true kr ANY Hp Hk Hs b a x H) as (ni & no & _ & _ & (Hkr & Hft & Hact & Hsig) & _).
  assert (Hl : length (d_actions (b_dispatcher b)) = length (kr_funcs kr)).
  { rewrite Hact, map_length, <- (map_length f_sig), Hsig. apply map_length. }
  unfold py_replace, py_index, index_length. rewrite Hkr, unsigned_range. fold j.
  unfold assign_buffered, assign_action. rewrite Hl. destruct (Nat.ltb_spec j (length (kr_funcs kr))) as [Hj|Hj]; [|reflexivity].
  cbn [bind]. eexists. split; [reflexivity|]. cbn [b_dispatcher d_actions]. split.
  - rewrite set_nth_same by lia. reflexivity.
  - intros i Hi. apply set_nth_other. auto.
Qed.

(** A dispatcher made in Python is in a state to which the theorems above apply,
    and runs as the machine of C35 under any operations: bytes can be received
    while a response is being sent. *)
Theorem C51_dispatcher : forall (X : Type) p (kr : keyring X) g g' b ops x,
  wf_platform p -> keyring_ok p kr -> well_sized true kr ANY ->
  py_dispatcher kr g g' = Some b ->
  reached p true kr ANY b (fresh kr) x
  /\ (along (format_of kr) (step_ok (format_of kr) p ANY (kr_signatures kr)) ops (fresh kr) x ->
      observe (run_ops p ops b x) = observe (mc_run (format_of kr) ops (fresh kr) x)).
Proof.
  intros X p kr g g' b ops x Hp Hk Hs Hb. split.
  - exact (reached_new p true kr ANY g g' b x Hb).
  - intros Hal. apply (C35_refinement X p kr ANY g g'); auto.
Qed.

(** A Python function which subtracts, and records its arguments. *)
Definition ex_pysub (args : list pyval) (s : log) : log * pyval :=
  ((7, []) :: s, match args with [PyInt a; PyInt b] => PyInt (a - b) | _ => PyNone end).

(** Calls after a replacement in the middle of nothing. *)
Example C51_example : exists b b1,
  py_dispatcher ex_keyring [] [] = Some b
  /\ well_sized true ex_keyring ANY
  /\ py_replace b ex_key_add ex_pysub = Ok b1
  /\ observe (run_ops pc_native [Put 0; Put 255; Put 254; Put 5; Get; Get; Get; Get; Put 1]%Z b1 [])
     = Ok ([(1, []); (7, [])],
           [OStatus LOADING_PACKET; OStatus LOADING_PACKET; OStatus LOADING_PACKET; OStatus RESOLVED_PACKET;
            OByte 255; OByte 255; OByte 255; OByte 249; OStatus RESOLVED_PACKET]%Z).
Proof.
  eexists. eexists. split; [reflexivity|]. split; [exact (proj1 ex_well_sized)|]. split; [reflexivity|].
  vm_compute. reflexivity.
Qed.

(** Foreign keys: the key at index 256 of a larger keyring replaces the first
    action and changes what a request of 4 bytes means; the key at index 3
    corrupts memory. *)
Definition ex_foreign (i : nat) : key := mk_key 2 i (mk_sig [] None) BIG TWOS_COMPLEMENT.
Theorem C51_foreign_refuted : exists b b1,
  py_dispatcher ex_keyring [] [] = Some b
  /\ py_replace b (ex_foreign 256) ex_pysub = Ok b1
  /\ observe (run_ops pc_native [Put 0; Put 255; Put 254; Put 5]%Z b1 [])
     = Ok ([(7, [])], [OStatus RESOLVED_PACKET; OStatus DROPPED_PACKET; OStatus DROPPED_PACKET; OStatus DROPPED_PACKET])
  /\ py_replace b (ex_foreign 3) ex_pysub = Fault OutOfBounds.
Proof.
  eexists. eexists. split; [reflexivity|]. split; [reflexivity|]. split; vm_compute; reflexivity.
Qed.

(** The whole path: encoded in Python, resolved by a dispatcher whose callback
    was replaced in Python, decoded in Python. *)
Example C49_round_trip_example : exists (b b1 : buffered (wires log)),
  py_dispatcher (lift_keyring ex_keyring) [] [] = Some b
  /\ py_encode pc_native ex_key_add [PyInt (-2); PyInt 5] [] = Return (PyBytes [0; 255; 254; 5]%Z)
  /\ py_replace b ex_key_add
       (fun args w => (w, match args with [PyInt a; PyInt b] => PyInt (a * b) | _ => PyNone end)) = Ok b1
  /\ observe (run_ops avr_portable [ReadFrom take_wire; WriteTo give_wire] b1 (mk_wires [0; 255; 254; 5]%Z [] []))
     = Ok (mk_wires [] [255; 255; 255; 246]%Z [], [OStatus RESOLVED_PACKET; ONone])
  /\ py_decode pc_native ex_key_add (PyBytes [255; 255; 255; 246]%Z) = Return (PyInt (-10)).
Proof.
  eexists. eexists. split; [reflexivity|]. split; [vm_compute; reflexivity|]. split; [reflexivity|].
  split; vm_compute; reflexivity.
Qed.

Print Assumptions C49_converted.
Print Assumptions C49_accepted.
Print Assumptions C49_conversion.
Print Assumptions C49_encode_outcome.
Print Assumptions C49_encode.
Print Assumptions C49_encode_plain_partial.
Print Assumptions C49_encode_refuted.
Print Assumptions C49_encode_rejects.
Print Assumptions C49_decode_same.
Print Assumptions C49_decode.
Print Assumptions C49_decode_truncated.
Print Assumptions C49_round_trip.
Print Assumptions C50_call.
Print Assumptions C50_responses.
Print Assumptions C50_nothing_sent.
Print Assumptions C50_base_class.
Print Assumptions C51_dispatcher.
Print Assumptions C51_replace.
Print Assumptions C51_calls.
Print Assumptions C51_framing.
Print Assumptions C51_foreign_key.
Print Assumptions C51_foreign_refuted.
