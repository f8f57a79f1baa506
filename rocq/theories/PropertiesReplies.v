(** Property C107: [reply], statement by statement. *)

From Coq Require Import List ZArith Lia Bool Arith ZifyBool ZifyNat String.
From Verif Require Import Base CInt Spec Conditions MemFacts TypeLevel TypeLevelProofs IntProofs Serial TupleModel SerialProofs Bounds SpecRpc Rpc RpcProofs
  TupleProofs Hosts Closed PropertiesTypes PropertiesRpc Buffered SpecBuffered BufferedProofs PropertiesBuffered
  PropertiesBuffers Counters PropertiesCounters PropertiesPackets PropertiesReply.
From Verif Require Cpp Templates Library LibraryProofs PropertiesLibrary PropertiesSource PropertiesMethods.
From Verif Require Import Classes Methods Program Replies ProgramProofs PropertiesProgram.
Import ListNotations.
Open Scope string_scope.
Open Scope list_scope.
Open Scope nat_scope.

(** ** [write_to(std::begin(buf))] *)

Lemma write_beside : forall sz (X Y : Type) (dest : destination Y) (dest' : destination (X * Y)),
  (forall c x y, dest' c (x, y) = mapped (fun y' => (x, y')) (dest c y)) ->
  forall fuel (b : buffered X) x y, small sz (List.length (obuf (b_bufs b))) ->
  write_loop_w sz fuel dest' (beside_members Y (in_size_t b)) (x, y)
  = mapped (fun q => (beside_members Y (in_size_t (fst q)), (x, snd q))) (write_loop fuel dest b y).
Proof.
  intros sz X Y dest dest' Hd. induction fuel as [|fuel IH]; intros b x y Hs; cbn [write_loop_w write_loop];
    replace (is_loaded_w (beside_members Y (in_size_t b))) with (is_loaded b)
      by (unfold is_loaded_w, is_loaded, beside_members, in_size_t; cbn; f_equal; lia);
    destruct (is_loaded b) eqn:El; auto.
  unfold get_w, get_byte. rewrite El.
  replace (is_loaded_w (beside_members Y (in_size_t b))) with true
    by (rewrite <- El; unfold is_loaded_w, is_loaded, beside_members, in_size_t; cbn; f_equal; lia).
  cbn [beside_members in_size_t s_dispatcher s_bufs s_ibuf_next s_load_count s_is_index_loaded s_obuf_next s_obuf_bottom].
  rewrite Nat2Z.id. destruct (load (obuf (b_bufs b)) (b_obuf_next b)) as [c|] eqn:E; cbn [bind mapped]; auto.
  apply load_inv in E. rewrite incremented_nat by (unfold small in *; lia). rewrite Hd.
  destruct (dest c y) as [y'|]; cbn [bind mapped]; auto.
  match goal with |- _ = mapped _ (write_loop _ _ ?b' _) => exact (IH b' x y' Hs) end.
Qed.

Lemma into_array_ok : forall (X : Type) c (x : X) y,
  into_array c (x, y) = mapped (fun y' => (x, y')) (array_destination c y).
Proof.
  intros X c x [mem it]. unfold into_array, array_destination, iterator_destination. cbn [fst snd].
  destruct (store mem it c); reflexivity.
Qed.

Lemma write_loop_keeps : forall (X Y : Type) (dest : destination Y) fuel (b b' : buffered X) y y',
  write_loop fuel dest b y = Ok (b', y') ->
  b_dispatcher b' = b_dispatcher b /\ b_bufs b' = b_bufs b /\ b_load_count b' = b_load_count b.
Proof.
  intros X Y dest. induction fuel as [|fuel IH]; intros b b' y y' E; cbn [write_loop] in E;
    destruct (is_loaded b) eqn:El; try discriminate; try (injection E as <- <-; auto; fail).
  unfold get_byte in E. rewrite El in E. ok_inv E q. destruct q as [b1 c]. ok_inv E0 z. ok_inv E y1.
  apply IH in E. injection E0 as <- _. exact E.
Qed.

Lemma beside_fits : forall sz fuel (X Y : Type) (a : action X),
  action_fits sz fuel a -> action_fits sz fuel (beside_action Y a).
Proof.
  intros sz fuel X Y [[[e m [s f]]|]|[e m [s f]]] H; cbn in *; auto; destruct H as [H1 H2]; (split; [exact H1|]);
    (destruct (sig_ret s); [|exact I]); destruct H2 as [H2 H3]; (split; [exact H2|]);
    intros args x; specialize (H3 args (fst x)); destruct (f args (fst x)); exact H3.
Qed.

Section Reply.
  Variable p : platform.
  Variable sz : nat.
  Hypothesis Hp : wf_platform p.
  Hypothesis Hs : p_int_size p <= sz <= 8.

  (** ** The condition *)

  Lemma guard_ok : forall fuel (X : Type) (link : linkage (state X)) dest (b : buffered X) n x,
    exec p sz fuel link no_src dest reply_guard (mk_state (in_size_t b) [("buf_size", Number (CInt sz false) (Z.of_nat n))] x)
    = Ok (mk_state (in_size_t b) [("buf_size", Number (CInt sz false) (Z.of_nat n))] x,
          if (b_obuf_next b =? 0) && (b_obuf_bottom b <=? n) then Next else Returned (bool_value false)).
  Proof.
    intros fuel X link dest b n x. unfold reply_guard.
    cbn [exec eval read bind st_object st_locals member_value compare Cpp.lookup String.eqb Ascii.eqb Bool.eqb Cpp.need in_size_t s_obuf_next s_obuf_bottom].
    rewrite (PropertiesMethods.common_size_int p sz) by auto.
    rewrite PropertiesMethods.convert_same. rewrite (PropertiesMethods.convert_0 p sz) by auto.
    replace (Z.of_nat (b_obuf_next b) =? 0)%Z with (b_obuf_next b =? 0) by lia.
    destruct (b_obuf_next b =? 0); cbn [truth bind bool_value negb Z.eqb andb]; [|reflexivity].
    rewrite (PropertiesMethods.common_size p sz) by auto. rewrite !PropertiesMethods.convert_same.
    replace (Z.of_nat (b_obuf_bottom b) <=? Z.of_nat n)%Z with (b_obuf_bottom b <=? n) by lia.
    destruct (b_obuf_bottom b <=? n); reflexivity.
  Qed.

  (** The sizes of a key whose argument is an array of [n] bytes. *)
  Definition reply_counted (k : key) (n : nat) : Prop := (Z.of_nat (k_index_size k + n) < half sz)%Z.

  Lemma reply_key_fits : forall k n, reply_key k n -> reply_counted k n ->
    exists m, forall fuel, m <= fuel -> LibraryProofs.all_fit sz fuel (TUns (k_index_size k) :: sig_params (k_sig k)).
  Proof.
    intros k n (Hpar & Hn & Hw & _) Hc. apply counted_fit. rewrite Hpar.
    assert (S1 : 1 <= sz) by (destruct Hp; lia).
    assert (Hh : (Z.of_nat (k_index_size k + n) < half sz)%Z) by exact Hc.
    pose proof (space_half sz S1) as E. pose proof (half_pos sz S1) as P.
    assert (Sz : sizeof (TArr (TUns 1) n) = n) by (rewrite sizeof_arr by (cbn; lia); cbn [sizeof]; lia).
    split.
    - constructor; [|constructor; [|constructor]].
      + cbn [wf_ty LibraryProofs.countable sizeof]. repeat split; try lia.
      + rewrite Sz. cbn [wf_ty LibraryProofs.countable]. cbn [sizeof]. repeat split; try lia.
    - unfold tuple_size. rewrite sum17_list_sum. cbn [map serialization_size list_sum fold_right]. rewrite Sz.
      cbn [sizeof]. lia.
  Qed.

  Lemma buf_size_ok : forall k n, reply_key k n -> reply_counted k n ->
    buf_size_w sz k = Z.of_nat n /\ payload_length k - k_index_size k = n.
  Proof.
    intros k n (Hpar & Hn & Hw & _) Hc.
    assert (S1 : 1 <= sz) by (destruct Hp; lia).
    assert (Hh : (Z.of_nat (k_index_size k + n) < half sz)%Z) by exact Hc.
    pose proof (space_half sz S1) as E. pose proof (half_pos sz S1) as P.
    assert (Hz : (Z.of_nat (k_index_size k + n) < sizes sz)%Z).
    { unfold sizes. rewrite <- space_pow2. lia. }
    assert (N : native_sizes (k_sig k) = n).
    { unfold native_sizes. rewrite Hpar. cbn [map list_sum fold_right]. rewrite sizeof_arr by (cbn; lia). cbn [sizeof]. lia. }
    split.
    - unfold buf_size_w. rewrite (proj2 (C98_payload sz k)).
      + rewrite N. rewrite Z.mod_small; lia.
      + rewrite N. exact Hz.
    - unfold payload_length, parameters_size. rewrite sum17_list_sum.
      unfold native_sizes in N. rewrite N. lia.
  Qed.

  Definition image {X : Type} (q : buffered X * X * bool) : members X * X * bool :=
    (in_size_t (fst (fst q)), snd (fst q), snd q).

  Lemma reply_ok : forall (X : Type) dest k n garbage (b : buffered X) x,
    reply_key k n -> reply_counted k n -> small sz (List.length (obuf (b_bufs b))) ->
    (forall b1 w, write_to array_destination b (firstn n (garbage ++ repeat 0%Z n), 0) = Ok (b1, w) ->
       List.length (fst w) = n /\ Forall is_byte (fst w)) ->
    forall fits, (forall fuel, fits <= fuel -> Forall (action_fits sz fuel) (d_actions (b_dispatcher b))) ->
    exists m, forall fuel, m <= fuel ->
      reply_program p sz fuel dest k garbage (in_size_t b) x = option_map (mapped image) (reply p dest k garbage b x).
  Proof.
    intros X dest k n garbage b x Hk Hc Ho Hb fits Hf. destruct (reply_key_fits k n Hk Hc) as (m1 & H1).
    destruct (buf_size_ok k n Hk Hc) as [Sw Sn]. pose proof Hk as (Hpar & Hn & Hw & Hi).
    exists (Nat.max (Nat.max 8 m1) (Nat.max fits (S (List.length (obuf (b_bufs b)))))). intros fuel Hfuel.
    assert (F8 : 8 <= fuel) by (clear - Hfuel; lia). assert (Fm : m1 <= fuel) by (clear - Hfuel; lia).
    assert (Ff : fits <= fuel) by (clear - Hfuel; lia).
    assert (Fl : S (List.length (obuf (b_bufs b))) <= fuel) by (clear - Hfuel; lia). clear Hfuel.
    unfold reply_program, reply. specialize (H1 fuel Fm). rewrite Hpar, Sw, Sn in *. cbn [option_map]. f_equal.
    rewrite guard_ok. cbn [bind]. destruct ((b_obuf_next b =? 0) && (b_obuf_bottom b <=? n)); cbn [negb]; [|reflexivity].
    cbn [st_object st_world].
    rewrite (method_statements p sz fuel (host_of p sz Hp Hs) F8).
    2:{ cbn [beside_members s_dispatcher in_size_t beside_dispatcher d_actions]. rewrite Forall_map.
        eapply Forall_impl; [|apply Hf; exact Ff]. intros a. apply beside_fits. }
    unfold run_method. rewrite (PropertiesMethods.write_to_exec p sz Hs).
    rewrite (write_beside sz X (list Z * nat) array_destination into_array (into_array_ok X)) by exact Ho.
    unfold write_to in *. rewrite (write_loop_fuel X _ array_destination (S (List.length (obuf (b_bufs b)))) fuel); [|clear; lia|exact Fl].
    destruct (write_loop _ array_destination b _) as [[b1 w]|f] eqn:E; cbn [bind mapped]; [|reflexivity].
    cbn [fst snd st_object st_world into returned bind].
    destruct (Hb b1 w eq_refl) as [Hl Hbytes]. destruct (write_loop_keeps _ _ _ _ _ _ _ _ E) as (K1 & _ & _).
    pose proof (PropertiesLibrary.C102_key_write p sz fuel X Library.no_source dest Library.no_functor k
      [VList (map VInt (fst w))] [] x (host_of p sz Hp Hs)) as W. rewrite Hpar in W. rewrite W.
    - destruct (key_write p k [VList (map VInt (fst w))] dest x) as [x'|f]; cbn [bind mapped]; [|reflexivity].
      unfold image, members_after, in_size_t, beside_members. cbn. rewrite K1. reflexivity.
    - exact H1.
    - exact F8.
    - exact Hi.
    - constructor; [|constructor]. cbn [has_type]. split; [rewrite map_length; exact Hl|].
      apply Forall_map. eapply Forall_impl; [|exact Hbytes]. intros z. apply is_byte_space.
  Qed.
End Reply.

(** ** The specification *)

(** The number of bytes of the array which a key takes. *)
Definition room (k : key) : nat :=
  match sig_params (k_sig k) with [TArr (TUns 1) n] => n | _ => 0 end.

Definition nothing (l : list Z) : bool := match l with [] => true | _ => false end.

Section Spec.
  Context {X : Type}.
  Variable fm : format.

  (** Whether none of the bytes of the last response has been taken, after an
      operation which returned [v]. *)
  Definition untouched (o : op X) (a : machine X) (x : X) (v : obs) (whole : bool) : bool :=
    match o, v with
    | Put _, OStatus RESOLVED_PACKET | ReadFrom _, OStatus RESOLVED_PACKET => true
    | Process src _, OStatus RESOLVED_PACKET =>
        match mc_read fm src a x with Ok (a1, _, _) => nothing (mc_out a1) | Fault _ => false end
    | Get, _ | WriteTo _, _ => whole && nothing (mc_out a)
    | _, _ => whole
    end.

  (** [reply] sends a request with the whole response as argument if none of its bytes
      has been taken and it fits the array; otherwise it does nothing. *)
  Definition mc_event (e : event X) (a : machine X) (whole : bool) (x : X) : res (machine X * bool * X * obs) :=
    match e with
    | Do o => '(a', x', v) <- mc_step fm o a x;; Ok (a', untouched o a x v whole, x', v)
    | Answer dest k garbage =>
        if whole && (List.length (mc_out a) <=? room k) then
          x' <- push dest (reply_request k (reply_buffer (room k) garbage (mc_out a))) x;;
          Ok (mk_machine (mc_in a) [] (mc_table a), nothing (mc_out a), x', OBool true)
        else Ok (a, whole, x, OBool false)
    end.

  Fixpoint mc_events (es : list (event X)) (a : machine X) (whole : bool) (x : X) : res (machine X * X * list obs) :=
    match es with
    | [] => Ok (a, x, [])
    | e :: es' =>
        '(a1, whole1, x1, v) <- mc_event e a whole x;;
        '(a2, x2, vs) <- mc_events es' a1 whole1 x1;;
        Ok (a2, x2, v :: vs)
    end.

  (** A property of every step. *)
  Fixpoint along_events (P : event X -> machine X -> X -> Prop) (es : list (event X)) (a : machine X) (whole : bool) (x : X)
      : Prop :=
    match es with
    | [] => True
    | e :: es' =>
        P e a x /\ forall a1 whole1 x1 v, mc_event e a whole x = Ok (a1, whole1, x1, v) -> along_events P es' a1 whole1 x1
    end.
End Spec.

(** Legitimate operations; replies with a key which takes an array of bytes that the
    host can count, the memory of which holds bytes. *)
Definition legitimate_event {X : Type} (p : platform) (sz : nat) (dbl : bool) (kr : keyring X) (ft : action_features)
    (e : event X) (a : machine X) (x : X) : Prop :=
  match e with
  | Do o => legitimate p dbl kr ft o a x
  | Answer dest k garbage => reply_key k (room k) /\ reply_counted sz k (room k) /\ Forall is_byte garbage
  end.

Definition event_func {X : Type} (e : event X) : list (func X) :=
  match e with Do o => op_func o | Answer _ _ _ => [] end.

(** ** Where the next byte of the response is *)

Lemma put_next : forall (X : Type) p byte (b : buffered X) x b1 x1 s, put p byte b x = Ok (b1, x1, s) ->
  match s with
  | RESOLVED_PACKET => b_obuf_next b1 = 0 /\ b_is_index_loaded b1 = false
  | _ => b_obuf_next b1 = b_obuf_next b
  end.
Proof.
  intros X p byte b x b1 x1 s H. unfold put in H. ok_inv H m. destruct (b_load_count b) as [|count]; [discriminate|].
  assert (Hcall : forall b2 y b3 y1, call_loaded p b2 y = Ok (b3, y1) -> b_obuf_next (X := X) b3 = 0 /\ b_is_index_loaded b3 = false).
  { intros b2 y b3 y1 Hc. unfold call_loaded in Hc. ok_inv Hc q. destruct q as [w1 index]. ok_inv Hc q1. ok_inv Hc q2.
    injection Hc as <- <-. auto. }
  destruct (0 <? count); [injection H as <- <- <-; reflexivity|]. destruct (b_is_index_loaded b).
  - ok_inv H q. destruct q as [b2 y]. injection H as <- <- <-. eapply Hcall; eauto.
  - ok_inv H q. destruct q as [w index]. destruct (index <? d_size (b_dispatcher b)); [|injection H as <- <- <-; reflexivity].
    ok_inv H q1. ok_inv H q2. destruct (q2 =? 0); [|injection H as <- <- <-; reflexivity]. ok_inv H q3. destruct q3 as [b2 y].
    injection H as <- <- <-. eapply Hcall; eauto.
Qed.

Lemma read_from_next : forall (X : Type) p src (b : buffered X) x b1 x1 s, read_from p src b x = Ok (b1, x1, s) ->
  match s with RESOLVED_PACKET => b_obuf_next b1 = 0 | _ => b_obuf_next b1 = b_obuf_next b end.
Proof.
  intros X p src b x b1 x1 s H.
  set (P := fun (b' : buffered X) s => match s with
     | RESOLVED_PACKET => b_obuf_next b' = 0 /\ b_is_index_loaded b' = false
     | _ => b_obuf_next b' = b_obuf_next b end).
  assert (Hput : forall byte b2 y b3 y3 s2 s3, P b2 s2 -> s2 <> RESOLVED_PACKET -> put p byte b2 y = Ok (b3, y3, s3) -> P b3 s3).
  { intros byte b2 y b3 y3 s2 s3 H2 Hs E. apply put_next in E. unfold P in *.
    destruct s3; destruct s2; try congruence; lia. }
  assert (Hi : forall fuel b2 y s2 b3 y3 s3, P b2 s2 -> read_index p fuel src b2 y s2 = Ok (b3, y3, s3) -> P b3 s3).
  { induction fuel as [|fuel IH]; intros b2 y s2 b3 y3 s3 H2 E; cbn [read_index] in E;
      destruct (negb (b_is_index_loaded b2) && is_loading s2) eqn:C; try discriminate; try (injection E as <- <- <-; exact H2).
    ok_inv E q. destruct q as [y1 byte]. ok_inv E q. destruct q as [[b4 y4] s4].
    eapply IH; [|exact E]. eapply Hput; [exact H2| |exact E1]. intros ->. cbn in C. rewrite andb_false_r in C. discriminate. }
  assert (Hy : forall fuel b2 y s2 b3 y3 s3, P b2 s2 -> read_payload p fuel src b2 y s2 = Ok (b3, y3, s3) -> P b3 s3).
  { induction fuel as [|fuel IH]; intros b2 y s2 b3 y3 s3 H2 E; cbn [read_payload] in E;
      destruct (b_is_index_loaded b2) eqn:C; try discriminate; try (injection E as <- <- <-; exact H2).
    ok_inv E q. destruct q as [y1 byte]. ok_inv E q. destruct q as [[b4 y4] s4].
    eapply IH; [|exact E]. eapply Hput; [exact H2| |exact E1]. intros ->. unfold P in H2. destruct H2; congruence. }
  unfold read_from in H. ok_inv H q. destruct q as [[b2 y] s2].
  assert (R : P b1 s) by (eapply Hy; [|exact H]; eapply Hi; [|exact E]; reflexivity).
  unfold P in R. destruct s; tauto.
Qed.

(** ** The program does what the specification says *)

Lemma push_array_bound : forall bs mem i w, push array_destination bs (mem, i) = Ok w -> i <= List.length mem ->
  i + List.length bs <= List.length mem.
Proof.
  induction bs as [|b bs IH]; intros mem i w E Hi; cbn [push List.length] in *; [lia|].
  ok_inv E q. unfold array_destination, iterator_destination in E0. cbn [fst snd] in E0. ok_inv E0 mem'.
  injection E0 as <-. pose proof (store_length _ _ _ _ E1) as Hl. apply store_inv in E1.
  apply IH in E; lia.
Qed.

Lemma nothing_length : forall l, nothing l = (List.length l =? 0).
Proof. intros []; reflexivity. Qed.

Section History.
  Variable p : platform.
  Variable sz : nat.
  Hypothesis Hp : wf_platform p.
  Hypothesis Hs : p_int_size p <= sz <= 8.
  Context {X : Type}.
  Variables (dbl : bool) (kr : keyring X) (ft : action_features) (ni no : nat).
  Hypothesis Hk : keyring_ok p kr.
  Hypothesis Hroom : kr_index_size kr <= ni.
  Hypothesis Hframing : Forall (framing_ok ft ni no (kr_index_size kr)) (kr_signatures kr).
  Let fm := format_of kr.

  Lemma untouched_ok : forall o (b b' : buffered X) a x x' v, represents kr ft ni no dbl b a -> legitimate p dbl kr ft o a x ->
    step p o b x = Ok (b', x', v) -> untouched fm o a x v (b_obuf_next b =? 0) = (b_obuf_next b' =? 0).
  Proof.
    intros o b b' a x x' v R [Hok Hal] E. destruct o as [byte| | |src|dest|src dest|i r|g|]; cbn [step untouched] in *.
    - ok_inv E q. destruct q as [[b1 x1] s]. injection E as <- <- <-. apply put_next in E0. destruct s; try (rewrite E0; reflexivity).
      destruct E0 as [-> _]. reflexivity.
    - ok_inv E q. destruct q as [b1 c]. injection E as <- <- <-. unfold get_byte in E0.
      rewrite (is_loaded_ok kr ft ni no dbl Hroom b a R) in E0. unfold mc_loaded in E0.
      destruct (mc_out a); cbn [nothing]; [injection E0 as <- _; apply andb_true_r|].
      ok_inv E0 z0. injection E0 as <- _. apply andb_false_r.
    - injection E as <- _ _. reflexivity.
    - ok_inv E q. destruct q as [[b1 x1] s]. injection E as <- <- <-. apply read_from_next in E0.
      destruct s; rewrite E0; reflexivity.
    - rewrite (write_to_ok kr ft ni no dbl Hroom _ dest b a x R) in E. rewrite nothing_length.
      ok_inv E q. destruct q as [b1 x1]. injection E as <- _ _. ok_inv E0 y. injection E0 as <- _. cbn [advance b_obuf_next]. lia.
    - unfold process in E. ok_inv E q. destruct q as [[b1 x1] s]. injection E as <- <- <-. ok_inv E0 q. destruct q as [[b2 x2] s2].
      pose proof (read_from_ok p kr ft ni no dbl Hp Hk Hroom Hframing src b a x R Hal Hok) as A. unfold agrees in A. fold fm in A.
      pose proof (read_from_next _ _ _ _ _ _ _ _ E) as N.
      destruct s2; [injection E0 as <- <- <-; rewrite N; reflexivity|injection E0 as <- <- <-; rewrite N; reflexivity|].
      ok_inv E0 q. destruct q as [b3 x3]. injection E0 as <- <- <-.
      destruct (mc_read fm src a x) as [[[a1 y1] s1]|f]; [|congruence]. destruct A as (b4 & E4 & R4).
      assert (b4 = b2) by congruence. subst b4.
      rewrite (write_to_ok kr ft ni no dbl Hroom _ dest b2 a1 x2 R4) in E1. rewrite nothing_length.
      ok_inv E1 y. injection E1 as <- _. cbn [advance b_obuf_next]. rewrite N. lia.
    - unfold replace_buffered in E. destruct (replace (b_dispatcher b) i r) as [[d|f]|]; cbn [bind] in E; try discriminate.
      injection E as <- _ _. reflexivity.
    - injection E as <- _ _. reflexivity.
    - injection E as <- _ _. destruct b as [[? ? ?] ? ? ? ? ? ?]. reflexivity.
  Qed.

  Hypothesis Hindex_small : small sz (kr_index_size kr).
  Hypothesis Hinputs : forall s a n, In s (kr_signatures kr) -> conform_action kr ft s a -> input_size a = Ok n ->
    small sz n.

  (** A state of the program and a state of the specification. *)
  Definition follows (b : buffered X) (a : machine X) (whole : bool) : Prop :=
    represents kr ft ni no dbl b a /\ PropertiesCounters.countable sz kr ft b /\ Forall is_byte (mc_out a)
    /\ Forall (described sz) (mc_table a) /\ whole = (b_obuf_next b =? 0).

  Lemma follows_fit : forall b a whole, follows b a whole ->
    exists n, forall fuel, n <= fuel -> Forall (action_fits sz fuel) (d_actions (b_dispatcher b)).
  Proof.
    intros b a whole ((T & _) & _ & _ & D & _). destruct (all_described_fit X sz _ D) as (n & Hn). exists n. intros fuel Hf.
    destruct T as (_ & _ & -> & _). rewrite Forall_map. eapply Forall_impl; [|apply Hn; exact Hf].
    intros f F. destruct ft; exact F.
  Qed.

  Lemma index_positive : 1 <= kr_index_size kr.
  Proof. apply (index_size X kr (proj1 Hk)). Qed.

  Lemma table_described : forall o (a a' : machine X) x x' v, mc_step fm o a x = Ok (a', x', v) ->
    Forall (described sz) (mc_table a) -> Forall (described sz) (op_func o) -> Forall (described sz) (mc_table a').
  Proof.
    intros o a a' x x' v E D Ho.
    assert (Hrec : forall bs y a1 y1 s, received fm bs a y = (a1, y1, s) -> mc_table a1 = mc_table a).
    { intros bs y a1 y1 s R. unfold received in R. destruct (examine fm (mc_table a) bs) as [| |f pl].
      - injection R as <- _ _. reflexivity.
      - injection R as <- _ _. reflexivity.
      - destruct (serve fm f pl y). injection R as <- _ _. reflexivity. }
    destruct o as [byte| | |src|dest|src dest|i r|g|]; cbn [mc_step] in E.
    - unfold mc_put in E. destruct (received fm (mc_in a ++ [byte]) a x) as [[a1 x1] s] eqn:R. injection E as <- _ _.
      rewrite (Hrec _ _ _ _ _ R). exact D.
    - unfold mc_get in E. destruct (mc_out a); injection E as <- _ _; exact D.
    - injection E as <- _ _. exact D.
    - ok_inv E q. destruct q as [[a1 x1] s]. injection E as <- _ _. unfold mc_read in E0. ok_inv E0 q. destruct q as [x2 bs].
      injection E0 as E0. rewrite (Hrec _ _ _ _ _ E0). exact D.
    - ok_inv E q. destruct q as [a1 x1]. injection E as <- _ _. unfold mc_write in E0. ok_inv E0 y. injection E0 as <- _. exact D.
    - ok_inv E q. destruct q as [[a1 x1] s]. injection E as <- _ _. unfold mc_process in E0. ok_inv E0 q. destruct q as [[a2 x2] s2].
      unfold mc_read in E. ok_inv E q. destruct q as [x3 bs]. injection E as E. apply Hrec in E.
      destruct s2; [injection E0 as <- _ _; rewrite E; exact D|injection E0 as <- _ _; rewrite E; exact D|].
      ok_inv E0 q. destruct q as [a3 x4]. injection E0 as <- _ _. unfold mc_write in E2. ok_inv E2 y. injection E2 as <- _.
      cbn [mc_table]. rewrite E. exact D.
    - injection E as <- _ _. cbn [mc_replace mc_table]. rewrite update_set_nth. apply set_nth_Forall; auto.
      destruct r; inversion Ho; assumption.
    - injection E as <- _ _. exact D.
    - injection E as <- _ _. exact D.
  Qed.

  Lemma event_ok : forall e b a whole x, follows b a whole -> legitimate_event p sz dbl kr ft e a x ->
    Forall (described sz) (event_func e) -> mc_event fm e a whole x <> Fault OutOfFuel ->
    match mc_event fm e a whole x with
    | Ok (a', whole', x', v) => exists b', follows b' a' whole'
        /\ exists m, forall fuel, m <= fuel -> step_event p sz fuel e (in_size_t b) x = Ok (in_size_t b', x', v)
    | Fault f => exists m, forall fuel, m <= fuel -> step_event p sz fuel e (in_size_t b) x = Fault f
    end.
  Proof.
    intros e b a whole x F L D N. pose proof F as (R & C & B & T & W). destruct (follows_fit b a whole F) as (n1 & H1).
    destruct e as [o|dest k garbage]; cbn [mc_event legitimate_event event_func step_event] in *.
    - pose proof L as [Hok Hal].
      pose proof (step_refines p kr ft ni no dbl Hp Hk Hroom Hframing o b a x R Hok Hal) as A. unfold agrees in A. fold fm in A.
      destruct (step_eq p sz kr ft index_positive Hindex_small Hinputs o b x C) as [Q K].
      destruct (all_described_fit X sz _ D) as (n2 & H2).
      assert (S : step p o b x <> Fault OutOfFuel ->
                exists m, forall fuel, m <= fuel -> step_source p sz fuel (transcribed p sz fuel) o (in_size_t b) x
                  = mapped (fun r => (in_size_t (fst (fst r)), snd (fst r), snd r)) (step p o b x)).
      { intros Ns. destruct (PropertiesMethods.step_source_ok p sz X o (in_size_t b) x _ Hp Hs Q) as (n & Hn).
        { destruct (step p o b x); [discriminate|]. intros Z. apply Ns. injection Z as ->. reflexivity. }
        exists (Nat.max (Nat.max 8 n) (Nat.max n1 n2)). intros fuel Hf.
        destruct (step_statements p sz fuel (host_of p sz Hp Hs) ltac:(lia) o (in_size_t b) x (H1 fuel ltac:(lia)) (H2 fuel ltac:(lia))) as [E _].
        rewrite E. apply Hn. lia. }
      destruct (mc_step fm o a x) as [[[a' x'] v]|f] eqn:M; cbn [bind].
      + destruct A as (b' & E & R'). rewrite E in S. destruct S as (m & Hm); [discriminate|]. exists b'. split.
        * split; [exact R'|]. split; [eapply K; exact E|]. split; [eapply mc_step_out; eauto|].
          split; [eapply table_described; eauto|]. rewrite W. eapply untouched_ok; eauto.
        * exists m. intros fuel Hf. rewrite (Hm fuel Hf). reflexivity.
      + rewrite A in S. destruct S as (m & Hm).
        { intros Z. apply N. injection Z as ->. reflexivity. }
        exists m. intros fuel Hf. rewrite (Hm fuel Hf). reflexivity.
    - destruct L as (Hkey & Hc & Hg). set (n := room k) in *.
      assert (Eb : b_obuf_next b + List.length (mc_out a) = b_obuf_bottom b) by apply R.
      pose proof Hkey as (Hpar & Hn1 & Hsz & Hidx).
      assert (Wr : List.length (mc_out a) <= n -> write_to array_destination b (firstn n (garbage ++ repeat 0%Z n), 0)
                 = Ok (advance b (List.length (mc_out a)), (reply_buffer n garbage (mc_out a), List.length (mc_out a)))).
      { intros Hle. rewrite (write_to_ok kr ft ni no dbl Hroom _ array_destination b a _ R).
        rewrite push_array by (rewrite local_array_length; lia). reflexivity. }
      assert (Ro : (exists b', reply p dest k garbage b x
                   = Some (if whole && (List.length (mc_out a) <=? n) then
                       x' <- push dest (reply_request k (reply_buffer n garbage (mc_out a))) x;;
                       Ok (advance b (List.length (mc_out a)), x', true)
                     else Ok (b', x, false)) /\ b' = b)).
      { exists b. split; [|reflexivity]. unfold reply. rewrite Hpar.
        rewrite (proj2 (buf_size_ok p sz Hp Hs k n Hkey Hc)). f_equal. rewrite W.
        destruct (Nat.eqb_spec (b_obuf_next b) 0) as [E0|E0]; cbn [andb negb]; [|reflexivity].
        rewrite E0 in Eb. cbn [Nat.add] in Eb. rewrite <- Eb.
        destruct (Nat.leb_spec (List.length (mc_out a)) n) as [Hle|Hle]; cbn [andb negb]; [|reflexivity].
        rewrite Wr by exact Hle. cbn [bind fst]. set (buf := reply_buffer n garbage (mc_out a)).
        assert (Hbuf : Forall is_byte buf) by (apply reply_buffer_bytes; auto).
        assert (Hlen : List.length buf = n) by (apply reply_buffer_length; auto).
        assert (Ekw : key_write p k [VList (map VInt buf)] dest x = push dest (reply_request k buf) x).
        { unfold key_write. rewrite Hpar. rewrite write_tuple_ok; auto.
          - cbn [enc_list]. rewrite enc_byte_array by auto. cbn [enc]. rewrite app_nil_r. reflexivity.
          - constructor; [|constructor; [apply byte_array_ok; auto|constructor]]. unfold ty_ok. cbn. auto.
          - constructor; [|constructor; [|constructor]].
            + split; cbn [has_type all_signed]; auto. lia.
            + rewrite <- Hlen. apply byte_array_encodable. auto. }
        rewrite Ekw. reflexivity. }
      destruct Ro as (b0 & Ro & ->).
      destruct C as (C1 & C2 & C3 & C4 & C5 & C6 & C7).
      destruct (reply_ok p sz Hp Hs X dest k n garbage b x Hkey Hc C5) with (fits := n1) as (m & Hm).
      { intros b1 w E1. destruct (Nat.leb_spec (List.length (mc_out a)) n) as [Hle|Hle].
        - rewrite Wr in E1 by exact Hle. injection E1 as _ <-. cbn [fst].
          split; [apply reply_buffer_length; exact Hle|apply reply_buffer_bytes; auto].
        - rewrite (write_to_ok kr ft ni no dbl Hroom _ array_destination b a _ R) in E1. exfalso.
          ok_inv E1 y. apply push_array_bound in E; rewrite local_array_length in *; lia. }
      { exact H1. }
      destruct (whole && (List.length (mc_out a) <=? n)) eqn:G.
      + destruct (push dest (reply_request k (reply_buffer n garbage (mc_out a))) x) as [x'|f]; cbn [bind] in *.
        * exists (advance b (List.length (mc_out a))). split.
          -- split; [apply advance_all; assumption|]. split; [repeat split; assumption|]. split; [constructor|].
             split; [exact T|]. rewrite nothing_length. cbn [advance b_obuf_next].
             apply andb_prop in G. destruct G as [G _]. rewrite W in G. lia.
          -- exists m. intros fuel Hf. rewrite (Hm fuel Hf), Ro. reflexivity.
        * exists m. intros fuel Hf. rewrite (Hm fuel Hf), Ro. reflexivity.
      + exists b. split; [exact F|]. exists m. intros fuel Hf. rewrite (Hm fuel Hf), Ro. reflexivity.
  Qed.

  Lemma events_ok : forall es b a whole x, follows b a whole ->
    along_events fm (legitimate_event p sz dbl kr ft) es a whole x ->
    Forall (described sz) (flat_map event_func es) -> mc_events fm es a whole x <> Fault OutOfFuel ->
    exists m, forall fuel, m <= fuel ->
      observe (run_events p sz fuel es (in_size_t b) x) = observe (mc_events fm es a whole x).
  Proof.
    induction es as [|e es IH]; intros b a whole x F L D N; cbn [run_events mc_events along_events flat_map] in *.
    - exists 0. reflexivity.
    - apply Forall_app in D. destruct D as [D1 D2]. destruct L as [L1 L2].
      assert (N1 : mc_event fm e a whole x <> Fault OutOfFuel) by (intros Z; rewrite Z in N; apply N; reflexivity).
      pose proof (event_ok e b a whole x F L1 D1 N1) as A.
      destruct (mc_event fm e a whole x) as [[[[a1 whole1] x1] v]|f]; cbn [bind] in *.
      + destruct A as (b1 & F1 & m1 & H1). destruct (IH b1 a1 whole1 x1 F1 (L2 _ _ _ _ eq_refl) D2) as (m2 & H2).
        { intros Z. rewrite Z in N. apply N. reflexivity. }
        exists (Nat.max m1 m2). intros fuel Hf. rewrite H1 by lia. cbn [bind]. specialize (H2 fuel ltac:(lia)).
        destruct (run_events p sz fuel es (in_size_t b1) x1) as [[[b2 y2] vs2]|f2];
          destruct (mc_events fm es a1 whole1 x1) as [[[a2 y3] vs3]|f3]; cbn [bind observe] in *; congruence.
      + destruct A as (m & H). exists m. intros fuel Hf. rewrite (H fuel Hf). reflexivity.
  Qed.
End History.

(** ** The property *)

(** Every sequence of operations and replies: what the statements do is what the
    specification says. *)
Theorem C107_history : forall p sz (X : Type) dbl (kr : keyring X) ft g g' b es x,
  wf_platform p -> p_int_size p <= sz <= 8 -> keyring_ok p kr -> well_sized dbl kr ft ->
  make_buffered dbl kr ft g g' = Some b ->
  (Z.of_nat (List.length (ibuf (b_bufs b))) < 2 ^ (8 * Z.of_nat sz))%Z ->
  Forall (fun nf => described sz (snd nf)) (kr_funcs kr) -> Forall (described sz) (flat_map event_func es) ->
  along_events (format_of kr) (legitimate_event p sz dbl kr ft) es (fresh kr) true x ->
  mc_events (format_of kr) es (fresh kr) true x <> Fault OutOfFuel ->
  exists n, forall fuel, n <= fuel ->
    observe (run_events p sz fuel es (init_members (make_dispatcher kr ft) (b_bufs b)) x)
    = observe (mc_events (format_of kr) es (fresh kr) true x).
Proof.
  intros p sz X dbl kr ft g g' b es x Hp Hs Hk Hw Hb Hi Hd Ho Hal Hr.
  destruct (make_buffered_represents X p dbl kr ft g g' b Hk Hw Hb) as (ni & no & Hroom & Hframing & R).
  destruct (make_buffered_spec dbl kr ft g g' b Hb) as (bufs & -> & Hdb & Hli & Hlo).
  cbn [init_buffered b_bufs] in *. destruct (index_size X kr (proj1 Hk)) as ((H1 & _) & _).
  change (2 ^ (8 * Z.of_nat sz))%Z with (sizes sz) in *.
  change (init_members (make_dispatcher kr ft) bufs) with (in_size_t (init_buffered (make_dispatcher kr ft) bufs)).
  assert (Hwire : Forall (fun s => (Z.of_nat (wire_sizes (sig_params s)) < sizes sz)%Z) (kr_signatures kr)).
  { unfold kr_signatures. rewrite Forall_map. rewrite Forall_forall in Hd |- *. intros nf Hin.
    destruct (Hd nf Hin) as [[_ Hz] _]. destruct Hk as [_ Hk]. rewrite Forall_forall in Hk. destruct (Hk nf Hin) as [Hok _].
    rewrite (tuple_size_wire (sig_params (f_sig (snd nf)))) in Hz by (eapply tys_layout; eauto).
    assert (S1 : 1 <= sz) by (destruct Hp; lia).
    pose proof (space_half sz S1) as E. pose proof (half_pos sz S1) as P. unfold sizes. rewrite <- space_pow2.
    clear - Hz E P. lia. }
  apply (events_ok p sz Hp Hs dbl kr ft ni no Hk Hroom Hframing).
  - unfold small. lia.
  - intros s a n Hin (f & Ef & Ea) Hn. subst a. unfold small.
    destruct ft; cbn [make_action input_size m_func] in Hn; injection Hn as <-.
    + rewrite tuple_size_wire.
      * rewrite Ef. rewrite Forall_forall in Hwire. auto.
      * rewrite Ef. eapply tys_layout. apply (keyring_sig p kr Hk s Hin).
    + rewrite parameters_native, Ef. pose proof (native_le kr s Hin). lia.
  - split; [exact R|]. split; [|split; [constructor|split; [|reflexivity]]].
    + unfold PropertiesCounters.countable. cbn [init_buffered b_dispatcher b_bufs b_load_count make_dispatcher d_keyring d_features].
      split; [reflexivity|]. split; [reflexivity|]. split; [apply make_dispatcher_conform|].
      unfold small, index_length. cbn [make_dispatcher d_keyring].
      assert (List.length (obuf bufs) <= List.length (ibuf bufs)) by (rewrite Hli, Hlo; unfold out_capacity; destruct dbl; lia).
      repeat split; lia.
    + unfold fresh. cbn [mc_table]. rewrite Forall_map. exact Hd.
  - exact Hal.
  - exact Ho.
  - exact Hr.
Qed.

(** ** Examples *)

(** The response to a request for a total goes to a callback of a peer as an array of
    six bytes; nothing is sent when a byte of it was taken before, nor when the array is
    too small. *)
Definition ex_answer (n : nat) : key := mk_key 1 3 (mk_sig [TArr (TUns 1) n] None) LITTLE TWOS_COMPLEMENT.
Definition ex_sent : destination log := fun byte x => Ok ((9, [VInt byte]) :: x).
Definition ex_events : list (event log) :=
  [Do (Put 0); Do (Put 255); Do (Put 254); Do (Put 5); Answer ex_sent (ex_answer 3) [1; 1; 1];
   Answer ex_sent (ex_answer 6) [7; 7; 7; 7; 8; 8]; Answer ex_sent (ex_answer 6) []; Do IsLoaded;
   Do (Put 1); Answer ex_sent (ex_answer 1) [4];
   Do (Put 0); Do (Put 0); Do (Put 7); Do (Put 2); Do Get; Answer ex_sent (ex_answer 6) []]%Z.

Ltac next_event :=
  let E := fresh "E" in
  intros ? ? ? ? E; vm_compute in E;
  match type of E with Ok ?q = Ok ?r =>
    let H := fresh "H" in pose proof (f_equal (fun o => match o with Ok a => a | Fault _ => q end) E) as H;
    cbv beta iota in H; injection H as <- <- <- <-; clear E end.

Example C107_example : exists b,
  keyring_ok pc_native ex_program /\ well_sized true ex_program ANY
  /\ make_buffered true ex_program ANY [9; 9; 9]%Z [] = Some b
  /\ (Z.of_nat (List.length (ibuf (b_bufs b))) < 2 ^ (8 * Z.of_nat 8))%Z
  /\ Forall (described 8) (flat_map event_func ex_events)
  /\ along_events (format_of ex_program) (legitimate_event pc_native 8 true ex_program ANY) ex_events (fresh ex_program) true []
  /\ mc_events (format_of ex_program) ex_events (fresh ex_program) true [] <> Fault OutOfFuel
  /\ observe (run_events pc_native 8 9 ex_events (init_members (make_dispatcher ex_program ANY) (b_bufs b)) [])
     = Ok ([(0, [VInt 7; VInt 2]); (9, [VInt 4]); (9, [VInt 3]); (1, []);
            (9, [VInt 8]); (9, [VInt 8]); (9, [VInt 3]); (9, [VInt 0]); (9, [VInt 0]); (9, [VInt 0]); (9, [VInt 3]);
            (0, [VInt (-2); VInt 5])]%nat,
           [OStatus LOADING_PACKET; OStatus LOADING_PACKET; OStatus LOADING_PACKET; OStatus RESOLVED_PACKET; OBool false;
            OBool true; OBool false; OBool false; OStatus RESOLVED_PACKET; OBool true;
            OStatus LOADING_PACKET; OStatus LOADING_PACKET; OStatus LOADING_PACKET; OStatus RESOLVED_PACKET; OByte 0; OBool false])%Z.
Proof.
  eexists. split; [exact ex_program_ok|]. split; [exact (proj1 ex_program_sized)|]. split; [reflexivity|]. split; [reflexivity|].
  split; [constructor|]. split; [|split; [vm_compute; discriminate|vm_compute; reflexivity]].
  unfold ex_events, fresh.
  repeat match goal with
    | |- along_events _ _ [] _ _ _ => exact I
    | |- along_events _ _ (_ :: _) _ _ _ => cbn [along_events]; split
    | |- forall a1 w1 x1 v, mc_event _ _ _ _ _ = _ -> _ => next_event
    | |- legitimate_event _ _ _ _ _ (Do _) _ _ => cbn [legitimate_event]; split; [|left; reflexivity]
    | |- legitimate_event _ _ _ _ _ (Answer _ _ _) _ _ => cbn [legitimate_event]
    | |- step_ok _ _ _ _ _ _ _ => cbn [step_ok]; try exact I
    | |- is_byte _ => split; [discriminate|reflexivity]
    | |- servable _ _ _ _ _ => vm_compute; try exact I
    | |- _ /\ _ => split
    end; try (solve [range | repeat constructor; range]).
Qed.

Print Assumptions C107_history.
