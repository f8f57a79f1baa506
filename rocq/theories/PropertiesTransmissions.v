(** Property C63, for all transmissions: those which end in the middle of a
    request and those which are empty included. *)

From Coq Require Import List ZArith Lia Bool Arith.
From Verif Require Import Base CInt Spec IntModel Conditions MemFacts TypeLevel Serial TupleModel
  TypeLevelProofs IntProofs SignedProofs SerialProofs CodecFacts Bounds TupleProofs SpecRpc Rpc RpcProofs
  Hosts Closed PropertiesTypes PropertiesRpc Buffered SpecBuffered BufferedProofs PropertiesBuffered
  PropertiesBuffers PropertiesPackets PropertiesStreams Firmware PropertiesCallee PropertiesRecovery.
Import ListNotations.
Open Scope nat_scope.

(** ** Specification *)

(** The bytes are given to the abstract machine up to, and including, the first
    one which makes it drop a packet. *)
Fixpoint obey {X : Type} (fm : format) (bytes : list Z) (a : machine X) (x : X) : machine X * X :=
  match bytes with
  | [] => (a, x)
  | byte :: bytes' =>
      match mc_put fm byte a x with
      | (a', x', DROPPED_PACKET) => (a', x')
      | (a', x', _) => obey fm bytes' a' x'
      end
  end.

(** What an empty transmission amounts to: as many bytes 255 as it takes to have
    a packet dropped. *)
Definition heard {X : Type} (kr : keyring X) (t : list Z) : list Z :=
  match t with
  | [] => repeat 255%Z (2 * kr_index_size kr - 1 + longest kr)
  | _ => t
  end.

Definition obey_all {X : Type} (kr : keyring X) (ts : list (list Z)) (a : machine X) (x : X) : machine X * X :=
  fold_left (fun ax t => obey (format_of kr) (heard kr t) (fst ax) (snd ax)) ts (a, x).

(** ** Proofs *)

Section Transmissions.
  Context {X : Type}.
  Variables (p : platform) (dbl : bool) (kr : keyring X) (ft : action_features).
  Hypothesis Hp : wf_platform p.
  Hypothesis Hk : keyring_ok p kr.
  Hypothesis Hs : well_sized dbl kr ft.
  Let fm := format_of kr.

  Definition listening (b : buffered X) (a : machine X) (x : X) : Prop :=
    reached p dbl kr ft b a x /\ silent dbl kr a /\ accepts_any p kr (mc_table a).

  Lemma put_any : forall byte b a x a' x' s, listening b a x -> is_byte byte -> mc_put fm byte a x = (a', x', s) ->
    exists b', put p byte b x = Ok (b', x', s) /\ listening b' a' x' /\ mc_table a' = mc_table a.
  Proof.
    intros byte b a x a' x' s (H & Hsil & Hacc) Hbyte E.
    pose proof (reached_table p dbl kr ft Hp Hk Hs b a x H) as Ht.
    destruct (reached_pending p dbl kr ft Hp Hk Hs b a x H) as (Hb & Hex & _ & _).
    assert (Hbs : Forall is_byte (mc_in a ++ [byte])) by (apply Forall_app; auto).
    assert (Hreq : forall f payload, examine fm (mc_table a) (mc_in a ++ [byte]) = Request f payload ->
      In f (mc_table a) /\ Forall is_byte payload /\ length payload = wire_sizes (sig_params (f_sig f))).
    { intros f payload Er. unfold examine in Er, Hex. cbn [fm format_of fm_w] in Er, Hex. fold fm in Er, Hex. rewrite app_length in Er. cbn [length] in Er.
      destruct (Nat.ltb_spec (length (mc_in a) + 1) (kr_index_size kr)) as [Hlt0|Hge]; [discriminate Er|].
      destruct (designated fm (mc_table a) (mc_in a ++ [byte])) as [g|] eqn:Hd; [|discriminate Er].
      destruct (Nat.ltb_spec (length (mc_in a) + 1) (kr_index_size kr + wire_sizes (params g))); [discriminate Er|].
      injection Er as -> <-. split; [eapply designated_in; exact Hd|]. split; [apply skipn_bytes; exact Hbs|].
      rewrite skipn_length, app_length. cbn [length].
      destruct (Nat.ltb_spec (length (mc_in a)) (kr_index_size kr)) as [Hlt|Hge'].
      - unfold params in *. lia.
      - pose proof (designated_app kr (mc_table a) (mc_in a) [byte] Hge') as Ha. fold fm in Ha. rewrite <- Ha, Hd in Hex.
        destruct (Nat.ltb_spec (length (mc_in a)) (kr_index_size kr + wire_sizes (params f))); [|discriminate Hex].
        unfold params in *. lia. }
    destruct (reached_step p dbl kr ft Hp Hk Hs (Put byte) b a x a' x' (OStatus s) H) as (b' & R & H').
    { split; [|exact (silent_quiet dbl kr a Hsil)]. split; [exact Hbyte|]. unfold servable. fold fm.
      destruct (examine fm (mc_table a) (mc_in a ++ [byte])) as [| |f payload] eqn:Er; auto.
      destruct (Hreq f payload eq_refl) as (Hin & Hpb & Hpl). unfold accepts_any in Hacc. rewrite Forall_forall in Hacc.
      apply (Hacc f Hin payload x Hpb Hpl). }
    { cbn [mc_step]. fold fm. rewrite E. reflexivity. }
    cbn [step] in R. ok_inv R q. destruct q as [[b1 x1] s1]. injection R as -> -> ->. exists b'. split; [reflexivity|].
    unfold mc_put, received in E.
    destruct (examine fm (mc_table a) (mc_in a ++ [byte])) as [| |f payload] eqn:Er.
    - injection E as <- <- <-. split; [|reflexivity]. split; [exact H'|]. split; auto.
    - injection E as <- <- <-. split; [|reflexivity]. split; [exact H'|]. split; auto.
    - destruct (serve fm f payload x) as [x2 out] eqn:Es. injection E as <- <- <-. split; [|reflexivity]. split; [exact H'|].
      split; [|exact Hacc]. destruct (Hreq f payload eq_refl) as (Hin & _).
      destruct Hsil as [Hd|[Hv Ho]]; [left; exact Hd|right]. split; auto. cbn [mc_out].
      unfold serve in Es. destruct (f_call f _ x) as [x3 r]. injection Es as _ <-. unfold ret.
      rewrite (void_table kr _ f Hv Ht Hin). reflexivity.
  Qed.

  Lemma int_any : forall z, (- int_max p - 1 <= z <= int_max p)%Z -> arith (CInt (p_int_size p) true) z = Ok z.
  Proof.
    intros z Hz. unfold arith, int_max, bits in *.
    destruct (Z.leb_spec (- 2 ^ (8 * Z.of_nat (p_int_size p) - 1)) z); [|lia].
    destruct (Z.ltb_spec z (2 ^ (8 * Z.of_nat (p_int_size p) - 1))); [reflexivity|lia].
  Qed.

  (** A transmission which is not empty. *)
  Lemma receive_some : forall bytes byte fuel b a x, listening b a x -> Forall is_byte (byte :: bytes) ->
    (Z.of_nat (length (byte :: bytes)) <= int_max p)%Z -> length (byte :: bytes) <= fuel ->
    exists b' fifo, on_receive p fuel (Z.of_nat (length (byte :: bytes))) (byte :: bytes) b x
      = Ok (b', snd (obey fm (byte :: bytes) a x), fifo)
      /\ listening b' (fst (obey fm (byte :: bytes) a x)) (snd (obey fm (byte :: bytes) a x)).
  Proof.
    induction bytes as [|byte' bytes IH]; intros byte fuel b a x H Hb Hmax Hf; inversion_clear Hb as [|? ? Hbyte Hb'];
      (destruct fuel as [|fuel]; [cbn [length] in Hf; lia|]); cbn [on_receive wire_read];
      cbn [obey]; fold fm; destruct (mc_put fm byte a x) as [[a1 x1] s] eqn:E;
      destruct (put_any byte b a x a1 x1 s H Hbyte E) as (b1 & -> & H1 & _); cbn [bind];
      rewrite int_any by (cbn [length] in *; lia); cbn [bind].
    - replace (Z.of_nat (length [byte]) - 1)%Z with 0%Z by (cbn [length]; lia). cbn [Z.eqb negb andb].
      exists b1, []. destruct s; cbn [fst snd]; auto.
    - destruct (Z.eqb_spec (Z.of_nat (length (byte :: byte' :: bytes)) - 1) 0) as [Ez|_]; [cbn [length] in Ez; lia|].
      cbn [negb andb]. destruct (is_dropped s) eqn:Ed; cbn [negb].
      + destruct s; try discriminate Ed. exists b1. eexists. cbn [fst snd]. split; [reflexivity|exact H1].
      + replace (Z.of_nat (length (byte :: byte' :: bytes)) - 1)%Z with (Z.of_nat (length (byte' :: bytes))) by (cbn [length]; lia).
        destruct (IH byte' fuel b1 a1 x1 H1 Hb') as (b2 & fifo & R & H2); [cbn [length] in *; lia|cbn [length] in *; lia|].
        exists b2, fifo. destruct s; [exact (conj R H2)|discriminate Ed|exact (conj R H2)].
  Qed.

  (** An empty transmission: [k] bytes were read from nothing already. *)
  Lemma receive_none : forall m k fuel b a x a' x' vs, listening b a x ->
    mc_run fm (flood (S m)) a x = Ok (a', x', vs ++ [OStatus DROPPED_PACKET]) -> ~ In (OStatus DROPPED_PACKET) vs ->
    (Z.of_nat k + Z.of_nat (S m) <= int_max p + 1)%Z -> S m <= fuel ->
    exists b', on_receive p fuel (- Z.of_nat k) [] b x = Ok (b', x', []) /\ listening b' a' x'
      /\ forall more, obey fm (repeat 255%Z (S m + more)) a x = (a', x').
  Proof.
    induction m as [|m IH]; intros k fuel b a x a' x' vs H E Hnd Hmax Hf; (destruct fuel as [|fuel]; [lia|]);
      cbn [on_receive wire_read]; unfold flood in E; cbn [repeat mc_run mc_step] in E;
      destruct (mc_put fm 255%Z a x) as [[a1 x1] s] eqn:Ep; cbn [bind] in E;
      destruct (put_any 255%Z b a x a1 x1 s H (is_byte_255 kr) Ep) as (b1 & -> & H1 & _); cbn [bind];
      rewrite int_any by lia; cbn [bind];
      (destruct (Z.eqb_spec (- Z.of_nat k - 1) 0) as [Ez|_]; [lia|]); cbn [negb andb].
    - injection E as <- <- Ev. assert (s = DROPPED_PACKET) as ->.
      { destruct vs as [|v vs]; [cbn [app] in Ev; congruence|]. destruct vs; discriminate. }
      cbn [is_dropped negb]. exists b1. split; [reflexivity|]. split; [exact H1|]. intros more. cbn [Nat.add repeat obey]. rewrite Ep. reflexivity.
    - change (@Put X 255%Z :: repeat (Put 255%Z) m) with (@flood X (S m)) in E. ok_inv E q. destruct q as [[a2 x2] vs2].
      injection E as -> -> Ev. destruct vs as [|v vs].
      { exfalso. cbn [app] in Ev. assert (vs2 = []) by congruence. subst vs2. unfold flood in E0. cbn [repeat mc_run mc_step] in E0.
        destruct (mc_put fm 255%Z a1 x1) as [[a3 x3] s3]. cbn [bind] in E0. ok_inv E0 q. destruct q as [[? ?] ?]. discriminate. }
      cbn [app] in Ev. assert (OStatus s = v /\ vs2 = vs ++ [OStatus DROPPED_PACKET]) as [<- ->] by (split; congruence).
      assert (Hns : s <> DROPPED_PACKET) by (intros ->; apply Hnd; left; reflexivity).
      replace (is_dropped s) with false by (destruct s; [reflexivity|congruence|reflexivity]). cbn [negb].
      replace (- Z.of_nat k - 1)%Z with (- Z.of_nat (S k))%Z by lia.
      destruct (IH (S k) fuel b1 a1 x1 a' x' vs H1 E0) as (b2 & R & H2 & O); [|lia|lia|].
      { intros Hin. apply Hnd. right. exact Hin. }
      exists b2. split; [exact R|]. split; [exact H2|]. intros more. cbn [Nat.add repeat obey]. rewrite Ep.
      specialize (O more). cbn [Nat.add repeat obey] in O. destruct s; [exact O|congruence|exact O].
  Qed.

  Lemma receive_any : forall t fuel b a x, listening b a x -> Forall is_byte t ->
    (Z.of_nat (length t) <= int_max p)%Z -> (Z.of_nat (2 * kr_index_size kr - 1 + longest kr) <= int_max p + 1)%Z ->
    length (heard kr t) <= fuel ->
    exists b' fifo, on_receive p fuel (Z.of_nat (length t)) t b x = Ok (b', snd (obey fm (heard kr t) a x), fifo)
      /\ listening b' (fst (obey fm (heard kr t) a x)) (snd (obey fm (heard kr t) a x))
      /\ (t = [] -> mc_in (fst (obey fm (heard kr t) a x)) = [] /\ (mc_in a = [] -> snd (obey fm (heard kr t) a x) = x)).
  Proof.
    intros [|byte t] fuel b a x H Hb Hmax Hmax' Hf.
    - pose proof H as (Hr & Hsil & Hacc). cbn [heard] in *. rewrite repeat_length in Hf.
      pose proof (reached_table p dbl kr ft Hp Hk Hs b a x Hr) as Ht.
      destruct (reached_pending p dbl kr ft Hp Hk Hs b a x Hr) as (Hbs & Hex & _ & _).
      destruct (flood_dropped p dbl kr ft Hk a x Hsil Ht Hacc Hbs Hex) as (n & a' & x' & vs & E & _ & Hnd & Hn & _ & Hi & Hin & _).
      destruct (receive_none n 0 fuel b a x a' x' vs H E Hnd) as (b' & R & H' & O); [lia|lia|].
      specialize (O (2 * kr_index_size kr - 1 + longest kr - S n)).
      replace (S n + (2 * kr_index_size kr - 1 + longest kr - S n)) with (2 * kr_index_size kr - 1 + longest kr) in O by lia.
      rewrite O. cbn [fst snd]. exists b', []. split; [exact R|]. split; [exact H'|]. intros _. split; [exact Hin|].
      intros Hia. apply (Hi Hia).
    - destruct (receive_some t byte fuel b a x H Hb Hmax Hf) as (b' & fifo & R & H').
      exists b', fifo. split; [exact R|]. split; [exact H'|]. discriminate.
  Qed.

  Lemma receive_all : forall ts fuel b a x, listening b a x -> Forall (Forall is_byte) ts ->
    Forall (fun t => (Z.of_nat (length t) <= int_max p)%Z) ts ->
    (Z.of_nat (2 * kr_index_size kr - 1 + longest kr) <= int_max p + 1)%Z ->
    Forall (fun t => length (heard kr t) <= fuel) ts ->
    exists b', transmissions p fuel ts b x = Ok (b', snd (obey_all kr ts a x))
      /\ listening b' (fst (obey_all kr ts a x)) (snd (obey_all kr ts a x)).
  Proof.
    induction ts as [|t ts IH]; intros fuel b a x H Hb Hmax Hmax' Hf.
    - exists b. split; [reflexivity|exact H].
    - inversion_clear Hb as [|? ? Hbt Hbts]. inversion_clear Hmax as [|? ? Hmt Hmts]. inversion_clear Hf as [|? ? Hft Hfts].
      destruct (receive_any t fuel b a x H Hbt Hmt Hmax' Hft) as (b1 & fifo & R & H1 & _). cbn [transmissions]. rewrite R. cbn [bind].
      destruct (IH fuel b1 _ _ H1 Hbts Hmts Hmax' Hfts) as (b2 & R2 & H2). exists b2. unfold obey_all in *. cbn [fold_left fst snd] in *.
      rewrite <- surjective_pairing in *. auto.
  Qed.
End Transmissions.

(** ** C63 *)

(** What the callee does of any sequence of transmissions, exactly: it gives the
    dispatcher the bytes of each of them, up to the first which has a packet
    dropped, whatever was pending.  (An empty one counts as bytes 255.) *)
Theorem C63_exact : forall (X : Type) p dbl (kr : keyring X) ft g g' b x ts fuel,
  wf_platform p -> keyring_ok p kr -> well_sized dbl kr ft -> make_buffered dbl kr ft g g' = Some b ->
  dbl = true \/ all_void kr -> accepts_any p kr (map snd (kr_funcs kr)) ->
  Forall (Forall is_byte) ts -> Forall (fun t => (Z.of_nat (length t) <= int_max p)%Z) ts ->
  (Z.of_nat (2 * kr_index_size kr - 1 + longest kr) <= int_max p + 1)%Z ->
  Forall (fun t => length (heard kr t) <= fuel) ts ->
  exists b', transmissions p fuel ts b x = Ok (b', snd (obey_all kr ts (fresh kr) x))
    /\ reached p dbl kr ft b' (fst (obey_all kr ts (fresh kr) x)) (snd (obey_all kr ts (fresh kr) x))
    /\ (idle kr b' <-> mc_in (fst (obey_all kr ts (fresh kr) x)) = []).
Proof.
  intros X p dbl kr ft g g' b x ts fuel Hp Hk Hs Hb Hv Hacc Hbytes Hmax Hmax' Hf.
  assert (H : listening p dbl kr ft b (fresh kr) x).
  { split; [apply (reached_new p dbl kr ft g g' b x Hb)|]. split; [|exact Hacc].
    destruct Hv as [Hd|Hv]; [left; exact Hd|right]. split; [exact Hv|reflexivity]. }
  destruct (receive_all p dbl kr ft Hp Hk Hs ts fuel b (fresh kr) x H Hbytes Hmax Hmax' Hf) as (b' & R & (H' & _)).
  exists b'. split; [exact R|]. split; [exact H'|].
  destruct (reached_pending p dbl kr ft Hp Hk Hs _ _ _ H') as (_ & _ & I1 & I2). split; auto.
Qed.

(** Whatever the transmissions before it, an empty transmission leaves the
    dispatcher awaiting the beginning of a request; it calls a callback only if
    a request was in progress. *)
Theorem C63_empty : forall (X : Type) p dbl (kr : keyring X) ft g g' b x ts fuel,
  wf_platform p -> keyring_ok p kr -> well_sized dbl kr ft -> make_buffered dbl kr ft g g' = Some b ->
  dbl = true \/ all_void kr -> accepts_any p kr (map snd (kr_funcs kr)) ->
  Forall (Forall is_byte) ts -> Forall (fun t => (Z.of_nat (length t) <= int_max p)%Z) ts ->
  (Z.of_nat (2 * kr_index_size kr - 1 + longest kr) <= int_max p + 1)%Z ->
  Forall (fun t => length (heard kr t) <= fuel) ([] :: ts) ->
  exists b1 x1 b2 x2, transmissions p fuel ts b x = Ok (b1, x1)
    /\ transmissions p fuel (ts ++ [[]]) b x = Ok (b2, x2)
    /\ idle kr b2 /\ (idle kr b1 -> x2 = x1).
Proof.
  intros X p dbl kr ft g g' b x ts fuel Hp Hk Hs Hb Hv Hacc Hbytes Hmax Hmax' Hf.
  inversion_clear Hf as [|? ? Hf0 Hfs].
  assert (H : listening p dbl kr ft b (fresh kr) x).
  { split; [apply (reached_new p dbl kr ft g g' b x Hb)|]. split; [|exact Hacc].
    destruct Hv as [Hd|Hv]; [left; exact Hd|right]. split; [exact Hv|reflexivity]. }
  destruct (receive_all p dbl kr ft Hp Hk Hs ts fuel b (fresh kr) x H Hbytes Hmax Hmax' Hfs) as (b1 & R & H1).
  set (a1 := fst (obey_all kr ts (fresh kr) x)) in *. set (x1 := snd (obey_all kr ts (fresh kr) x)) in *. clearbody a1 x1.
  destruct (receive_any p dbl kr ft Hp Hk Hs [] fuel b1 a1 x1 H1) as (b2 & fifo & R2 & H2 & H3);
    [apply Forall_nil| |exact Hmax'|exact Hf0|].
  { unfold int_max. assert (0 < 2 ^ (8 * Z.of_nat (p_int_size p) - 1))%Z; [|cbn [length]; lia].
    apply Z.pow_pos_nonneg; [lia|]. pose proof (wf_int_size p Hp). lia. }
  destruct (H3 eq_refl) as [Hin2 Hsame]. destruct H1 as (H1 & _). destruct H2 as (H2 & _).
  destruct (reached_pending p dbl kr ft Hp Hk Hs _ _ _ H1) as (_ & _ & _ & I1).
  destruct (reached_pending p dbl kr ft Hp Hk Hs _ _ _ H2) as (_ & _ & I2 & _).
  exists b1, x1, b2. eexists. split; [exact R|]. split; [|split; [apply I2; exact Hin2|intros Hi; apply Hsame, I1, Hi]].
  clear - R R2. revert b x R. induction ts as [|t ts IH]; intros b x R; cbn [app transmissions] in *.
  - injection R as -> ->. rewrite R2. reflexivity.
  - ok_inv R q. destruct q as [[b3 x3] fifo3]. cbn [bind]. apply IH. exact R.
Qed.

(** Three lights: the transmissions of C63_refuted, and an empty one. *)
Example C63_exact_example : exists b b1 b2,
  keyring_ok pc_native lights /\ well_sized false lights WEAK_REFERENCE /\ all_void lights
  /\ accepts_any pc_native lights (map snd (kr_funcs lights))
  /\ make_single lights WEAK_REFERENCE [] = Some b
  /\ (Z.of_nat (2 * kr_index_size lights - 1 + longest lights) <= int_max pc_native + 1)%Z
  /\ Forall (fun t => length (heard lights t) <= 4) [[0]; [1; 1]; [9; 1; 2]; [0]; []]%Z
  /\ transmissions pc_native 4 [[0]; [1; 1]; [9; 1; 2]]%Z b [] = Ok (b1, [(3, [VInt 2]); (3, [VInt 9]); (2, [VInt 1])])
  /\ transmissions pc_native 4 [[0]; [1; 1]; [9; 1; 2]; [0]; []]%Z b []
     = Ok (b2, [(2, [VInt 255]); (3, [VInt 2]); (3, [VInt 9]); (2, [VInt 1])])
  /\ mc_in (fst (obey_all lights [[0]; [1; 1]; [9; 1; 2]]%Z (fresh lights) [])) = [].
Proof.
  do 3 eexists. split; [exact lights_ok|]. split; [exact lights_well_sized|]. split; [exact lights_void|].
  split; [exact lights_accept|]. split; [reflexivity|]. split; [vm_compute; discriminate|].
  split; [repeat constructor; vm_compute; lia|]. split; [vm_compute; reflexivity|]. split; [vm_compute; reflexivity|].
  vm_compute. reflexivity.
Qed.

Print Assumptions C63_exact.
Print Assumptions C63_empty.
