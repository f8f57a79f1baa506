(** Property C61: a response sent while bytes are received in interrupts. *)

From Coq Require Import List ZArith Lia Bool Arith.
From Verif Require Import Base CInt Spec IntModel Conditions MemFacts TypeLevel Serial TupleModel
  TypeLevelProofs IntProofs SignedProofs SerialProofs CodecFacts Bounds TupleProofs SpecRpc Rpc RpcProofs
  Hosts Closed PropertiesTypes PropertiesRpc Buffered SpecBuffered BufferedProofs PropertiesBuffered
  PropertiesBuffers PropertiesPackets Exceptions PropertiesExceptions ReEntrant Interrupts.
Import ListNotations.
Open Scope nat_scope.

(** ** Specification *)

(** Bytes are received none of which completes a request: what is then received
    of the current request, and the statuses. *)
Fixpoint receives {X : Type} (fm : format) (table : list (func X)) (i bytes : list Z)
    : option (list Z * list packet_status) :=
  match bytes with
  | [] => Some (i, [])
  | byte :: bytes' =>
      match examine fm table (i ++ [byte]) with
      | Incomplete =>
          option_map (fun r => (fst r, LOADING_PACKET :: snd r)) (receives fm table (i ++ [byte]) bytes')
      | Invalid => option_map (fun r => (fst r, DROPPED_PACKET :: snd r)) (receives fm table [] bytes')
      | Request _ _ => None
      end
  end.

Lemma receives_app : forall (X : Type) fm (table : list (func X)) bs bs' i,
  receives fm table i (bs ++ bs')
  = match receives fm table i bs with
    | Some (i1, ss) => option_map (fun r => (fst r, ss ++ snd r)) (receives fm table i1 bs')
    | None => None
    end.
Proof.
  intros X fm table bs bs'. induction bs as [|byte bs IH]; intros i; cbn [app receives].
  - destruct (receives fm table i bs') as [[i1 ss]|]; reflexivity.
  - destruct (examine fm table (i ++ [byte])); auto; rewrite IH;
      (destruct (receives fm table _ bs) as [[i1 ss]|]; cbn [option_map fst snd]; auto);
      destruct (receives fm table i1 bs') as [[i2 ss']|]; reflexivity.
Qed.

Lemma put_keeps_output : forall (X : Type) p byte (b b' : buffered X) x x' s,
  put p byte b x = Ok (b', x', s) -> s <> RESOLVED_PACKET -> is_double (b_bufs b) = true ->
  x' = x /\ b_obuf_next b' = b_obuf_next b /\ b_obuf_bottom b' = b_obuf_bottom b
  /\ obuf (b_bufs b') = obuf (b_bufs b).
Proof.
  intros X p byte b b' x x' s H Hs Hd. unfold put in H. ok_inv H m.
  assert (Ho : obuf (set_ibuf m (b_bufs b)) = obuf (b_bufs b)) by (destruct (b_bufs b); [discriminate|reflexivity]).
  destruct (b_load_count b) as [|count]; [discriminate|].
  destruct (0 <? count).
  { injection H as <- <- <-. auto. }
  destruct (b_is_index_loaded b).
  { ok_inv H r. destruct r as [b2 x2]. injection H as _ _ <-. congruence. }
  ok_inv H r. destruct r as [w index]. destruct (index <? d_size (b_dispatcher b)).
  - ok_inv H act. ok_inv H n. destruct (n =? 0).
    + ok_inv H r. destruct r as [b2 x2]. injection H as _ _ <-. congruence.
    + injection H as <- <- <-. auto.
  - injection H as <- <- <-. auto.
Qed.

Section Proofs.
  Context {X : Type}.
  Variables (p : platform) (ev : evaluation) (kr : keyring X) (ft : action_features).
  Hypothesis Hp : wf_platform p.
  Hypothesis Hk : keyring_ok p kr.
  Hypothesis Hs : well_sized true kr ft.
  Let fm : format := format_of kr.

  Definition same_output (b b' : buffered X) : Prop :=
    b_obuf_next b' = b_obuf_next b /\ b_obuf_bottom b' = b_obuf_bottom b /\ obuf (b_bufs b') = obuf (b_bufs b).

  Lemma reached_double : forall b a x, reached p true kr ft b a x -> is_double (b_bufs b) = true.
  Proof.
    intros b a x H. destruct (reached_represents p true kr ft Hp Hk Hs b a x H) as (ni & no & _ & _ & Hr). apply Hr.
  Qed.

  Lemma handle_ok : forall bytes b a x seen i ss, reached p true kr ft b a x -> Forall is_byte bytes ->
    receives fm (mc_table a) (mc_in a) bytes = Some (i, ss) ->
    exists b', handle p bytes b x seen = Ok (b', x, seen ++ ss)
      /\ reached p true kr ft b' (mk_machine i (mc_out a) (mc_table a)) x /\ same_output b b'.
  Proof.
    induction bytes as [|byte bytes IH]; intros b a x seen i ss H Hb Hrec; cbn [receives handle] in *.
    - injection Hrec as <- <-. exists b. rewrite app_nil_r. destruct a. split; [reflexivity|]. split; [exact H|].
      unfold same_output. auto.
    - inversion Hb; subst.
      assert (G : forall i1 s ss1, received fm (mc_in a ++ [byte]) a x = (mk_machine i1 (mc_out a) (mc_table a), x, s) ->
                s <> RESOLVED_PACKET -> servable fm p (mc_table a) (mc_in a ++ [byte]) x ->
                receives fm (mc_table a) i1 bytes = Some (i, ss1) -> ss = s :: ss1 ->
                exists b', ('(b1, x1, s1) <- put p byte b x;; handle p bytes b1 x1 (seen ++ [s1])) = Ok (b', x, seen ++ ss)
                  /\ reached p true kr ft b' (mk_machine i (mc_out a) (mc_table a)) x /\ same_output b b').
      { intros i1 s ss1 Er Hns Hserv Hrest ->.
        destruct (reached_step p true kr ft Hp Hk Hs (Put byte) b a x (mk_machine i1 (mc_out a) (mc_table a)) x (OStatus s) H)
          as (b1 & E & H1).
        - split; [split; auto|]. left. reflexivity.
        - cbn [mc_step]. unfold mc_put. fold fm. rewrite Er. reflexivity.
        - cbn [step] in E. ok_inv E r. destruct r as [[b2 x2] s2].
          assert (b2 = b1 /\ x2 = x /\ s2 = s) as (-> & -> & ->) by (split; [|split]; congruence).
          cbn [bind].
          destruct (put_keeps_output X p byte b b1 x x s E0 Hns (reached_double b a x H)) as (_ & O1 & O2 & O3).
          destruct (IH b1 (mk_machine i1 (mc_out a) (mc_table a)) x (seen ++ [s]) i ss1 H1) as (b' & E' & H' & P1 & P2 & P3); auto.
          exists b'. rewrite E'. split; [rewrite <- app_assoc; reflexivity|]. split; [exact H'|].
          unfold same_output. rewrite P1, P2, P3. auto. }
      destruct (examine fm (mc_table a) (mc_in a ++ [byte])) eqn:Ex; [| |discriminate].
      + destruct (receives fm (mc_table a) (mc_in a ++ [byte]) bytes) as [[i1 ss1]|] eqn:Er; [|discriminate].
        cbn [option_map fst snd] in Hrec. injection Hrec as -> <-.
        apply (G (mc_in a ++ [byte]) LOADING_PACKET ss1); auto; try discriminate.
        * unfold received. rewrite Ex. reflexivity.
        * unfold servable. rewrite Ex. exact I.
      + destruct (receives fm (mc_table a) [] bytes) as [[i1 ss1]|] eqn:Er; [|discriminate].
        cbn [option_map fst snd] in Hrec. injection Hrec as -> <-.
        apply (G [] DROPPED_PACKET ss1); auto; try discriminate.
        * unfold received. rewrite Ex. reflexivity.
        * unfold servable. rewrite Ex. exact I.
  Qed.

  (** No interrupt to come completes a request. *)
  Definition undisturbed (table : list (func X)) (i : list Z) (irqs : list (list Z)) : Prop :=
    Forall (Forall is_byte) irqs /\ receives fm table i (concat irqs) <> None.

  (** From [r] to [r'] some interrupts took place, the world being left alone. *)
  Definition advances (table : list (func X)) (r : running X) (i : list Z) (r' : running X) (i' : list Z) : Prop :=
    undisturbed table i' (rn_irqs r')
    /\ exists used ss, rn_irqs r = used ++ rn_irqs r' /\ receives fm table i (concat used) = Some (i', ss)
         /\ rn_seen r' = rn_seen r ++ ss.

  Lemma advances_trans : forall table r i r1 i1 r2 i2,
    advances table r i r1 i1 -> advances table r1 i1 r2 i2 -> advances table r i r2 i2.
  Proof.
    intros table r i r1 i1 r2 i2 (_ & u1 & s1 & E1 & R1 & S1) (Q & u2 & s2 & E2 & R2 & S2). split; auto.
    exists (u1 ++ u2), (s1 ++ s2). rewrite E1, E2, S2, S1, <- !app_assoc. split; auto. split; auto.
    rewrite concat_app, receives_app, R1, R2. reflexivity.
  Qed.

  Lemma advances_refl : forall table r i, undisturbed table i (rn_irqs r) -> advances table r i r i.
  Proof.
    intros table r i Q. split; auto. exists [], []. rewrite app_nil_r. auto.
  Qed.

  Lemma tick_ok : forall r i out table, reached p true kr ft (rn_b r) (mk_machine i out table) (rn_x r) ->
    undisturbed table i (rn_irqs r) ->
    exists r' i', tick p r = Ok r' /\ advances table r i r' i' /\ rn_x r' = rn_x r
      /\ reached p true kr ft (rn_b r') (mk_machine i' out table) (rn_x r') /\ same_output (rn_b r) (rn_b r').
  Proof.
    intros r i out table H Q. unfold tick. destruct (rn_irqs r) as [|bytes irqs] eqn:Ei.
    - exists r, i. split; auto. split; [apply advances_refl; rewrite Ei; auto|]. unfold same_output. auto.
    - destruct Q as [Hb Hrec]. inversion Hb; subst. cbn [concat] in Hrec. rewrite receives_app in Hrec.
      destruct (receives fm table i bytes) as [[i1 ss]|] eqn:E1; [|congruence].
      destruct (handle_ok bytes (rn_b r) (mk_machine i out table) (rn_x r) (rn_seen r) i1 ss H) as (b' & E & H' & O); auto.
      rewrite E. cbn [bind]. exists (mk_running b' (rn_x r) irqs (rn_seen r ++ ss)), i1.
      cbn [rn_b rn_x rn_irqs rn_seen]. split; auto. split; [|split; auto].
      split; cbn [rn_irqs rn_seen].
      + split; auto. destruct (receives fm table i1 (concat irqs)); [discriminate|exact Hrec].
      + exists [bytes], ss. rewrite Ei. cbn [concat]. rewrite app_nil_r. auto.
  Qed.

  Lemma is_loaded_i_ok : forall r i out table, reached p true kr ft (rn_b r) (mk_machine i out table) (rn_x r) ->
    undisturbed table i (rn_irqs r) ->
    exists r' i', is_loaded_i p ev r = Ok (r', mc_loaded (mk_machine i out table))
      /\ advances table r i r' i' /\ rn_x r' = rn_x r
      /\ reached p true kr ft (rn_b r') (mk_machine i' out table) (rn_x r').
  Proof.
    intros r i out table H Q.
    destruct (tick_ok r i out table H Q) as (r' & i' & E & A & Ex & H' & O1 & O2 & O3).
    pose proof (reached_loaded p true kr ft Hp Hk Hs (rn_b r) _ (rn_x r) H) as Hl. unfold is_loaded in Hl.
    exists r', i'. unfold is_loaded_i.
    destruct (next_first ev); rewrite E; cbn [bind]; rewrite ?O1, ?O2, Hl; auto.
  Qed.

  Lemma reached_pop : forall b i c out table x, reached p true kr ft b (mk_machine i (c :: out) table) x ->
    load (obuf (b_bufs b)) (b_obuf_next b) = Ok c
    /\ reached p true kr ft (with_output b (S (b_obuf_next b)) (b_obuf_bottom b) (b_bufs b)) (mk_machine i out table) x.
  Proof.
    intros b i c out table x H.
    destruct (reached_step p true kr ft Hp Hk Hs Get b (mk_machine i (c :: out) table) x (mk_machine i out table) x (OByte c) H)
      as (b' & E & H').
    - split; [exact I|]. right. exact I.
    - reflexivity.
    - pose proof (reached_loaded p true kr ft Hp Hk Hs b _ x H) as Hl.
      cbn [step] in E. unfold get_byte in E. rewrite Hl in E. cbn [mc_loaded mc_out] in E.
      destruct (load (obuf (b_bufs b)) (b_obuf_next b)) as [c'|]; [|discriminate]. cbn [bind] in E.
      assert (c' = c) by congruence. subst. split; auto.
      unfold with_output. assert (E' : forall q q' : buffered X, Ok (q, x, OByte c) = Ok (q', x, OByte c) -> q = q') by congruence.
      rewrite (E' _ _ E). exact H'.
  Qed.

  Lemma get_i_ok : forall r i out table, reached p true kr ft (rn_b r) (mk_machine i out table) (rn_x r) ->
    undisturbed table i (rn_irqs r) ->
    exists r' i', get_i p ev r = Ok (r', hd 0%Z out) /\ advances table r i r' i' /\ rn_x r' = rn_x r
      /\ reached p true kr ft (rn_b r') (mk_machine i' (tl out) table) (rn_x r').
  Proof.
    intros r i out table H Q. unfold get_i.
    destruct (is_loaded_i_ok r i out table H Q) as (r1 & i1 & E1 & A1 & X1 & H1). rewrite E1. cbn [bind].
    destruct (tick_ok r1 i1 out table H1 (proj1 A1)) as (r2 & i2 & E2 & A2 & X2 & H2 & _). rewrite E2. cbn [bind].
    pose proof (advances_trans table _ _ _ _ _ _ A1 A2) as A.
    destruct out as [|c out]; cbn [mc_loaded mc_out hd tl].
    { exists r2, i2. split; auto. split; auto. split; [congruence|]. exact H2. }
    destruct (tick_ok r2 i2 (c :: out) table H2 (proj1 A)) as (r3 & i3 & E3 & A3 & X3 & H3 & O1 & O2 & O3). rewrite E3. cbn [bind].
    pose proof (advances_trans table _ _ _ _ _ _ A A3) as A'.
    destruct (reached_pop (rn_b r3) i3 c out table (rn_x r3) H3) as [L3 P3].
    rewrite <- O1. destruct (byte_first ev).
    - rewrite L3. cbn [bind].
      destruct (tick_ok r3 i3 (c :: out) table H3 (proj1 A')) as (r4 & i4 & E4 & A4 & X4 & H4 & O4 & O5 & O6). rewrite E4. cbn [bind].
      destruct (reached_pop (rn_b r4) i4 c out table (rn_x r4) H4) as [_ P4].
      exists (set_next (S (b_obuf_next (rn_b r3))) r4), i4. split; auto.
      split; [|split; [cbn [set_next rn_x]; congruence|]].
      + pose proof (advances_trans table _ _ _ _ _ _ A' A4) as (Q4 & u & ss & U). split; [exact Q4|]. exists u, ss. exact U.
      + unfold set_next. cbn [rn_b rn_x]. rewrite <- O4. exact P4.
    - assert (Q3 : undisturbed table i3 (rn_irqs (set_next (S (b_obuf_next (rn_b r3))) r3))) by exact (proj1 A').
      destruct (tick_ok (set_next (S (b_obuf_next (rn_b r3))) r3) i3 out table P3 Q3) as (r4 & i4 & E4 & A4 & X4 & H4 & O4 & O5 & O6).
      rewrite E4. cbn [bind]. rewrite O6. cbn [set_next rn_b with_output b_bufs]. rewrite L3. cbn [bind].
      exists r4, i4. split; auto. split; [|split; auto].
      + apply (advances_trans table r i r3 i3 r4 i4 A'). destruct A4 as (Q4 & u & ss & U). split; [exact Q4|]. exists u, ss. exact U.
      + cbn [set_next rn_x] in X4. congruence.
  Qed.

  Lemma write_to_i_ok : forall dest out fuel r i table x', reached p true kr ft (rn_b r) (mk_machine i out table) (rn_x r) ->
    undisturbed table i (rn_irqs r) -> length out <= fuel -> push dest out (rn_x r) = Ok x' ->
    exists r' i', write_to_i p ev fuel dest r = Ok r' /\ advances table r i r' i' /\ rn_x r' = x'
      /\ reached p true kr ft (rn_b r') (mk_machine i' [] table) x'.
  Proof.
    intros dest. induction out as [|c out IH]; intros fuel r i table x' H Q Hf Hpush.
    - destruct (is_loaded_i_ok r i [] table H Q) as (r1 & i1 & E1 & A1 & X1 & H1).
      destruct (tick_ok r1 i1 [] table H1 (proj1 A1)) as (r2 & i2 & E2 & A2 & X2 & H2 & _).
      pose proof (advances_trans table _ _ _ _ _ _ A1 A2) as A. cbn [push] in Hpush.
      assert (x' = rn_x r) by congruence. subst x'. rewrite X2, X1 in H2.
      exists r2, i2. split; [|split; [exact A|split; [congruence|exact H2]]].
      destruct fuel; cbn [write_to_i]; rewrite E1; cbn [bind mc_loaded mc_out]; rewrite E2; reflexivity.
    - destruct fuel as [|fuel]; [cbn [length] in Hf; lia|]. cbn [push] in Hpush. ok_inv Hpush y.
      cbn [write_to_i].
      destruct (is_loaded_i_ok r i (c :: out) table H Q) as (r1 & i1 & E1 & A1 & X1 & H1). rewrite E1. cbn [bind mc_loaded mc_out].
      destruct (tick_ok r1 i1 (c :: out) table H1 (proj1 A1)) as (r2 & i2 & E2 & A2 & X2 & H2 & _). rewrite E2. cbn [bind].
      pose proof (advances_trans table _ _ _ _ _ _ A1 A2) as B2.
      destruct (get_i_ok r2 i2 (c :: out) table H2 (proj1 B2)) as (r3 & i3 & E3 & A3 & X3 & H3). rewrite E3. cbn [bind hd tl] in *.
      pose proof (advances_trans table _ _ _ _ _ _ B2 A3) as B3.
      destruct (tick_ok r3 i3 out table H3 (proj1 B3)) as (r4 & i4 & E4 & A4 & X4 & H4 & _). rewrite E4. cbn [bind].
      pose proof (advances_trans table _ _ _ _ _ _ B3 A4) as B4.
      replace (rn_x r4) with (rn_x r) by congruence. rewrite E. cbn [bind].
      set (r4' := mk_running (rn_b r4) y (rn_irqs r4) (rn_seen r4)).
      assert (H4' : reached p true kr ft (rn_b r4') (mk_machine i4 out table) (rn_x r4')).
      { apply (reached_outside p true kr ft Hp Hk Hs) with (x := rn_x r4). exact H4. }
      destruct (tick_ok r4' i4 out table H4' (proj1 B4)) as (r5 & i5 & E5 & A5 & X5 & H5 & _). rewrite E5. cbn [bind].
      assert (B5 : advances table r i r5 i5).
      { apply (advances_trans table r i r4 i4 r5 i5 B4). destruct A5 as (Q5 & u & ss & U). split; [exact Q5|]. exists u, ss. exact U. }
      destruct (IH fuel r5 i5 table x' H5 (proj1 B5)) as (r' & i' & E' & A' & X' & H').
      + cbn [length] in Hf. lia.
      + rewrite X5. exact Hpush.
      + exists r', i'. split; [exact E'|]. split; [apply (advances_trans table r i r5 i5 r' i' B5 A')|]. auto.
  Qed.
End Proofs.

(** ** C61

    Full statement: [get], [is_loaded] and [write_to] do what they do without
    interrupts, the bytes which are put at whatever moment being received as
    if they had been put before or after.  It is false when one of these bytes
    completes a request (C61_refuted).  Proved: it holds as long as none does;
    requests may be begun, and dropped because of their index. *)
Theorem C61_get_partial : forall (X : Type) p ev (kr : keyring X) ft b a x irqs,
  wf_platform p -> keyring_ok p kr -> well_sized true kr ft -> reached p true kr ft b a x ->
  Forall (Forall is_byte) irqs -> receives (format_of kr) (mc_table a) (mc_in a) (concat irqs) <> None ->
  exists b' used rest i ss,
    get_i p ev (mk_running b x irqs []) = Ok (mk_running b' x rest ss, hd 0%Z (mc_out a))
    /\ irqs = used ++ rest /\ receives (format_of kr) (mc_table a) (mc_in a) (concat used) = Some (i, ss)
    /\ reached p true kr ft b' (mk_machine i (tl (mc_out a)) (mc_table a)) x.
Proof.
  intros X p ev kr ft b [i out table] x irqs Hp Hk Hs H Hb Hr. cbn [mc_in mc_out mc_table] in *.
  destruct (get_i_ok p ev kr ft Hp Hk Hs (mk_running b x irqs []) i out table H) as (r' & i' & E & (_ & used & ss & E1 & E2 & E3) & X' & H').
  { split; auto. }
  destruct r' as [b' x' rest ss']. cbn [rn_b rn_x rn_irqs rn_seen app] in *. subst x' ss'.
  exists b', used, rest, i', ss. auto.
Qed.

Theorem C61_is_loaded_partial : forall (X : Type) p ev (kr : keyring X) ft b a x irqs,
  wf_platform p -> keyring_ok p kr -> well_sized true kr ft -> reached p true kr ft b a x ->
  Forall (Forall is_byte) irqs -> receives (format_of kr) (mc_table a) (mc_in a) (concat irqs) <> None ->
  exists b' used rest i ss,
    is_loaded_i p ev (mk_running b x irqs []) = Ok (mk_running b' x rest ss, mc_loaded a)
    /\ irqs = used ++ rest /\ receives (format_of kr) (mc_table a) (mc_in a) (concat used) = Some (i, ss)
    /\ reached p true kr ft b' (mk_machine i (mc_out a) (mc_table a)) x.
Proof.
  intros X p ev kr ft b [i out table] x irqs Hp Hk Hs H Hb Hr. cbn [mc_in mc_out mc_table] in *.
  destruct (is_loaded_i_ok p ev kr ft Hp Hk Hs (mk_running b x irqs []) i out table H) as (r' & i' & E & (_ & used & ss & E1 & E2 & E3) & X' & H').
  { split; auto. }
  destruct r' as [b' x' rest ss']. cbn [rn_b rn_x rn_irqs rn_seen app] in *. subst x' ss'.
  exists b', used, rest, i', ss. auto.
Qed.

(** The whole response is given to the byte putter, and nothing else. *)
Theorem C61_write_to_partial : forall (X : Type) p ev (kr : keyring X) ft b a x irqs dest x' fuel,
  wf_platform p -> keyring_ok p kr -> well_sized true kr ft -> reached p true kr ft b a x ->
  Forall (Forall is_byte) irqs -> receives (format_of kr) (mc_table a) (mc_in a) (concat irqs) <> None ->
  push dest (mc_out a) x = Ok x' -> length (mc_out a) <= fuel ->
  exists b' used rest i ss,
    write_to_i p ev fuel dest (mk_running b x irqs []) = Ok (mk_running b' x' rest ss)
    /\ irqs = used ++ rest /\ receives (format_of kr) (mc_table a) (mc_in a) (concat used) = Some (i, ss)
    /\ reached p true kr ft b' (mk_machine i [] (mc_table a)) x'.
Proof.
  intros X p ev kr ft b [i out table] x irqs dest x' fuel Hp Hk Hs H Hb Hr Hpush Hf. cbn [mc_in mc_out mc_table] in *.
  destruct (write_to_i_ok p ev kr ft Hp Hk Hs dest out fuel (mk_running b x irqs []) i table x' H)
    as (r' & i' & E & (_ & used & ss & E1 & E2 & E3) & X' & H'); auto.
  { split; auto. }
  destruct r' as [b' y rest ss']. cbn [rn_b rn_x rn_irqs rn_seen app] in *. subst y ss'.
  exists b', used, rest, i', ss. auto.
Qed.

(** The response of 4 bytes is sent while a request is dropped and another one
    begun; an interrupt takes place at each of the moments. *)
Lemma ex_pending : exists b,
  reached pc_native true ex_keyring ANY b
    (mk_machine [] [0; 0; 0; 3]%Z (map snd (kr_funcs ex_keyring))) [(0, [VInt (-2); VInt 5])]
  /\ b = mk_buffered (make_dispatcher ex_keyring ANY) false 1 0 0 4 (Double [0; 255; 254; 5; 0]%Z [0; 0; 0; 3]%Z).
Proof.
  eexists. split; [|reflexivity].
  exists [], []. eexists. exists ([Put 0; Put 255; Put 254; Put 5]%Z), []. eexists.
  split; [reflexivity|]. split; [legit|]. split; vm_compute; reflexivity.
Qed.

(** A byte putter which records what it is given. *)
Definition recording : destination log := fun byte x => Ok ((100, [VInt byte]) :: x).

Example C61_example : exists b,
  let a := mk_machine [] [0; 0; 0; 3]%Z (map snd (kr_funcs ex_keyring)) in
  let irqs := [[]; [77]; []; [0]; [255]; []; [254]]%Z in
  reached pc_native true ex_keyring ANY b a [(0, [VInt (-2); VInt 5])]
  /\ Forall (Forall is_byte) irqs
  /\ receives (format_of ex_keyring) (mc_table a) (mc_in a) (concat irqs)
     = Some ([0; 255; 254]%Z, [DROPPED_PACKET; LOADING_PACKET; LOADING_PACKET; LOADING_PACKET])
  /\ forall ev, exists b',
       write_to_i pc_native ev 4 recording (mk_running b [] irqs [])
       = Ok (mk_running b' [(100, [VInt 3]); (100, [VInt 0]); (100, [VInt 0]); (100, [VInt 0])] []
               [DROPPED_PACKET; LOADING_PACKET; LOADING_PACKET; LOADING_PACKET])
       /\ b_load_count b' = 1.
Proof.
  destruct ex_pending as (b & H & ->). eexists. cbv zeta. split; [exact H|]. clear H.
  split; [repeat constructor; range|]. split; [vm_compute; reflexivity|].
  intros [[|] [|]]; eexists; (split; [vm_compute; reflexivity|reflexivity]).
Qed.

(** In the middle of [get], a request whose response is empty is completed:
    afterwards [write_to] leaves the output buffer.  Neither [put] before [get]
    nor [get] before [put] does so. *)
Theorem C61_refuted : forall ev, exists (kr : keyring log) ft b a x irqs b1 x1 c ss,
  keyring_ok pc_native kr /\ well_sized true kr ft /\ reached pc_native true kr ft b a x
  /\ Forall (Forall is_byte) irqs
  /\ get_i pc_native ev (mk_running b x irqs []) = Ok (mk_running b1 x1 [] ss, c)
  /\ ss = [RESOLVED_PACKET]
  /\ write_to recording b1 x1 = Fault OutOfBounds
  /\ (exists b2 x2 vs, run_ops pc_native [Put 1; Get; WriteTo recording]%Z b x = Ok (b2, x2, vs))
  /\ (exists b2 x2 vs, run_ops pc_native [Get; Put 1; WriteTo recording]%Z b x = Ok (b2, x2, vs)).
Proof.
  intros ev. destruct ex_pending as (b & H & ->).
  exists ex_keyring, ANY. eexists. eexists. eexists. exists ([[]; []; [1]]%Z).
  do 4 eexists. split; [exact ex_keyring_ok|]. split; [exact (proj1 ex_well_sized)|]. split; [exact H|]. clear H.
  split; [repeat constructor; range|]. split.
  { destruct ev as [[|] [|]]; vm_compute; reflexivity. }
  split; [reflexivity|]. split; [vm_compute; reflexivity|].
  split; do 3 eexists; vm_compute; reflexivity.
Qed.

(** Even a response which is not empty is not safe: the first bytes of it are
    lost. *)
Theorem C61_lost_refuted : forall ev, exists (kr : keyring log) ft b a x irqs b1 x1 c ss,
  keyring_ok pc_native kr /\ well_sized true kr ft /\ reached pc_native true kr ft b a x
  /\ mc_out a = [0; 3]%Z /\ mc_in a = [0; 0; 1]%Z
  /\ get_i pc_native ev (mk_running b x [[]; []; [2]]%Z []) = Ok (mk_running b1 x1 irqs ss, c)
  /\ ss = [RESOLVED_PACKET]
  (* the response is 0 0 0 3 *)
  /\ c = 0%Z /\ (exists b2, write_to recording b1 [] = Ok (b2, [(100, [VInt 3])])).
Proof.
  intros ev.
  assert (G : exists b, reached pc_native true ex_keyring ANY b
    (mk_machine [0; 0; 1]%Z [0; 3]%Z (map snd (kr_funcs ex_keyring))) [(0, [VInt (-2); VInt 5])]
    /\ b = mk_buffered (make_dispatcher ex_keyring ANY) true 1 3 2 4 (Double [0; 0; 1; 5; 0]%Z [0; 0; 0; 3]%Z)).
  { eexists. split; [|reflexivity].
    exists [], []. eexists. exists ([Put 0; Put 255; Put 254; Put 5; Get; Get; Put 0; Put 0; Put 1]%Z), []. eexists.
    split; [reflexivity|]. split; [legit|]. split; vm_compute; reflexivity. }
  destruct G as (b & H & ->).
  exists ex_keyring, ANY. eexists. eexists. eexists. exists [].
  do 4 eexists. split; [exact ex_keyring_ok|]. split; [exact (proj1 ex_well_sized)|]. split; [exact H|]. clear H.
  split; [reflexivity|]. split; [reflexivity|]. split.
  { destruct ev as [[|] [|]]; vm_compute; reflexivity. }
  split; [reflexivity|]. split; [reflexivity|]. eexists. vm_compute. reflexivity.
Qed.

(** Nor is [is_loaded] alone: its two reads are those of different responses.
    It tells that bytes are to be sent although there are none, neither before
    the interrupt nor after it. *)
Theorem C61_is_loaded_refuted : forall ev, exists (kr : keyring log) ft b a x b1 x1 ss,
  keyring_ok pc_native kr /\ well_sized true kr ft /\ reached pc_native true kr ft b a x
  /\ mc_out a = []
  /\ is_loaded_i pc_native ev (mk_running b x [[1]]%Z []) = Ok (mk_running b1 x1 [] ss, true)
  /\ ss = [RESOLVED_PACKET]
  /\ run_ops pc_native [IsLoaded; Put 1; IsLoaded]%Z b x
     = Ok (b1, x1, [OBool false; OStatus RESOLVED_PACKET; OBool false]).
Proof.
  intros ev.
  assert (G : exists b, reached pc_native true ex_keyring ANY b
    (mk_machine [] [] (map snd (kr_funcs ex_keyring))) [(0, [VInt (-2); VInt 5])]
    /\ b = mk_buffered (make_dispatcher ex_keyring ANY) false 1 0 4 4 (Double [0; 255; 254; 5; 0]%Z [0; 0; 0; 3]%Z)).
  { eexists. split; [|reflexivity].
    exists [], []. eexists. exists ([Put 0; Put 255; Put 254; Put 5; Get; Get; Get; Get]%Z), []. eexists.
    split; [reflexivity|]. split; [legit|]. split; vm_compute; reflexivity. }
  destruct G as (b & H & ->).
  exists ex_keyring, ANY. eexists. eexists. eexists.
  do 3 eexists. split; [exact ex_keyring_ok|]. split; [exact (proj1 ex_well_sized)|]. split; [exact H|]. clear H.
  split; [reflexivity|]. split.
  { destruct ev as [[|] [|]]; vm_compute; reflexivity. }
  split; [reflexivity|]. vm_compute. reflexivity.
Qed.

Print Assumptions C61_get_partial.
Print Assumptions C61_is_loaded_partial.
Print Assumptions C61_write_to_partial.
Print Assumptions C61_refuted.
Print Assumptions C61_lost_refuted.
Print Assumptions C61_is_loaded_refuted.
