(** Property C73: two devices which both initiate requests, with [reply]. *)

From Coq Require Import List ZArith Lia Bool Arith.
From Verif Require Import Base CInt Spec IntModel Conditions MemFacts TypeLevel Serial TupleModel
  TypeLevelProofs IntProofs SignedProofs SerialProofs CodecFacts Bounds TupleProofs SpecRpc Rpc RpcProofs
  Hosts Closed PropertiesTypes PropertiesRpc Buffered SpecBuffered BufferedProofs PropertiesBuffered
  PropertiesBuffers PropertiesPackets PropertiesReply PropertiesStreams Network PropertiesNetwork Pipeline
  PropertiesPipeline Multimaster.
Import ListNotations.
Open Scope nat_scope.

(** ** Specification *)

(** The array of the callback which handles responses holds the response, and the
    request is not for the callback of the peer which handles responses. *)
Definition answerable (n r : nat) (t : demand) : Prop :=
  let '(_, (k, _)) := t in
  k_index k <> r
  /\ match sig_ret (k_sig k) with
     | Some ty => 1 <= wire_size ty <= n
     | None => True
     end.

(** The turns a request takes: it is written, each of its bytes is received; if it
    is answered each byte of the answer, an index and an array of [n] bytes, is
    received. *)
Definition turns_of_answer (w n : nat) (k : key) : nat :=
  match sig_ret (k_sig k) with Some _ => w + n | None => 0 end.
Definition turns_of_demand (w n : nat) (t : demand) : nat :=
  let '(_, (k, _)) := t in
  1 + (k_index_size k + wire_sizes (sig_params (k_sig k))) + turns_of_answer w n k.
Definition turns_of_demands (w n : nat) (ts : list demand) : nat := list_sum (map (turns_of_demand w n) ts).

(** Both devices write a request and receive a byte at least once, whatever is in
    the memory of the local arrays. *)
Definition full_round (turns : list (bool * activity)) : Prop :=
  forall s, In (s, Request) turns /\ exists garbage, In (s, Listen garbage) turns.

Definition byte_turn (turn : bool * activity) : Prop :=
  match snd turn with Request => True | Listen garbage => Forall is_byte garbage end.

(** ** The keyring of a device *)

Lemma callbacks_sigs : forall (X : Type) p r (fs : list (nat * func X)),
  map (fun nf => f_sig (snd nf)) (callbacks p r fs) = map (fun nf => f_sig (snd nf)) fs.
Proof.
  intros X p r fs. revert r. induction fs as [|nf fs IHfs]; intros r; cbn [callbacks map]; auto.
  destruct nf as [name f]. destruct r as [|r]; cbn [map snd f_sig on_response on_user]; [|rewrite IHfs; reflexivity].
  rewrite map_map. reflexivity.
Qed.

Lemma callbacks_length : forall (X : Type) p r (fs : list (nat * func X)), length (callbacks p r fs) = length fs.
Proof.
  intros. pose proof (f_equal (@length _) (callbacks_sigs X p r fs)) as H. rewrite !map_length in H. exact H.
Qed.

Lemma callbacks_user : forall (X : Type) p (fs : list (nat * func X)) r i name f, i <> r ->
  nth_error fs i = Some (name, f) -> nth_error (callbacks p r fs) i = Some (name, on_user f).
Proof.
  intros X p. induction fs as [|[name0 f0] fs IH]; intros r i name f Hne Hn; [destruct i; discriminate|].
  destruct i as [|i]; cbn [nth_error callbacks] in *.
  - destruct r as [|r]; [lia|]. cbn [nth_error]. injection Hn as -> ->. reflexivity.
  - destruct r as [|r]; cbn [nth_error].
    + rewrite nth_error_map, Hn. reflexivity.
    + apply IH; auto.
Qed.

Lemma callbacks_response : forall (X : Type) p (fs : list (nat * func X)) r name f,
  nth_error fs r = Some (name, f) -> nth_error (callbacks p r fs) r = Some (name, on_response p (f_sig f)).
Proof.
  intros X p. induction fs as [|[name0 f0] fs IH]; intros r name f Hn; [destruct r; discriminate|].
  destruct r as [|r]; cbn [nth_error callbacks] in *; [|auto]. injection Hn as -> ->. reflexivity.
Qed.

Section Keyring.
  Context {X : Type}.
  Variables (p : platform) (r : nat) (kr : keyring X).

  Lemma device_sigs : kr_signatures (device_keyring p r kr) = kr_signatures kr.
  Proof. unfold kr_signatures, device_keyring. cbn [kr_funcs]. apply callbacks_sigs. Qed.

  Lemma device_index_size : kr_index_size (device_keyring p r kr) = kr_index_size kr.
  Proof. unfold kr_index_size, device_keyring. cbn [kr_funcs]. rewrite callbacks_length. reflexivity. Qed.

  Lemma device_ok : forall q, keyring_ok q kr -> keyring_ok q (device_keyring p r kr).
  Proof.
    intros q [H1 H2]. split; [cbn [device_keyring kr_funcs]; rewrite callbacks_length; exact H1|].
    cbn [device_keyring kr_e kr_m].
    apply (proj1 (Forall_map (fun nf : nat * func (master X) => f_sig (snd nf)) (sig_ok q (kr_e kr) (kr_m kr)) _)).
    cbn [device_keyring kr_funcs]. rewrite callbacks_sigs, Forall_map. exact H2.
  Qed.

  Lemma device_well_sized : forall dbl ft, well_sized dbl kr ft -> well_sized dbl (device_keyring p r kr) ft.
  Proof. intros dbl ft H. unfold well_sized, out_capacity, max_native in *. rewrite device_sigs, device_index_size. exact H. Qed.
End Keyring.

(** ** Reading a response in an array *)

Section Reading.
  Context {X : Type}.
  Variables (p : platform) (kr : keyring X).
  Hypothesis Hp : wf_platform p.
  Hypothesis Hk : keyring_ok p kr.
  Variables (name : nat) (f : func X) (k : key) (args : list val) (x x1 : X) (r : val).
  Hypothesis Hin : In (name, f) (kr_funcs kr).
  Hypothesis Hget : kr_get kr name f = Some k.
  Hypothesis Hc : calls p kr f args x x1 r.
  Hypothesis Hret : sig_ret (f_sig f) <> None.

  Lemma receive_array : forall hooked more vs, receive p hooked k (answer kr f r ++ more) vs = Ok (vs ++ [r]).
  Proof.
    intros hooked more vs. destruct (key_fields kr name f k Hin Hget) as [_ Ek].
    pose proof (key_sig_ok p kr Hk name f Hin) as Hs. pose proof (answer_length p kr f args x x1 r Hc) as Hl.
    assert (Epull : pull list_source (wire_size_ret (sig_ret (f_sig f))) (answer kr f r ++ more) = Ok (more, answer kr f r)).
    { rewrite <- Hl, pull_list by (rewrite app_length; lia).
      rewrite skipn_app, skipn_all, Nat.sub_diag, firstn_app, firstn_all, Nat.sub_diag. cbn [skipn firstn app].
      rewrite app_nil_r. reflexivity. }
    destruct (sig_ret (f_sig f)) as [t|] eqn:Er; [|congruence].
    destruct hooked; unfold receive.
    - rewrite C34_input_only.
      pose proof (C34_hook _ p ANY k (recorder k) recording_source (fun _ y => Ok y) (answer kr f r ++ more, vs) (more, vs) r Hp) as H.
      rewrite Ek in H at 1 2 3 4 5 6 7 8 9. cbn [k_e k_m k_sig recorder f_sig sig_params sig_ret] in H.
      rewrite Ek in H. cbn [k_e k_m k_sig] in H. rewrite Er in H. cbn [f_call snd fst] in H.
      rewrite Ek. rewrite H; auto.
      + split; [|exact I]. destruct Hs as [_ Hs]. rewrite Er in Hs. cbn [ret_ty_ok sig_params] in *.
        constructor; [apply Hs|constructor].
      + destruct Hc as (_ & _ & Hr). rewrite Er in Hr. exact Hr.
      + rewrite pull_recording. cbn [wire_size_ret] in *. rewrite Epull. cbn [bind].
        unfold answer. rewrite Er. reflexivity.
      + exact I.
    - assert (Esk : sig_ret (k_sig k) = Some t) by (rewrite Ek; exact Er).
      rewrite (C28_returns _ p k list_source (answer kr f r ++ more) more r); auto.
      + rewrite Esk. reflexivity.
      + rewrite Ek. cbn [k_e k_m k_sig]. apply Hs.
      + rewrite Ek. cbn [k_e k_m k_sig]. apply Hc.
      + rewrite Esk. rewrite Epull. unfold answer. rewrite Er, Ek. reflexivity.
  Qed.
End Reading.

(** ** Receiving a byte *)

Section Receiving.
  Context {X : Type}.
  Variables (q : platform) (dbl : bool) (kr : keyring X) (ft : action_features).
  Hypothesis Hq : wf_platform q.
  Hypothesis Hk : keyring_ok q kr.
  Hypothesis Hs : well_sized dbl kr ft.

  (** The world is changed by something else than the dispatcher. *)
  Lemma reached_outside : forall b a x x', reached q dbl kr ft b a x -> reached q dbl kr ft b a x'.
  Proof.
    intros b a x x' H.
    destruct (reached_step q dbl kr ft Hq Hk Hs (Outside (fun _ => x')) b a x a x' ONone H) as (b2 & S2 & H2).
    { split; [exact I|right; exact I]. } { reflexivity. }
    cbn [step] in S2. assert (b2 = b) by congruence. subst b2. exact H2.
  Qed.

  Lemma put_packet : forall b a x i name f args x0 r c u rest,
    reached q dbl kr ft b a x -> mc_table a = map snd (kr_funcs kr) -> mc_out a = [] ->
    nth_error (kr_funcs kr) i = Some (name, f) -> calls q kr f args x x0 r ->
    mc_in a ++ c :: u = packet kr i f args ++ rest -> length (mc_in a) < length (packet kr i f args) ->
    (exists b' a', put q c b x = Ok (b', x0, RESOLVED_PACKET) /\ reached q dbl kr ft b' a' x0
       /\ mc_table a' = map snd (kr_funcs kr) /\ mc_in a' = [] /\ mc_out a' = answer kr f r /\ u = rest)
    \/ (exists b' a', put q c b x = Ok (b', x, LOADING_PACKET) /\ reached q dbl kr ft b' a' x
       /\ mc_table a' = map snd (kr_funcs kr) /\ mc_in a' = mc_in a ++ [c] /\ mc_out a' = []
       /\ length (mc_in a') < length (packet kr i f args)).
  Proof.
    intros b a x i name f args x0 r c u rest H Htab Hout Hn Hc Hbytes Hsh.
    pose proof (reached_table q dbl kr ft Hq Hk Hs b a x H) as Ht.
    assert (Hi : nth_error (mc_table a) i = Some f) by (rewrite Htab, nth_error_map, Hn; reflexivity).
    destruct (app_prefix _ _ _ _ _ Hbytes Hsh) as [Hpre Hu].
    assert (Hb : is_byte c).
    { pose proof (packet_bytes kr i f args) as Hb. rewrite Forall_forall in Hb. apply Hb.
      rewrite <- (firstn_skipn (S (length (mc_in a))) (packet kr i f args)), <- Hpre.
      apply in_or_app. left. apply in_or_app. right. left. reflexivity. }
    destruct (Nat.eq_dec (S (length (mc_in a))) (length (packet kr i f args))) as [Hlast|Hlast]; [left|right].
    - assert (Epk : mc_in a ++ [c] = packet kr i f args) by (rewrite Hpre; apply firstn_all2; lia).
      destruct (received_packet q kr Hk (mc_table a) Ht i f args x x0 r a Hi Hc eq_refl) as [Hrec Hsv].
      destruct (reached_step q dbl kr ft Hq Hk Hs (Put c) b a x (mk_machine [] (answer kr f r) (mc_table a)) x0
                  (OStatus RESOLVED_PACKET) H) as (b2 & S2 & H2).
      { split; [|right; exact Hout]. cbn [step_ok]. rewrite Epk. auto. }
      { cbn [mc_step]. unfold mc_put. rewrite Epk, Hrec. reflexivity. }
      cbn [step] in S2. ok_inv S2 t. destruct t as [[b3 x3] st]. injection S2 as -> -> ->.
      do 2 eexists. split; [reflexivity|]. split; [exact H2|]. split; [exact Htab|]. split; [reflexivity|].
      split; [reflexivity|]. rewrite Hu, skipn_all2 by lia. reflexivity.
    - destruct (received_prefix q kr Hk (mc_table a) Ht i f args x x0 r a (S (length (mc_in a))) x Hi Hc) as [Hrec Hsv]; auto.
      { lia. }
      destruct (reached_step q dbl kr ft Hq Hk Hs (Put c) b a x (mk_machine (mc_in a ++ [c]) (mc_out a) (mc_table a)) x
                  (OStatus LOADING_PACKET) H) as (b2 & S2 & H2).
      { split; [|right; exact Hout]. cbn [step_ok]. rewrite Hpre. auto. }
      { cbn [mc_step]. unfold mc_put. rewrite Hpre, Hrec. reflexivity. }
      cbn [step] in S2. ok_inv S2 t. destruct t as [[b3 x3] st]. injection S2 as -> -> ->.
      do 2 eexists. split; [reflexivity|]. split; [exact H2|]. split; [exact Htab|]. split; [reflexivity|].
      split; [exact Hout|]. cbn [mc_in]. rewrite app_length. cbn [length]. lia.
  Qed.
End Receiving.

(** ** Both devices *)

Lemma both_sides : forall (P : bool -> Prop) s, P s -> P (negb s) -> forall s', P s'.
Proof. intros P [|] H1 H2 [|]; auto. Qed.

Lemma at_same : forall (A : Type) s (v : A) f, at_side s v f s = v.
Proof. intros. unfold at_side. rewrite eqb_reflx. reflexivity. Qed.
Lemma at_other : forall (A : Type) s (v : A) f, at_side s v f (negb s) = f (negb s).
Proof. intros A [|]; reflexivity. Qed.
Lemma at_other' : forall (A : Type) s (v : A) f, at_side (negb s) v f s = f s.
Proof. intros A [|]; reflexivity. Qed.

Lemma push_send : forall (X : Type) bs (w : master X),
  push send bs w = Ok (mk_master (ms_x w) (ms_pending w) (ms_results w) (ms_lost w) (ms_out w ++ bs)).
Proof.
  induction bs as [|c bs IH]; intros w; cbn [push].
  - rewrite app_nil_r. destruct w; reflexivity.
  - unfold send at 1. cbn [bind]. rewrite IH. cbn [ms_x ms_pending ms_results ms_lost ms_out].
    rewrite <- app_assoc. reflexivity.
Qed.

(** A message on its way: a request, or the answer [v] of a request. *)
Inductive msg : Type :=
| Req (t : demand)
| Rep (hooked : bool) (k : key) (buf : list Z) (v : val).

Definition reqs_of (ms : list msg) : list demand :=
  flat_map (fun m => match m with Req t => [t] | Rep _ _ _ _ => [] end) ms.
Definition reps_of (ms : list msg) : list ((bool * key) * val) :=
  flat_map (fun m => match m with Req _ => [] | Rep h k _ v => [((h, k), v)] end) ms.
Definition awaited (ts : list demand) : list (bool * key) :=
  flat_map (fun t => let '(h, (k, _)) := t in match sig_ret (k_sig k) with Some _ => [(h, k)] | None => [] end) ts.

Definition turns_of_answers (w n : nat) (ts : list demand) : nat :=
  list_sum (map (fun t : demand => turns_of_answer w n (fst (snd t))) ts).
Lemma turns_of_answers_cons : forall w n h k args ts,
  turns_of_answers w n ((h, (k, args)) :: ts) = turns_of_answer w n k + turns_of_answers w n ts.
Proof. reflexivity. Qed.
Lemma turns_of_answers_app : forall w n ts us, turns_of_answers w n (ts ++ us) = turns_of_answers w n ts + turns_of_answers w n us.
Proof. intros. unfold turns_of_answers. rewrite map_app, list_sum_app. reflexivity. Qed.
Lemma turns_of_demands_cons : forall w n t ts, turns_of_demands w n (t :: ts) = turns_of_demand w n t + turns_of_demands w n ts.
Proof. reflexivity. Qed.
Lemma reqs_app : forall m1 m2, reqs_of (m1 ++ m2) = reqs_of m1 ++ reqs_of m2.
Proof. intros. apply flat_map_app. Qed.
Lemma reps_app : forall m1 m2, reps_of (m1 ++ m2) = reps_of m1 ++ reps_of m2.
Proof. intros. apply flat_map_app. Qed.
Lemma awaited_app : forall m1 m2, awaited (m1 ++ m2) = awaited m1 ++ awaited m2.
Proof. intros. apply flat_map_app. Qed.

(** Each of the calls made locally can be made. *)
Lemma locally_member : forall (X : Type) p q (kr : keyring X) reqs x vs x2 k args, locally p q kr reqs x vs x2 ->
  In (k, args) reqs -> exists name f y y1 r, In (name, f) (kr_funcs kr) /\ kr_get kr name f = Some k
    /\ calls p kr f args y y1 r.
Proof.
  intros X p q kr reqs x vs x2 k args H. induction H as [x|name f k0 args0 x x1 r reqs vs x2 Hin Hget Hc Hc' H IH]; intros Hi.
  - destruct Hi.
  - destruct Hi as [E|Hi]; [|auto]. injection E as -> ->. exists name, f, x, x1, r. auto.
Qed.

Lemma write_packet : forall (X Y : Type) p (kr : keyring X) name f k args x x1 r (dest : destination Y) y,
  wf_platform p -> keyring_ok p kr -> In (name, f) (kr_funcs kr) -> kr_get kr name f = Some k -> calls p kr f args x x1 r ->
  key_write p k args dest y = push dest (packet kr (k_index k) f args) y.
Proof.
  intros X Y p kr name f k args x x1 r dest y Hp Hk Hin Hget Hc.
  destruct (key_fields kr name f k Hin Hget) as [H1 H2]. unfold key_write. rewrite H2 at 1 2 3 4 6. cbn [k_index_size k_sig k_e k_m].
  pose proof (key_sig_ok p kr Hk name f Hin) as Hso.
  destruct Hk as [Hl _]. destruct (index_size X kr Hl) as (_ & Hsp & _).
  assert (Hlt : k_index k < length (kr_funcs kr)) by (apply nth_error_Some; congruence).
  rewrite write_tuple_ok; auto.
  - constructor; [apply index_ty_ok; auto|apply Hso].
  - constructor; [|apply Hc]. split; cbn [has_type all_signed]; auto. lia.
Qed.

Lemma key_packet : forall (X : Type) (kr : keyring X) name f k args, In (name, f) (kr_funcs kr) -> kr_get kr name f = Some k ->
  request (k_e k) (k_m k) (k_index_size k) (k_index k) (sig_params (k_sig k)) args = packet kr (k_index k) f args.
Proof.
  intros X kr name f k args Hin Hget. destruct (key_fields kr name f k Hin Hget) as [_ Ek].
  rewrite Ek at 1 2 3 5. reflexivity.
Qed.

Section System.
  Context {X : Type}.
  Variables (d : devices X) (dbl : bool -> bool) (ft : bool -> action_features) (n : bool -> nat).
  Hypothesis Hp : forall s, wf_platform (dv_p d s).
  Hypothesis Hk : forall s s', keyring_ok (dv_p d s) (dv_kr d s').
  Hypothesis Hs : forall s, well_sized (dbl s) (dv_kr d s) (ft s).
  Hypothesis Hr : forall s, exists name f, In (name, f) (kr_funcs (dv_kr d s))
    /\ kr_get (dv_kr d s) name f = Some (dv_k d s) /\ f_sig f = mk_sig [TArr (TUns 1) (n s)] None.
  Variables (all : bool -> list val) (x2 : bool -> X).

  Definition dkr (s : bool) : keyring (master X) := device_keyring (dv_p d s) (k_index (dv_k d s)) (dv_kr d s).

  Definition msg_bytes (s : bool) (m : msg) : list Z :=
    match m with
    | Req (_, (k, args)) => request (k_e k) (k_m k) (k_index_size k) (k_index k) (sig_params (k_sig k)) args
    | Rep _ _ buf _ => reply_request (dv_k d (negb s)) buf
    end.

  Definition msg_ok (s : bool) (m : msg) : Prop :=
    match m with
    | Req _ => True
    | Rep h k buf v => length buf = n (negb s) /\ Forall is_byte buf
        /\ forall vs, receive (dv_p d (negb s)) h k buf vs = Ok (vs ++ [v])
    end.

  Definition side_inv (st : bool -> station X) (a : bool -> machine (master X)) (ms : bool -> list msg)
      (vs : bool -> list (option val)) (s : bool) : Prop :=
    reached (dv_p d s) (dbl s) (dkr s) (ft s) (st_b (st s)) (a s) (st_w (st s))
    /\ mc_table (a s) = map snd (kr_funcs (dkr s))
    /\ mc_out (a s) = []
    /\ mc_in (a (negb s)) ++ ms_out (st_w (st s)) = concat (map (msg_bytes s) (ms s))
    /\ short (map (msg_bytes s) (ms s)) (mc_in (a (negb s)))
    /\ Forall (msg_ok s) (ms s)
    /\ locally (dv_p d s) (dv_p d (negb s)) (dv_kr d (negb s)) (map snd (reqs_of (ms s) ++ st_todo (st s)))
         (ms_x (st_w (st (negb s)))) (vs s) (x2 (negb s))
    /\ Forall (answerable (n s) (k_index (dv_k d (negb s)))) (reqs_of (ms s) ++ st_todo (st s))
    /\ ms_pending (st_w (st s)) = map fst (reps_of (ms (negb s))) ++ awaited (reqs_of (ms s))
    /\ ms_results (st_w (st s)) ++ map snd (reps_of (ms (negb s))) ++ values (vs s) = all s
    /\ ms_lost (st_w (st s)) = false.

  (** The turns which remain to be taken for what [s] initiated, and for the
      bytes it sent. *)
  Definition left_of (st : bool -> station X) (ms : bool -> list msg) (s : bool) : nat :=
    length (ms_out (st_w (st s))) + turns_of_demands (k_index_size (dv_k d s)) (n s) (st_todo (st s))
    + turns_of_answers (k_index_size (dv_k d s)) (n s) (reqs_of (ms s)).

  Definition inv (m : nat) (st : bool -> station X) : Prop :=
    exists a ms vs, (forall s, side_inv st a ms vs s) /\ m = left_of st ms true + left_of st ms false.

  Lemma left_both : forall st ms s, left_of st ms true + left_of st ms false = left_of st ms s + left_of st ms (negb s).
  Proof. intros st ms [|]; cbn [negb]; lia. Qed.

  Lemma response_key : forall s, reply_key (dv_k d s) (n s)
    /\ dv_k d s = mk_key (kr_index_size (dv_kr d s)) (k_index (dv_k d s)) (mk_sig [TArr (TUns 1) (n s)] None)
                     (kr_e (dv_kr d s)) (kr_m (dv_kr d s))
    /\ exists name, nth_error (kr_funcs (dkr s)) (k_index (dv_k d s))
                     = Some (name, on_response (dv_p d s) (mk_sig [TArr (TUns 1) (n s)] None)).
  Proof.
    intros s. destruct (Hr s) as (name & f & Hin & Hget & Hsig).
    destruct (key_fields _ name f _ Hin Hget) as [Hn Ek]. rewrite Hsig in Ek.
    destruct (index_size X (dv_kr d s) ltac:(apply (Hk s s))) as (Hw & Hsp & _).
    assert (Hlt : k_index (dv_k d s) < length (kr_funcs (dv_kr d s))) by (apply nth_error_Some; congruence).
    split; [|split; [exact Ek|]].
    - split; [rewrite Ek; reflexivity|]. split.
      { pose proof (proj2 (Hk s s)) as Hf. rewrite Forall_forall in Hf. specialize (Hf _ Hin).
        cbn [snd] in Hf. rewrite Hsig in Hf. destruct Hf as [Hf _]. inversion Hf as [|? ? Ht _]. apply Ht. }
      rewrite Ek. cbn [k_index_size k_index]. split; [exact Hw|].
      eapply Z.lt_trans; [|exact Hsp]. lia.
    - exists name. cbn [dkr device_keyring kr_funcs]. rewrite <- Hsig. apply callbacks_response. exact Hn.
  Qed.

  Lemma dkr_ok : forall s, keyring_ok (dv_p d s) (dkr s).
  Proof. intros s. apply device_ok. apply Hk. Qed.
  Lemma dkr_well_sized : forall s, well_sized (dbl s) (dkr s) (ft s).
  Proof. intros s. apply device_well_sized. apply Hs. Qed.

  Lemma outside : forall s b a w w', reached (dv_p d s) (dbl s) (dkr s) (ft s) b a w ->
    reached (dv_p d s) (dbl s) (dkr s) (ft s) b a w'.
  Proof. intros s b a w w'. apply reached_outside; [apply Hp|apply dkr_ok|apply dkr_well_sized]. Qed.

  Lemma inv_request : forall m st s, inv m st ->
    (make_request d s st = Ok None /\ st_todo (st s) = [])
    \/ exists st' m', make_request d s st = Ok (Some st') /\ m = S m' /\ inv m' st'.
  Proof.
    intros m st s (a & ms & vs & H & ->). unfold make_request.
    destruct (st_todo (st s)) as [|[h [k args]] todo] eqn:Et; [left; auto|right].
    pose proof (H s) as (R & T & O & B & Sh & M & L & A & P & V & Lo).
    pose proof (H (negb s)) as (R' & T' & O' & B' & Sh' & M' & L' & A' & P' & V' & Lo'). rewrite negb_involutive in *.
    rewrite Et in L, A.
    destruct (locally_member _ _ _ _ _ _ _ _ k args L) as (name & f & y & y1 & r & Hin & Hget & Hc).
    { rewrite map_app. apply in_or_app. right. left. reflexivity. }
    rewrite (write_packet _ _ _ _ name f k args y y1 r send (st_w (st s)) (Hp s) (Hk s (negb s)) Hin Hget Hc).
    rewrite push_send. cbn [bind ms_x ms_pending ms_results ms_lost ms_out].
    pose proof (key_packet _ _ name f k args Hin Hget) as Epk.
    pose proof (packet_length (dv_p d s) (dv_kr d (negb s)) (k_index k) f args y y1 r Hc) as Hlen.
    destruct (key_fields _ name f k Hin Hget) as [_ Ek].
    assert (Hw : 1 <= kr_index_size (dv_kr d (negb s))) by (apply (index_size X (dv_kr d (negb s)) ltac:(apply (Hk s (negb s))))).
    do 2 eexists. split; [reflexivity|]. split.
    2:{ exists a, (at_side s (ms s ++ [Req (h, (k, args))]) ms), vs. split.
        2: reflexivity.
        apply (both_sides _ s); unfold side_inv; rewrite ?negb_involutive, !at_same, !at_other;
          cbn [st_todo st_b st_w ms_x ms_pending ms_results ms_lost ms_out].
        - split; [eapply outside; exact R|]. split; [exact T|]. split; [exact O|].
          rewrite map_app, concat_app, reqs_app, <- app_assoc. cbn [map concat reqs_of flat_map msg_bytes app].
          rewrite Epk, app_nil_r.
          split; [rewrite app_assoc, B; reflexivity|].
          split. { apply short_app; auto. intros _. cbn [short length]. lia. }
          split. { apply Forall_app. split; [exact M|]. constructor; [exact I|constructor]. }
          split; [exact L|]. split; [exact A|].
          split. { rewrite P, awaited_app, <- app_assoc. cbn [awaited flat_map]. rewrite app_nil_r. reflexivity. }
          split; [exact V|exact Lo].
        - split; [exact R'|]. split; [exact T'|]. split; [exact O'|]. split; [exact B'|]. split; [exact Sh'|].
          split; [exact M'|]. split; [exact L'|]. split; [exact A'|].
          rewrite reps_app. cbn [reps_of flat_map]. rewrite app_nil_r. split; [exact P'|]. split; [exact V'|exact Lo']. }
    rewrite !(left_both _ _ s). unfold left_of. rewrite !at_same, !at_other, Et. cbn [st_todo st_b st_w ms_out].
    rewrite reqs_app, turns_of_answers_app, turns_of_demands_cons. cbn [reqs_of flat_map app].
    rewrite turns_of_answers_cons. change (turns_of_answers (k_index_size (dv_k d s)) (n s) []) with 0. cbn [turns_of_demand].
    assert (E1 : k_index_size k = kr_index_size (dv_kr d (negb s))) by (rewrite Ek; reflexivity).
    assert (E2 : k_sig k = f_sig f) by (rewrite Ek; reflexivity).
    rewrite app_length, Hlen, E1, E2. fold (reqs_of (ms s)). lia.
  Qed.

  Lemma reqs_in : forall ms h k args, In (Req (h, (k, args))) ms -> In (h, (k, args)) (reqs_of ms).
  Proof. intros ms h k args H. apply in_flat_map. exists (Req (h, (k, args))). split; [exact H|left; reflexivity]. Qed.

  Lemma short_msgs : forall s ms, (forall h k args, In (Req (h, (k, args))) ms -> 1 <= k_index_size k) ->
    short (map (msg_bytes s) ms) [].
  Proof.
    intros s [|m ms] H; cbn [map short]; auto. destruct m as [[h [k args]]|h k buf v]; cbn [msg_bytes length].
    - unfold request. rewrite app_length, wire_bytes_length. specialize (H h k args (or_introl eq_refl)). lia.
    - unfold reply_request. rewrite app_length, wire_bytes_length. destruct (response_key (negb s)) as ((_ & _ & Hw & _) & _). lia.
  Qed.

  (** Only a part of a message was received. *)
  Lemma listen_part : forall st a ms vs s c out b' a',
    (forall s, side_inv st a ms vs s) -> ms_out (st_w (st (negb s))) = c :: out ->
    reached (dv_p d s) (dbl s) (dkr s) (ft s) b' a' (st_w (st s)) ->
    mc_table a' = map snd (kr_funcs (dkr s)) -> mc_in a' = mc_in (a s) ++ [c] -> mc_out a' = [] ->
    short (map (msg_bytes (negb s)) (ms (negb s))) (mc_in a') ->
    let st' := at_side s (mk_station (st_todo (st s)) b' (st_w (st s)))
                 (at_side (negb s)
                    (mk_station (st_todo (st (negb s))) (st_b (st (negb s)))
                       (mk_master (ms_x (st_w (st (negb s)))) (ms_pending (st_w (st (negb s))))
                          (ms_results (st_w (st (negb s)))) (ms_lost (st_w (st (negb s)))) out)) st) in
    (forall s', side_inv st' (at_side s a' a) ms vs s')
    /\ left_of st ms true + left_of st ms false = S (left_of st' ms true + left_of st' ms false).
  Proof.
    intros st a ms vs s c out b' a' H Eo R1 T1 I1 O1 Sh1 st'.
    pose proof (H s) as (R & T & O & B & Sh & M & L & A & P & V & Lo).
    pose proof (H (negb s)) as (R' & T' & O' & B' & Sh' & M' & L' & A' & P' & V' & Lo'). rewrite negb_involutive in *.
    unfold st'. split.
    - apply (both_sides _ s); unfold side_inv; rewrite ?negb_involutive, ?at_same, ?at_other, ?at_same;
        cbn [st_todo st_b st_w ms_x ms_pending ms_results ms_lost ms_out].
      + split; [exact R1|]. auto 15.
      + split; [eapply outside; exact R'|]. split; [exact T'|]. split; [exact O'|].
        split; [rewrite I1, <- app_assoc; cbn [app]; rewrite <- Eo; exact B'|]. auto 15.
    - rewrite !(left_both _ _ s). unfold left_of. rewrite !at_same, !at_other, !at_same, Eo. cbn [st_todo st_w ms_out length]. lia.
  Qed.

  (** A whole message was received: the world of the device is [w'] and [sent] is
      on its way to the other device. *)
  Lemma listen_whole : forall st a ms vs s c out b' a' w' m rest sent v',
    (forall s, side_inv st a ms vs s) -> ms_out (st_w (st (negb s))) = c :: out ->
    ms (negb s) = m :: rest -> out = concat (map (msg_bytes (negb s)) rest) ->
    reached (dv_p d s) (dbl s) (dkr s) (ft s) b' a' w' ->
    mc_table a' = map snd (kr_funcs (dkr s)) -> mc_in a' = [] -> mc_out a' = [] ->
    ms_out w' = ms_out (st_w (st s)) ++ concat (map (msg_bytes s) sent) ->
    reqs_of sent = [] -> Forall (msg_ok s) sent ->
    locally (dv_p d (negb s)) (dv_p d s) (dv_kr d s) (map snd (reqs_of rest ++ st_todo (st (negb s)))) (ms_x w') v' (x2 s) ->
    ms_pending w' = map fst (reps_of rest) ++ awaited (reqs_of (ms s)) ->
    ms_results w' ++ map snd (reps_of rest) ++ values (vs s) = all s ->
    ms_lost w' = false ->
    map fst (reps_of sent) ++ awaited (reqs_of rest) = awaited (reqs_of (m :: rest)) ->
    map snd (reps_of sent) ++ values v' = values (vs (negb s)) ->
    length (concat (map (msg_bytes s) sent)) + turns_of_answers (k_index_size (dv_k d (negb s))) (n (negb s)) (reqs_of rest)
      = turns_of_answers (k_index_size (dv_k d (negb s))) (n (negb s)) (reqs_of (m :: rest)) ->
    let st' := at_side s (mk_station (st_todo (st s)) b' w')
                 (at_side (negb s)
                    (mk_station (st_todo (st (negb s))) (st_b (st (negb s)))
                       (mk_master (ms_x (st_w (st (negb s)))) (ms_pending (st_w (st (negb s))))
                          (ms_results (st_w (st (negb s)))) (ms_lost (st_w (st (negb s)))) out)) st) in
    exists m', left_of st ms true + left_of st ms false = S m' /\ inv m' st'.
  Proof.
    intros st a ms vs s c out b' a' w' m rest sent v' H Eo Em Eout R1 T1 I1 O1 W1 Q1 M1 L1 P1 V1 Lo1 Aw Va Le st'.
    pose proof (H s) as (R & T & O & B & Sh & M & L & A & P & V & Lo).
    pose proof (H (negb s)) as (R' & T' & O' & B' & Sh' & M' & L' & A' & P' & V' & Lo'). rewrite negb_involutive in *.
    rewrite Em in *.
    assert (Hsent : short (map (msg_bytes s) sent) []).
    { apply short_msgs. intros h k args Hi. apply reqs_in in Hi. rewrite Q1 in Hi. destruct Hi. }
    assert (Hrest : short (map (msg_bytes (negb s)) rest) []).
    { apply short_msgs. intros h k args Hi. apply reqs_in in Hi.
      destruct (locally_member _ _ _ _ _ _ _ _ k args L1) as (name & f & y & y1 & r & Hin & Hget & _).
      - apply (in_map snd) in Hi. rewrite map_app. apply in_or_app. auto.
      - destruct (key_fields _ name f k Hin Hget) as [_ Ek]. rewrite Ek. cbn [k_index_size].
        apply (index_size X (dv_kr d s) ltac:(apply (Hk s s))). }
    exists (left_of st' (at_side s (ms s ++ sent) (at_side (negb s) rest ms)) true
            + left_of st' (at_side s (ms s ++ sent) (at_side (negb s) rest ms)) false). split.
    - rewrite !(left_both _ _ s). unfold left_of, st'. rewrite !at_same, !at_other, !at_same, Eo, Em.
      cbn [st_todo st_w ms_out length].
      rewrite W1, reqs_app, Q1, app_nil_r, app_length. lia.
    - exists (at_side s a' a), (at_side s (ms s ++ sent) (at_side (negb s) rest ms)), (at_side (negb s) v' vs).
      split; [|reflexivity].
      apply (both_sides _ s); unfold side_inv, st'; rewrite ?negb_involutive, ?at_same, ?at_other, ?at_same, ?at_other';
        cbn [st_todo st_b st_w ms_x ms_pending ms_results ms_lost ms_out].
      + split; [exact R1|]. split; [exact T1|]. split; [exact O1|].
        rewrite map_app, concat_app, reqs_app, Q1, app_nil_r.
        split; [rewrite W1, app_assoc, B; reflexivity|].
        split; [apply short_app; auto|]. split; [apply Forall_app; auto|]. split; [exact L|]. split; [exact A|].
        split; [exact P1|]. split; [exact V1|exact Lo1].
      + split; [eapply outside; exact R'|]. split; [exact T'|]. split; [exact O'|].
        rewrite I1. cbn [app]. split; [exact Eout|]. split; [exact Hrest|].
        split; [inversion M'; auto|]. split; [exact L1|].
        split. { cbn [reqs_of flat_map] in A'. rewrite <- app_assoc in A'. apply Forall_app in A'. apply A'. }
        rewrite reps_app, !map_app, <- !app_assoc.
        split; [rewrite P', <- Aw; reflexivity|]. split; [rewrite Va; exact V'|exact Lo'].
  Qed.

  Lemma inv_listen : forall m st s garbage, inv m st -> Forall is_byte garbage ->
    (listen d s garbage st = Ok None /\ ms_out (st_w (st (negb s))) = [])
    \/ exists st' m', listen d s garbage st = Ok (Some st') /\ m = S m' /\ inv m' st'.
  Proof.
    intros m st s garbage (a & ms & vs & H & ->) Hg. unfold listen.
    destruct (ms_out (st_w (st (negb s)))) as [|c out] eqn:Eo; [left; auto|right].
    pose proof (H s) as (R & T & O & B & Sh & M & L & A & P & V & Lo).
    pose proof (H (negb s)) as (R' & T' & O' & B' & Sh' & M' & L' & A' & P' & V' & Lo'). rewrite negb_involutive in *.
    rewrite Eo in B'.
    destruct (ms (negb s)) as [|[[h [k args]]|h k buf v] rest] eqn:Em.
    { cbn [map concat short] in *. rewrite Sh' in B'. discriminate. }
    - (* a request *)
      cbn [reqs_of flat_map app map] in L', A'. fold (reqs_of rest) in L', A'. cbn [snd] in L'.
      destruct (locally_inv _ _ _ _ _ _ _ _ L') as [(E & _)|
        (name & f & k' & args' & x1 & r & reqs & vs' & E & Evs & Hin & Hget & Hcp & Hc & Ll)]; [discriminate|].
      injection E as <- <- <-.
      destruct (key_fields _ name f k Hin Hget) as [Hn Ek].
      inversion A' as [|t l Ha A2 Et]. subst t l. cbn [answerable] in Ha. destruct Ha as [Hne Hsz].
      assert (Hn2 : nth_error (kr_funcs (dkr s)) (k_index k) = Some (name, on_user f)).
      { cbn [dkr device_keyring kr_funcs]. apply callbacks_user; auto. }
      set (w1 := mk_master x1 (ms_pending (st_w (st s))) (ms_results (st_w (st s))) (ms_lost (st_w (st s))) (ms_out (st_w (st s)))).
      assert (Hc2 : calls (dv_p d s) (dkr s) (on_user f) args (st_w (st s)) w1 r).
      { destruct Hc as (C1 & C2 & C3). split; [exact C1|]. split; [|exact C3]. cbn [on_user f_call]. rewrite C2. reflexivity. }
      assert (Epk : packet (dkr s) (k_index k) (on_user f) args = msg_bytes (negb s) (Req (h, (k, args)))).
      { cbn [msg_bytes]. rewrite (key_packet _ _ name f k args Hin Hget). unfold packet, dkr.
        rewrite device_index_size. reflexivity. }
      cbn [map concat short] in B', Sh'. rewrite <- Epk in B', Sh'.
      destruct (put_packet (dv_p d s) (dbl s) (dkr s) (ft s) (Hp s) (dkr_ok s) (dkr_well_sized s)
                  (st_b (st s)) (a s) (st_w (st s)) (k_index k) name (on_user f) args w1 r c out _ R T O Hn2 Hc2 B' Sh')
        as [(b1 & a1 & E1 & R1 & T1 & I1 & O1 & U1)|(b1 & a1 & E1 & R1 & T1 & I1 & O1 & U1)];
        rewrite E1; cbn [bind]; rewrite (reached_loaded _ _ _ _ (Hp s) (dkr_ok s) (dkr_well_sized s) _ _ _ R1); unfold mc_loaded; rewrite O1.
      2:{ destruct (listen_part st a ms vs s c out b1 a1 H Eo R1 T1 I1 O1) as [G1 G2].
          { rewrite Em. cbn [map short]. rewrite <- Epk. exact U1. }
          do 2 eexists. split; [reflexivity|]. split; [exact G2|]. do 3 eexists. split; [exact G1|reflexivity]. }
      assert (Ean : answer (dkr s) (on_user f) r = answer (dv_kr d s) f r) by reflexivity. rewrite Ean in *.
      pose proof (answer_length (dv_p d s) (dv_kr d s) f args (ms_x (st_w (st s))) x1 r Hc) as Hlen.
      assert (Esk : k_sig k = f_sig f) by (rewrite Ek; reflexivity). rewrite Esk in Hsz.
      destruct (sig_ret (f_sig f)) as [ty|] eqn:Er.
      + (* it is answered *)
        assert (Hz : answer (dv_kr d s) f r <> []).
        { intros Ez. rewrite Ez in Hlen. cbn [length wire_size_ret] in Hlen. lia. }
        destruct (answer (dv_kr d s) f r) as [|z zs] eqn:Ez; [congruence|]. cbn [negb]. rewrite <- Ez in *.
        assert (Hnx : b_obuf_next b1 = 0) by (eapply put_resolved; exact E1).
        destruct (response_key (negb s)) as (Hkey & Ekey & _).
        pose proof (C44_reply _ (dv_p d s) (dbl s) (dkr s) (ft s) b1 a1 w1 send (dv_k d (negb s)) (n (negb s)) garbage
                      (Hp s) (dkr_ok s) (dkr_well_sized s) R1 Hkey Hg) as C.
        rewrite Hnx, O1 in C. cbn [wire_size_ret] in Hlen.
        destruct (Nat.leb_spec (length (answer (dv_kr d s) f r)) (n (negb s))) as [Hle|]; [|lia]. cbn [Nat.eqb andb] in C.
        rewrite push_send in C. destruct C as (b2 & C1 & C2 & _). rewrite C1.
        set (buf := reply_buffer (n (negb s)) garbage (answer (dv_kr d s) f r)) in *.
        match type of C2 with reached _ _ _ _ _ ?a2 ?w2 =>
          edestruct (listen_whole st a ms vs s c out b2 a2 w2 (Req (h, (k, args))) rest [Rep h k buf r] vs' H Eo Em)
          as (m' & G1 & G2) end; [..|do 2 eexists; split; [reflexivity|]; split; [exact G1|exact G2]].
        * exact U1.
        * exact C2.
        * cbn [mc_table]. exact T1.
        * cbn [mc_in]. exact I1.
        * reflexivity.
        * unfold w1. cbn [ms_out map concat msg_bytes]. rewrite app_nil_r. reflexivity.
        * reflexivity.
        * constructor; [|constructor]. cbn [msg_ok]. split; [apply reply_buffer_length; lia|]. split.
          { apply reply_buffer_bytes; auto. unfold answer, response. rewrite Er. apply enc_bytes. }
          intros l. unfold buf, reply_buffer.
          eapply (receive_array (dv_p d (negb s)) (dv_kr d s) (Hp (negb s)) (Hk (negb s) s) name f k); eauto.
          congruence.
        * cbn [ms_x w1]. exact Ll.
        * unfold w1. cbn [ms_pending]. exact P.
        * unfold w1. cbn [ms_results]. exact V.
        * unfold w1. cbn [ms_lost]. exact Lo.
        * cbn [reps_of reqs_of flat_map map fst app awaited]. rewrite Esk, Er. reflexivity.
        * rewrite Evs. cbn [reps_of flat_map map snd app values option_map]. reflexivity.
        * cbn [reqs_of flat_map app]. rewrite turns_of_answers_cons. unfold turns_of_answer at 1. rewrite Esk, Er.
          cbn [map concat msg_bytes]. unfold reply_request. rewrite app_nil_r, !app_length, wire_bytes_length.
          unfold buf at 1. rewrite reply_buffer_length by lia. reflexivity.
      + (* it is not *)
        assert (Ez : answer (dv_kr d s) f r = []) by (unfold answer; rewrite Er; reflexivity). rewrite Ez in *. cbn [negb].
        edestruct (listen_whole st a ms vs s c out b1 a1 w1 (Req (h, (k, args))) rest [] vs' H Eo Em)
          as (m' & G1 & G2); [..|do 2 eexists; split; [reflexivity|]; split; [exact G1|exact G2]]; auto.
        * unfold w1. cbn [ms_out map concat]. rewrite app_nil_r. reflexivity.
        * cbn [reqs_of flat_map map fst app awaited reps_of]. rewrite Esk, Er. reflexivity.
        * rewrite Evs. reflexivity.
        * cbn [reqs_of flat_map app map concat length]. rewrite turns_of_answers_cons. unfold turns_of_answer at 1.
          rewrite Esk, Er. reflexivity.
    - (* an answer *)
      destruct (response_key s) as ((Hpar & Hw & Hsp) & Ekey & name & Hn).
      inversion M' as [|t l Hm M2 Et]. subst t l. cbn [msg_ok] in Hm. rewrite negb_involutive in Hm. destruct Hm as (Hlb & Hbb & Hrec).
      set (w1 := mk_master (ms_x (st_w (st s))) (map fst (reps_of rest) ++ awaited (reqs_of (ms s)))
                   (ms_results (st_w (st s)) ++ [v]) (ms_lost (st_w (st s))) (ms_out (st_w (st s)))).
      cbn [reps_of flat_map app map fst snd] in P, V. fold (reps_of rest) in P, V.
      assert (Hab : array_bytes (map VInt buf) = buf).
      { unfold array_bytes. rewrite map_map. apply map_id. }
      assert (Hc2 : calls (dv_p d s) (dkr s) (on_response (dv_p d s) (mk_sig [TArr (TUns 1) (n s)] None)) [VList (map VInt buf)]
                      (st_w (st s)) w1 (VInt 0)).
      { split; [|split; [|exact I]]; cbn [on_response f_sig sig_params f_call].
        - constructor; [|constructor]. rewrite <- Hlb. apply byte_array_encodable. exact Hbb.
        - rewrite P, Hab, Hrec. reflexivity. }
      assert (Epk : packet (dkr s) (k_index (dv_k d s)) (on_response (dv_p d s) (mk_sig [TArr (TUns 1) (n s)] None)) [VList (map VInt buf)]
                    = msg_bytes (negb s) (Rep h k buf v)).
      { cbn [msg_bytes]. rewrite negb_involutive. unfold packet, request, reply_request.
        cbn [on_response f_sig sig_params enc_list]. rewrite enc_byte_array by auto. rewrite app_nil_r.
        rewrite Ekey at 2 3. cbn [k_e k_index_size]. unfold dkr. rewrite device_index_size. reflexivity. }
      cbn [map concat short] in B', Sh'. rewrite <- Epk in B', Sh'.
      destruct (put_packet (dv_p d s) (dbl s) (dkr s) (ft s) (Hp s) (dkr_ok s) (dkr_well_sized s)
                  (st_b (st s)) (a s) (st_w (st s)) _ name _ _ w1 _ c out _ R T O Hn Hc2 B' Sh')
        as [(b1 & a1 & E1 & R1 & T1 & I1 & O1 & U1)|(b1 & a1 & E1 & R1 & T1 & I1 & O1 & U1)];
        rewrite E1; cbn [bind]; rewrite (reached_loaded _ _ _ _ (Hp s) (dkr_ok s) (dkr_well_sized s) _ _ _ R1); unfold mc_loaded; rewrite O1.
      + cbn [answer response on_response f_sig sig_ret negb] in O1 |- *.
        edestruct (listen_whole st a ms vs s c out b1 a1 w1 (Rep h k buf v) rest [] (vs (negb s)) H Eo Em)
          as (m' & G1 & G2); [..|do 2 eexists; split; [reflexivity|]; split; [exact G1|exact G2]]; auto.
        * unfold w1. cbn [ms_out map concat]. rewrite app_nil_r. reflexivity.
        * unfold w1. cbn [ms_results]. rewrite <- app_assoc. exact V.
      + destruct (listen_part st a ms vs s c out b1 a1 H Eo R1 T1 I1 O1) as [G1 G2].
        { rewrite Em. cbn [map short]. rewrite <- Epk. exact U1. }
        do 2 eexists. split; [reflexivity|]. split; [exact G2|]. do 3 eexists. split; [exact G1|reflexivity].
  Qed.

  Lemma inv_act : forall m st turn, inv m st -> byte_turn turn ->
    act d turn st = Ok None \/ exists st' m', act d turn st = Ok (Some st') /\ m = S m' /\ inv m' st'.
  Proof.
    intros m st [s [|garbage]] H Hb; cbn [act fst snd byte_turn] in *.
    - destruct (inv_request m st s H) as [[E _]|E]; auto.
    - destruct (inv_listen m st s garbage H Hb) as [[E _]|E]; auto.
  Qed.

  Lemma inv_acts : forall turns m st, inv m st -> Forall byte_turn turns ->
    exists st' k m', acts d turns st = Ok (st', k) /\ m = k + m' /\ inv m' st'.
  Proof.
    induction turns as [|turn turns IH]; intros m st H Hb; cbn [acts].
    - exists st, 0, m. auto.
    - inversion Hb as [|t l Hb1 Hb2 Et]. subst t l.
      destruct (inv_act m st turn H Hb1) as [E|(st1 & m1 & E & -> & H1)]; rewrite E; cbn [bind].
      + apply IH; auto.
      + destruct (IH m1 st1 H1 Hb2) as (st2 & k & m2 & E2 & -> & H2). rewrite E2. cbn [bind].
        exists st2, (S k), m2. auto.
  Qed.

  Lemma inv_results : forall m st s, inv m st ->
    ms_lost (st_w (st s)) = false /\ exists rest, ms_results (st_w (st s)) ++ rest = all s.
  Proof.
    intros m st s (a & ms & vs & H & _). destruct (H s) as (_ & _ & _ & _ & _ & _ & _ & _ & _ & V & Lo). eauto.
  Qed.

  Lemma demands_zero : forall w k ts, turns_of_demands w k ts = 0 -> ts = [].
  Proof.
    intros w k [|[h [key args]] ts] E; auto. rewrite turns_of_demands_cons in E. cbn [turns_of_demand] in E. lia.
  Qed.

  Lemma settled_iff : forall st : bool -> station X,
    settled st = true <-> forall s, st_todo (st s) = [] /\ ms_out (st_w (st s)) = [].
  Proof.
    intros st. unfold settled. rewrite forallb_forall. split.
    - intros H s. specialize (H s). destruct (st_todo (st s)); [|discriminate H; destruct s; cbn; auto].
      destruct (ms_out (st_w (st s))); [auto|discriminate H; destruct s; cbn; auto].
    - intros H s _. destruct (H s) as [-> ->]. reflexivity.
  Qed.

  Lemma inv_end : forall m st, inv m st ->
    (settled st = true <-> m = 0)
    /\ (m = 0 -> forall s, ms_results (st_w (st s)) = all s /\ ms_x (st_w (st s)) = x2 s /\ ms_pending (st_w (st s)) = [])
    /\ (m <> 0 -> exists s, st_todo (st s) <> [] \/ ms_out (st_w (st (negb s))) <> []).
  Proof.
    intros m st (a & ms & vs & H & Em).
    assert (G : settled st = true -> forall s, ms s = []).
    { intros Hset s. rewrite settled_iff in Hset. destruct (Hset s) as [_ Eo].
      destruct (H s) as (_ & _ & _ & B & Sh & _). rewrite Eo, app_nil_r in B.
      destruct (ms s) as [|m0 l]; auto. exfalso. cbn [map concat short] in *. rewrite B, app_length in Sh. lia. }
    assert (Z : settled st = true <-> m = 0).
    { split.
      - intros Hset. pose proof (G Hset) as Ems. rewrite settled_iff in Hset. rewrite Em. unfold left_of.
        destruct (Hset true) as [E1 E2]. destruct (Hset false) as [E3 E4]. rewrite E1, E2, E3, E4, (Ems true), (Ems false). reflexivity.
      - intros E0. apply settled_iff. rewrite E0 in Em. unfold left_of in Em.
        intros [|]; (split; [|apply length_zero_iff_nil; lia]).
        + apply (demands_zero (k_index_size (dv_k d true)) (n true)). lia.
        + apply (demands_zero (k_index_size (dv_k d false)) (n false)). lia. }
    split; [exact Z|]. split.
    - intros E0 s. pose proof (G (proj2 Z E0)) as Ems. pose proof (proj2 Z E0) as Hset. rewrite settled_iff in Hset.
      pose proof (H s) as (_ & _ & _ & _ & _ & _ & L & _ & P & V & _).
      pose proof (H (negb s)) as (_ & _ & _ & _ & _ & _ & L' & _). rewrite negb_involutive in L'.
      rewrite !Ems in *. destruct (Hset s) as [Et _]. destruct (Hset (negb s)) as [Et' _]. rewrite Et in L. rewrite Et' in L'.
      cbn [reqs_of reps_of flat_map map app] in *.
      destruct (locally_inv _ _ _ _ _ _ _ _ L) as [(_ & Ev & _)|(? & ? & ? & ? & ? & ? & ? & ? & E & _)]; [|discriminate].
      destruct (locally_inv _ _ _ _ _ _ _ _ L') as [(_ & _ & Ex)|(? & ? & ? & ? & ? & ? & ? & ? & E & _)]; [|discriminate].
      rewrite Ev in V. cbn [values flat_map] in V. rewrite app_nil_r in V. auto.
    - intros Hne. destruct (settled st) eqn:Hset; [exfalso; apply Hne; apply Z; reflexivity|].
      assert (Hd : forall A (l : list A), l = [] \/ l <> []) by (intros A [|? ?]; [left|right]; congruence).
      destruct (Hd _ (st_todo (st true))) as [E1|E1]; [|exists true; auto].
      destruct (Hd _ (st_todo (st false))) as [E2|E2]; [|exists false; auto].
      destruct (Hd _ (ms_out (st_w (st true)))) as [E3|E3]; [|exists false; auto].
      destruct (Hd _ (ms_out (st_w (st false)))) as [E4|E4]; [|exists true; auto].
      exfalso. assert (settled st = true); [|congruence]. apply settled_iff. intros [|]; auto.
  Qed.

  (** Something can be done. *)
  Lemma inv_enabled : forall m st s, inv m st -> st_todo (st s) <> [] \/ ms_out (st_w (st (negb s))) <> [] ->
    act d (s, Request) st <> Ok None \/ forall g, Forall is_byte g -> act d (s, Listen g) st <> Ok None.
  Proof.
    intros m st s H [Ht|Ho]; [left|right; intros g Hg]; cbn [act fst snd].
    - destruct (inv_request m st s H) as [[_ E]|(st' & m' & E & _)]; [congruence|]. rewrite E. discriminate.
    - destruct (inv_listen m st s g H Hg) as [[_ E]|(st' & m' & E & _)]; [congruence|]. rewrite E. discriminate.
  Qed.

  Lemma inv_start : forall g g' b todo x vs, (forall s, make_buffered (dbl s) (dkr s) (ft s) (g s) (g' s) = Some (b s)) ->
    (forall s, locally (dv_p d s) (dv_p d (negb s)) (dv_kr d (negb s)) (map snd (todo s)) (x (negb s)) (vs s) (x2 (negb s))) ->
    (forall s, Forall (answerable (n s) (k_index (dv_k d (negb s)))) (todo s)) ->
    (forall s, all s = values (vs s)) ->
    inv (turns_of_demands (k_index_size (dv_k d true)) (n true) (todo true)
         + turns_of_demands (k_index_size (dv_k d false)) (n false) (todo false)) (switch_on todo b x).
  Proof.
    intros g g' b todo x vs Hb Hl Ha Hv. exists (fun s => fresh (dkr s)), (fun _ => []), vs. split.
    - intros s. unfold side_inv, switch_on. cbn [st_todo st_b st_w ms_x ms_pending ms_results ms_lost ms_out].
      split; [apply (reached_new _ _ _ _ (g s) (g' s)); apply Hb|]. cbn [fresh mc_table mc_in mc_out map concat app short reqs_of reps_of flat_map awaited].
      repeat (split; [auto; fail|]). first [reflexivity | split; [rewrite Hv; reflexivity|reflexivity]].
    - unfold left_of, switch_on. cbn [st_todo st_w ms_out length reqs_of flat_map]. unfold turns_of_answers. cbn [map list_sum fold_right]. lia.
  Qed.
End System.

(** ** C73 *)

Lemma acts_app : forall (X : Type) (d : devices X) t1 t2 st,
  acts d (t1 ++ t2) st = ('(st1, k1) <- acts d t1 st;; '(st2, k2) <- acts d t2 st1;; Ok (st2, k1 + k2)).
Proof.
  intros X d. induction t1 as [|turn t1 IH]; intros t2 st; cbn [app acts bind].
  - destruct (acts d t2 st) as [[? ?]|]; reflexivity.
  - destruct (act d turn st) as [[st1|]|]; cbn [bind]; auto.
    rewrite IH. destruct (acts d t1 st1) as [[st2 k2]|]; cbn [bind]; auto.
    destruct (acts d t2 st2) as [[st3 k3]|]; reflexivity.
Qed.

Lemma acts_idle : forall (X : Type) (d : devices X) turns st st', acts d turns st = Ok (st', 0) ->
  forall turn, In turn turns -> act d turn st = Ok None.
Proof.
  induction turns as [|t turns IH]; intros st st' E turn Hin; [destruct Hin|]. cbn [acts] in E.
  destruct (act d t st) as [[st1|]|e] eqn:Et; cbn [bind] in E; try discriminate.
  - destruct (acts d turns st1) as [[st2 k2]|]; discriminate.
  - destruct Hin as [<- | Hin]; eauto.
Qed.

(** Two hosts, two keyrings; the callback of each device which handles responses
    takes an array of [n s] bytes. *)
Definition connected {X : Type} (d : devices X) (dbl : bool -> bool) (ft : bool -> action_features) (n : bool -> nat) : Prop :=
  (forall s, wf_platform (dv_p d s))
  /\ (forall s s', keyring_ok (dv_p d s) (dv_kr d s'))
  /\ (forall s, well_sized (dbl s) (dv_kr d s) (ft s))
  /\ (forall s, exists name f, In (name, f) (kr_funcs (dv_kr d s))
        /\ kr_get (dv_kr d s) name f = Some (dv_k d s) /\ f_sig f = mk_sig [TArr (TUns 1) (n s)] None).

Definition total_turns {X : Type} (d : devices X) (n : bool -> nat) (todo : bool -> list demand) : nat :=
  turns_of_demands (k_index_size (dv_k d true)) (n true) (todo true)
  + turns_of_demands (k_index_size (dv_k d false)) (n false) (todo false).

(** Whatever each device does next, nothing undefined happens, no response is
    lost and the values each device got so far are the first values of its calls
    made locally; as long as not everything is done something can be done; the
    number of turns of some effect is known beforehand, and when they were taken
    each device got every value and what its callbacks act on is what it would be
    after the calls of the other device made locally. *)
Theorem C73_every_schedule : forall (X : Type) (d : devices X) dbl ft n g g' b todo x vs x2 turns,
  connected d dbl ft n ->
  (forall s, make_buffered (dbl s) (device_keyring (dv_p d s) (k_index (dv_k d s)) (dv_kr d s)) (ft s) (g s) (g' s) = Some (b s)) ->
  (forall s, locally (dv_p d s) (dv_p d (negb s)) (dv_kr d (negb s)) (map snd (todo s)) (x (negb s)) (vs s) (x2 (negb s))) ->
  (forall s, Forall (answerable (n s) (k_index (dv_k d (negb s)))) (todo s)) ->
  Forall byte_turn turns ->
  exists st m, acts d turns (switch_on todo b x) = Ok (st, m)
    /\ m <= total_turns d n todo
    /\ (settled st = true <-> m = total_turns d n todo)
    /\ (forall s, ms_lost (st_w (st s)) = false /\ exists rest, ms_results (st_w (st s)) ++ rest = values (vs s))
    /\ (settled st = true -> forall s, ms_results (st_w (st s)) = values (vs s) /\ ms_x (st_w (st s)) = x2 s
                                        /\ ms_pending (st_w (st s)) = [])
    /\ (settled st = false -> exists turn st', byte_turn turn /\ act d turn st = Ok (Some st')).
Proof.
  intros X d dbl ft n g g' b todo x vs x2 turns (Hp & Hk & Hs & Hr) Hb Hl Ha Ht.
  pose proof (inv_start d dbl ft n (fun s => values (vs s)) x2 g g' b todo x vs Hb Hl Ha ltac:(reflexivity)) as H.
  destruct (inv_acts d dbl ft n Hp Hk Hs Hr _ x2 turns _ _ H Ht) as (st & m & m' & E & Em & H').
  fold (total_turns d n todo) in Em.
  destruct (inv_end d dbl ft n Hp Hk Hs Hr _ x2 m' st H') as (Z & F & N).
  exists st, m. split; [exact E|]. split; [lia|]. split; [rewrite Z; lia|].
  split; [intros s; apply (inv_results d dbl ft n _ x2 m' st s H')|].
  split; [intros Hset; apply F; apply Z; exact Hset|].
  intros Hset. destruct N as (s & Hs').
  { intros E0. apply Z in E0. congruence. }
  assert (Hact : forall turn, byte_turn turn -> act d turn st <> Ok None -> exists st', act d turn st = Ok (Some st')).
  { intros turn Hbt Hne. destruct (inv_act d dbl ft n Hp Hk Hs Hr _ x2 m' st turn H' Hbt) as [E0|(st' & m2 & E0 & _)]; [congruence|eauto]. }
  destruct (inv_enabled d dbl ft n Hp Hk Hs Hr _ x2 m' st s H' Hs') as [G|G].
  - destruct (Hact (s, Request) I G) as [st' E']. exists (s, Request), st'. split; [exact I|exact E'].
  - destruct (Hact (s, Listen []) ltac:(constructor) (G [] ltac:(constructor))) as [st' E']. exists (s, Listen []), st'.
    split; [constructor|exact E'].
Qed.

(** When both devices write requests and receive bytes again and again, everything
    is done at last. *)
Theorem C73_fair : forall (X : Type) (d : devices X) dbl ft n g g' b todo x vs x2 rounds,
  connected d dbl ft n ->
  (forall s, make_buffered (dbl s) (device_keyring (dv_p d s) (k_index (dv_k d s)) (dv_kr d s)) (ft s) (g s) (g' s) = Some (b s)) ->
  (forall s, locally (dv_p d s) (dv_p d (negb s)) (dv_kr d (negb s)) (map snd (todo s)) (x (negb s)) (vs s) (x2 (negb s))) ->
  (forall s, Forall (answerable (n s) (k_index (dv_k d (negb s)))) (todo s)) ->
  Forall (Forall byte_turn) rounds -> Forall full_round rounds -> total_turns d n todo <= length rounds ->
  exists st, acts d (concat rounds) (switch_on todo b x) = Ok (st, total_turns d n todo)
    /\ settled st = true /\ forall s, ms_results (st_w (st s)) = values (vs s) /\ ms_x (st_w (st s)) = x2 s.
Proof.
  intros X d dbl ft n g g' b todo x vs x2 rounds (Hp & Hk & Hs & Hr) Hb Hl Ha Ht Hro Hn.
  pose proof (inv_start d dbl ft n (fun s => values (vs s)) x2 g g' b todo x vs Hb Hl Ha ltac:(reflexivity)) as H.
  fold (total_turns d n todo) in H. remember (total_turns d n todo) as m. clear Heqm Hb Hl Ha.
  revert m H Hn. generalize (switch_on todo b x) as st0.
  induction Hro as [|ro rounds Hro1 Hro IH]; intros st0 m H Hn.
  - cbn [length] in Hn. assert (m = 0) by lia. subst m. cbn [concat acts]. exists st0. split; [reflexivity|].
    destruct (inv_end d dbl ft n Hp Hk Hs Hr _ x2 0 st0 H) as (Z & F & _). split; [apply Z; reflexivity|].
    intros s. destruct (F eq_refl s) as (F1 & F2 & _). auto.
  - inversion Ht as [|l ls Ht1 Ht2 El]. subst l ls. cbn [concat]. rewrite acts_app.
    destruct (inv_acts d dbl ft n Hp Hk Hs Hr _ x2 ro m st0 H Ht1) as (st1 & k & m1 & E & Em & H1).
    rewrite E. cbn [bind].
    destruct (IH Ht2 st1 m1 H1) as (st & E1 & F). 2:{ exists st. rewrite E1. cbn [bind]. subst m. auto. }
    cbn [length] in Hn. destruct k as [|k]; [|lia].
    destruct (Nat.eq_dec m 0) as [-> | Hz]; [lia|].
    destruct (inv_end d dbl ft n Hp Hk Hs Hr _ x2 m st0 H) as (_ & _ & N). destruct (N Hz) as (s & Hs'). exfalso.
    destruct (Hro1 s) as (Hi1 & gar & Hi2).
    assert (Hgar : Forall is_byte gar) by (rewrite Forall_forall in Ht1; apply (Ht1 _ Hi2)).
    destruct (inv_enabled d dbl ft n Hp Hk Hs Hr _ x2 m st0 s H Hs') as [G|G].
    + apply G. eapply acts_idle; eauto.
    + apply (G gar Hgar). eapply acts_idle; eauto.
Qed.

(** ** Example *)

(** The keyring of both devices: the one of the other examples and a callback for
    the responses.  One device is a 16 bit host and has a single buffer, the other
    is a 64 bit host and has two. *)
Definition mm_response : func log := mk_func (mk_sig [TArr (TUns 1) 4] None) (fun _ x => (x, VInt 0)).
Definition mm_keyring : keyring log := mk_keyring BIG TWOS_COMPLEMENT (kr_funcs ex_keyring ++ [(40, mm_response)]).
Definition mm_devices : devices log :=
  mk_devices (fun s => if s then avr_portable else pc_native) (fun _ => mm_keyring)
    (fun _ => mk_key 1 3 (f_sig mm_response) BIG TWOS_COMPLEMENT).

(** Both have requests to make: a call with a hook and a void call; a call whose
    response is read with the key. *)
Definition mm_todo (s : bool) : list demand :=
  if s then [(true, (ex_key_add, [VInt (-2); VInt 5])); (false, (ex_key_notify, []))]%Z
  else [(false, (ex_key_swap, [VList [VInt 1; VInt 7]]))]%Z.

Definition mm_results (s : bool) : list (option val) :=
  if s then [Some (VInt 3); None]%Z else [Some (VList [VInt 7; VInt 9])]%Z.
Definition mm_after (s : bool) : log :=
  if s then [(2, [VList [VInt 1%Z; VInt 7%Z]])] else [(1, []); (0, [VInt (-2)%Z; VInt 5%Z])].

Lemma mm_connected : connected mm_devices negb (fun _ => ANY) (fun _ => 4).
Proof.
  split; [intros [|]; [apply avr_portable_wf|apply pc_native_wf]|]. split; [|split].
  - intros [|] s'; (split; [vm_compute; reflexivity|]); cbn [mm_devices dv_p dv_kr mm_keyring kr_funcs kr_e kr_m ex_keyring app];
      list_cases; split; cbn [snd f_sig sig_params sig_ret ex_add ex_notify ex_swap mm_response ret_ty_ok]; tyoks.
  - intros [|]; unfold well_sized; cbn [mm_devices dv_kr]; unfold mm_keyring, kr_signatures; cbn [kr_funcs ex_keyring app map snd]; list_cases;
      (split; [discriminate|]); vm_compute; lia.
  - intros s. exists 40, mm_response. split; [cbn; auto|]. split; reflexivity.
Qed.

(** What can be seen of an execution: the turns of some effect, whether everything
    is done, and for both devices the values, what the callbacks act on, what is
    awaited and whether something was lost. *)
Definition mm_view (o : res ((bool -> station log) * nat))
    : option (nat * bool * list (list val * log * list (bool * key) * bool)) :=
  match o with
  | Ok (st, m) =>
      Some (m, settled st, map (fun s => let w := st_w (st s) in (ms_results w, ms_x w, ms_pending w, ms_lost w)) [true; false])
  | Fault _ => None
  end.

Example C73_example : exists b : bool -> buffered (master log),
  connected mm_devices negb (fun _ => ANY) (fun _ => 4)
  /\ (forall s, make_buffered (negb s) (device_keyring (dv_p mm_devices s) 3 mm_keyring) ANY [] [] = Some (b s))
  /\ (forall s, locally (dv_p mm_devices s) (dv_p mm_devices (negb s)) mm_keyring (map snd (mm_todo s)) [] (mm_results s) (mm_after (negb s)))
  /\ (forall s, Forall (answerable 4 3) (mm_todo s))
  /\ total_turns mm_devices (fun _ => 4) mm_todo = 22
  /\ mm_view (acts mm_devices (concat (repeat [(true, Request); (false, Listen [99; 98; 97]%Z); (false, Request); (true, Listen [])] 12))
                (switch_on mm_todo b (fun _ => [])))
     = Some (22, true, [([VInt 3%Z], [(2, [VList [VInt 1%Z; VInt 7%Z]])], [], false);
                        ([VList [VInt 7%Z; VInt 9%Z]], [(1, []); (0, [VInt (-2)%Z; VInt 5%Z])], [], false)]).
Proof.
  unshelve (eexists (fun s : bool => if s then _ else _)). 3: split; [exact mm_connected|]; split; [intros [|]; reflexivity|].
  split.
  { intros [|]; cbn [negb].
    - change (mm_results true) with
        [option_map (fun _ => VInt 3) (sig_ret (f_sig ex_add)); option_map (fun _ => VInt 0) (sig_ret (f_sig ex_notify))]%Z.
      cbn [mm_todo map snd].
      eapply (locally_cons _ _ _ 10 ex_add); [cbn; auto|reflexivity|split; [encs|split; [reflexivity|encs]]..|].
      eapply (locally_cons _ _ _ 20 ex_notify); [cbn; auto|reflexivity|split; [encs|split; [reflexivity|exact I]]..|].
      constructor.
    - change (mm_results false) with [option_map (fun _ => VList [VInt 7; VInt 9]) (sig_ret (f_sig ex_swap))]%Z.
      cbn [mm_todo map snd].
      eapply (locally_cons _ _ _ 30 ex_swap); [cbn; auto|reflexivity|split; [encs|split; [reflexivity|encs]]..|].
      constructor. }
  split. { intros [|]; cbn [mm_todo]; list_cases; (split; [cbn; lia|]); cbn; auto; lia. }
  split; [reflexivity|]. vm_compute. reflexivity.
Qed.

(** The condition on the size of the array cannot be dropped: the response of the
    first call does not fit, it is lost, and the device waits for it for ever. *)
Definition mm_small : func log := mk_func (mk_sig [TArr (TUns 1) 3] None) (fun _ x => (x, VInt 0)).
Definition mm_small_keyring : keyring log := mk_keyring BIG TWOS_COMPLEMENT (kr_funcs ex_keyring ++ [(40, mm_small)]).
Definition mm_small_devices : devices log :=
  mk_devices (fun s => if s then avr_portable else pc_native) (fun _ => mm_small_keyring)
    (fun _ => mk_key 1 3 (f_sig mm_small) BIG TWOS_COMPLEMENT).

Theorem C73_small_array_refuted : exists (b : bool -> buffered (master log)) vs x2,
  connected mm_small_devices negb (fun _ => ANY) (fun _ => 3)
  /\ (forall s, make_buffered (negb s) (device_keyring (dv_p mm_small_devices s) 3 mm_small_keyring) ANY [] [] = Some (b s))
  /\ (forall s, locally (dv_p mm_small_devices s) (dv_p mm_small_devices (negb s)) mm_small_keyring (map snd (mm_todo s)) [] (vs s) (x2 (negb s)))
  /\ values (vs true) = [VInt 3]%Z
  /\ mm_view (acts mm_small_devices (concat (repeat [(true, Request); (false, Listen []); (false, Request); (true, Listen [])] 12))
                (switch_on mm_todo b (fun _ => [])))
     = Some (16, true, [([], [(2, [VList [VInt 1%Z; VInt 7%Z]])], [(true, ex_key_add)], false);
                        ([VList [VInt 7%Z; VInt 9%Z]], [(1, []); (0, [VInt (-2)%Z; VInt 5%Z])], [], true)]).
Proof.
  unshelve (eexists (fun s : bool => if s then _ else _)).
  3: exists mm_results, mm_after; split; [|split; [intros [|]; reflexivity|]].
  { split; [intros [|]; [apply avr_portable_wf|apply pc_native_wf]|]. split; [|split].
    - intros [|] s'; (split; [vm_compute; reflexivity|]);
        cbn [mm_small_devices dv_p dv_kr mm_small_keyring kr_funcs kr_e kr_m ex_keyring app];
        list_cases; split; cbn [snd f_sig sig_params sig_ret ex_add ex_notify ex_swap mm_small ret_ty_ok]; tyoks.
    - intros [|]; unfold well_sized; cbn [mm_small_devices dv_kr]; unfold mm_small_keyring, kr_signatures;
        cbn [kr_funcs ex_keyring app map snd]; list_cases; (split; [discriminate|]); vm_compute; lia.
    - intros s. exists 40, mm_small. split; [cbn; auto|]. split; reflexivity. }
  split.
  { intros [|]; cbn [negb].
    - change (mm_results true) with
        [option_map (fun _ => VInt 3) (sig_ret (f_sig ex_add)); option_map (fun _ => VInt 0) (sig_ret (f_sig ex_notify))]%Z.
      cbn [mm_todo map snd].
      eapply (locally_cons _ _ _ 10 ex_add); [cbn; auto|reflexivity|split; [encs|split; [reflexivity|encs]]..|].
      eapply (locally_cons _ _ _ 20 ex_notify); [cbn; auto|reflexivity|split; [encs|split; [reflexivity|exact I]]..|].
      constructor.
    - change (mm_results false) with [option_map (fun _ => VList [VInt 7; VInt 9]) (sig_ret (f_sig ex_swap))]%Z.
      cbn [mm_todo map snd].
      eapply (locally_cons _ _ _ 30 ex_swap); [cbn; auto|reflexivity|split; [encs|split; [reflexivity|encs]]..|].
      constructor. }
  split; [reflexivity|]. vm_compute. reflexivity.
Qed.

Print Assumptions C73_small_array_refuted.
Print Assumptions C73_every_schedule.
Print Assumptions C73_fair.
