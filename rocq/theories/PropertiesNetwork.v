(** Property C68: a caller and a callee, whatever the speed of each. *)

From Coq Require Import List ZArith Lia Bool Arith.
From Verif Require Import Base CInt Spec IntModel Conditions MemFacts TypeLevel Serial TupleModel
  TypeLevelProofs IntProofs SignedProofs SerialProofs CodecFacts Bounds TupleProofs SpecRpc Rpc RpcProofs
  Hosts Closed PropertiesTypes PropertiesRpc Buffered SpecBuffered BufferedProofs PropertiesBuffered
  PropertiesBuffers PropertiesPackets PropertiesStreams Network.
Import ListNotations.
Open Scope nat_scope.

(** ** Specification *)

(** The same calls made locally, from the world [x] to the world [x2]: their
    results.  The arguments and the results are values both hosts can handle. *)
Inductive locally {X : Type} (p q : platform) (kr : keyring X)
  : list (key * list val) -> X -> list (option val) -> X -> Prop :=
| locally_nil : forall x, locally p q kr [] x [] x
| locally_cons : forall name f k args x x1 r reqs vs x2,
    In (name, f) (kr_funcs kr) -> kr_get kr name f = Some k ->
    calls p kr f args x x1 r -> calls q kr f args x x1 r ->
    locally p q kr reqs x1 vs x2 ->
    locally p q kr ((k, args) :: reqs) x (option_map (fun _ => r) (sig_ret (f_sig f)) :: vs) x2.

(** The turns a call takes: each byte of the request is written and put, each
    byte of the response is got and read, and the caller starts, ends its
    request and returns. *)
Definition turns_of_call (k : key) : nat :=
  2 * (k_index_size k + wire_sizes (sig_params (k_sig k)) + wire_size_ret (sig_ret (k_sig k))) + 3.
Definition turns_of (reqs : list (key * list val)) : nat := list_sum (map (fun ka => turns_of_call (fst ka)) reqs).

(** Everyone takes a turn at least once. *)
Definition round (turns : list party) : Prop := In Caller turns /\ In Receiver turns /\ In Sender turns.

(** ** The caller *)

Lemma locally_inv : forall (X : Type) p q (kr : keyring X) reqs x vs x2, locally p q kr reqs x vs x2 ->
  (reqs = [] /\ vs = [] /\ x = x2)
  \/ exists name f k args x1 r reqs' vs', reqs = (k, args) :: reqs'
       /\ vs = option_map (fun _ => r) (sig_ret (f_sig f)) :: vs'
       /\ In (name, f) (kr_funcs kr) /\ kr_get kr name f = Some k
       /\ calls p kr f args x x1 r /\ calls q kr f args x x1 r /\ locally p q kr reqs' x1 vs' x2.
Proof.
  intros X p q kr reqs x vs x2 H. destruct H; [left; auto|right]. do 8 eexists.
  split; [reflexivity|]. split; [reflexivity|]. repeat (split; [eassumption|]). assumption.
Qed.

Lemma push_list : forall bs l, push (fun byte l0 => Ok (l0 ++ [byte])) bs l = Ok (l ++ bs).
Proof.
  induction bs as [|c bs IH]; intros l; cbn [push bind].
  - rewrite app_nil_r. reflexivity.
  - rewrite IH, <- app_assoc. reflexivity.
Qed.

Lemma pull_list : forall n l, n <= length l -> pull list_source n l = Ok (skipn n l, firstn n l).
Proof.
  induction n as [|n IH]; intros l Hl; cbn [pull]; auto.
  destruct l as [|c l]; cbn [length] in Hl; [lia|]. cbn [list_source bind]. rewrite IH by lia. reflexivity.
Qed.

Lemma pull_list_short : forall n l, length l < n -> pull list_source n l = Fault NoInput.
Proof.
  induction n as [|n IH]; intros l Hl; [lia|]. cbn [pull].
  destruct l as [|c l]; cbn [length] in Hl; [reflexivity|]. cbn [list_source bind]. rewrite IH by lia. reflexivity.
Qed.

Section Keys.
  Context {X : Type}.
  Variables (p : platform) (kr : keyring X).
  Hypothesis Hp : wf_platform p.
  Hypothesis Hk : keyring_ok p kr.
  Variables (name : nat) (f : func X) (k : key) (args : list val) (x x1 : X) (r : val).
  Hypothesis Hin : In (name, f) (kr_funcs kr).
  Hypothesis Hget : kr_get kr name f = Some k.
  Hypothesis Hc : calls p kr f args x x1 r.

  Lemma key_fields : nth_error (kr_funcs kr) (k_index k) = Some (name, f)
    /\ k = mk_key (kr_index_size kr) (k_index k) (f_sig f) (kr_e kr) (kr_m kr).
  Proof. destruct (kr_get_nth X kr name f k Hget Hin) as (H1 & _ & H2). auto. Qed.

  Lemma key_sig_ok : sig_ok p (kr_e kr) (kr_m kr) (f_sig f).
  Proof. apply (keyring_sig p kr Hk). unfold kr_signatures. apply (in_map (fun nf => f_sig (snd nf)) _ _ Hin). Qed.

  Lemma message_ok : message p k args = Ok (packet kr (k_index k) f args).
  Proof.
    destruct key_fields as [H1 H2]. unfold message, key_write. rewrite H2 at 1 2 3 4 6. cbn [k_index_size k_sig k_e k_m].
    destruct Hk as [Hl _]. destruct (index_size X kr Hl) as (_ & Hsp & _).
    assert (Hlt : k_index k < length (kr_funcs kr)) by (apply nth_error_Some; congruence).
    rewrite write_tuple_ok; auto.
    - rewrite push_list. reflexivity.
    - constructor; [apply index_ty_ok; auto|apply key_sig_ok].
    - constructor; [|apply Hc]. split; cbn [has_type all_signed]; auto. lia.
  Qed.

  Lemma answer_length : length (answer kr f r) = wire_size_ret (sig_ret (f_sig f)).
  Proof.
    unfold answer, response, wire_size_ret. destruct Hc as (_ & _ & Hr).
    destruct (sig_ret (f_sig f)); auto. cbn [ret_encodable] in Hr. apply enc_length. apply Hr.
  Qed.

  Lemma key_read_ok : key_read p k list_source (answer kr f r) = Ok ([], option_map (fun _ => r) (sig_ret (f_sig f))).
  Proof.
    destruct key_fields as [H1 H2].
    assert (G : key_read p k list_source (answer kr f r) = Ok ([], option_map (fun _ => r) (sig_ret (k_sig k)))).
    { apply C28_returns; auto.
      - rewrite H2. apply key_sig_ok.
      - rewrite H2. apply Hc.
      - rewrite H2. cbn [k_sig k_e k_m]. rewrite <- answer_length, pull_list by lia.
        rewrite skipn_all, firstn_all. reflexivity. }
    rewrite G, H2. reflexivity.
  Qed.

  Lemma key_read_waits : forall bs, length bs < length (answer kr f r) -> key_read p k list_source bs = Fault NoInput.
  Proof.
    intros bs Hl. destruct key_fields as [H1 H2]. rewrite answer_length in Hl.
    assert (E : pull list_source (wire_size_ret (sig_ret (k_sig k))) bs = Fault NoInput).
    { rewrite H2. apply pull_list_short. exact Hl. }
    rewrite C28_consumes; auto.
    - rewrite E. reflexivity.
    - rewrite H2. apply key_sig_ok.
    - intros y bs' E'. rewrite E in E'. discriminate.
  Qed.

  Lemma call_turns : turns_of_call k = 2 * (length (packet kr (k_index k) f args) + length (answer kr f r)) + 3.
  Proof.
    destruct key_fields as [H1 H2]. rewrite (packet_length p kr (k_index k) f args x x1 r Hc), answer_length.
    unfold turns_of_call. rewrite H2. reflexivity.
  Qed.
End Keys.

(** ** The callee *)

Section Callee.
  Context {X : Type}.
  Variables (q : platform) (dbl : bool) (kr : keyring X) (ft : action_features).
  Hypothesis Hq : wf_platform q.
  Hypothesis Hk : keyring_ok q kr.
  Hypothesis Hs : well_sized dbl kr ft.

  (** The packets to come, the response they give together; only the last of them
      may have a response. *)
  Inductive pending : list (list Z) -> X -> list Z -> X -> Prop :=
  | pending_nil : forall x, pending [] x [] x
  | pending_last : forall i name f args x x1 r,
      nth_error (kr_funcs kr) i = Some (name, f) -> calls q kr f args x x1 r ->
      pending [packet kr i f args] x (answer kr f r) x1
  | pending_void : forall i name f args x x1 r srv resp x2,
      nth_error (kr_funcs kr) i = Some (name, f) -> calls q kr f args x x1 r -> answer kr f r = [] ->
      pending srv x1 resp x2 -> pending (packet kr i f args :: srv) x resp x2.

  Lemma pending_snoc : forall srv x resp x1 i name f args x2 r, pending srv x resp x1 -> resp = [] ->
    nth_error (kr_funcs kr) i = Some (name, f) -> calls q kr f args x1 x2 r ->
    pending (srv ++ [packet kr i f args]) x (answer kr f r) x2.
  Proof.
    intros srv x resp x1 i name f args x2 r H E Hn Hc.
    induction H as [x|i' name' f' args' x x1' r' Hn' Hc'|i' name' f' args' x x1' r' srv' resp' x2' Hn' Hc' E' H IH]; cbn [app].
    - eapply pending_last; eauto.
    - eapply pending_void; eauto. eapply pending_last; eauto.
    - eapply pending_void; eauto.
  Qed.

  (** The dispatcher received a part of the first of the packets to come. *)
  Definition short (srv : list (list Z)) (i : list Z) : Prop :=
    match srv with
    | [] => i = []
    | pk :: _ => length i < length pk
    end.

  Lemma short_nil : forall srv x resp x1, pending srv x resp x1 -> short srv [].
  Proof.
    intros srv x resp x1 H.
    destruct (index_size X kr ltac:(apply Hk)) as ((Hw & _) & _).
    destruct H as [x|i name f args x x1 r Hn Hc|i name f args x x1 r srv resp x2 Hn Hc E H]; cbn [short]; auto;
      rewrite (packet_length q kr i f args _ _ r Hc); cbn [length]; lia.
  Qed.

  Lemma short_app : forall srv srv' i, short srv i -> (srv = [] -> short srv' []) -> short (srv ++ srv') i.
  Proof. intros [|pk srv] srv' i H H'; cbn [app]; auto. cbn [short] in H. rewrite H. auto. Qed.

  Lemma app_prefix : forall (i : list Z) c u pk rest, i ++ c :: u = pk ++ rest -> length i < length pk ->
    i ++ [c] = firstn (S (length i)) pk /\ u = skipn (S (length i)) pk ++ rest.
  Proof.
    induction i as [|d i IH]; intros c u pk rest E Hl; (destruct pk as [|e pk]; cbn [length] in Hl; [lia|]).
    - cbn [app] in E. injection E as -> ->. auto.
    - cbn [app] in E. injection E as -> E. destruct (IH c u pk rest E ltac:(lia)) as [E1 E2].
      cbn [app length firstn skipn]. rewrite E1. split; [reflexivity|exact E2].
  Qed.

  Lemma put_next : forall b a x srv resp x1 c u,
    reached q dbl kr ft b a x -> mc_table a = map snd (kr_funcs kr) -> mc_out a = [] ->
    pending srv x resp x1 -> mc_in a ++ c :: u = concat srv -> short srv (mc_in a) ->
    exists b' a' x' s srv' resp', put q c b x = Ok (b', x', s) /\ reached q dbl kr ft b' a' x'
      /\ mc_table a' = map snd (kr_funcs kr)
      /\ pending srv' x' resp' x1 /\ mc_in a' ++ u = concat srv' /\ short srv' (mc_in a')
      /\ mc_out a' ++ resp' = resp /\ (mc_out a' <> [] -> srv' = []).
  Proof.
    intros b a x srv resp x1 c u H Htab Hout Hpen Hbytes Hsh.
    pose proof (reached_table q dbl kr ft Hq Hk Hs b a x H) as Ht.
    assert (G : forall i name f args rest x0 r, nth_error (kr_funcs kr) i = Some (name, f) -> calls q kr f args x x0 r ->
                  srv = packet kr i f args :: rest ->
                  (exists b' a' s, put q c b x = Ok (b', x0, s) /\ reached q dbl kr ft b' a' x0
                     /\ mc_table a' = map snd (kr_funcs kr) /\ mc_in a' = [] /\ mc_out a' = answer kr f r /\ u = concat rest)
                  \/ (exists b' a' s, put q c b x = Ok (b', x, s) /\ reached q dbl kr ft b' a' x
                     /\ mc_table a' = map snd (kr_funcs kr) /\ mc_in a' = mc_in a ++ [c] /\ mc_out a' = []
                     /\ short srv (mc_in a'))).
    { intros i name f args rest x0 r Hn Hc ->. cbn [short concat] in *.
      assert (Hi : nth_error (mc_table a) i = Some f) by (rewrite Htab, nth_error_map, Hn; reflexivity).
      destruct (app_prefix _ _ _ _ _ Hbytes Hsh) as [Hpre Hu].
      assert (Hb : is_byte c).
      { pose proof (packet_bytes kr i f args) as Hb. rewrite Forall_forall in Hb. apply Hb.
        rewrite <- (firstn_skipn (S (length (mc_in a))) (packet kr i f args)), <- Hpre.
        apply in_or_app. left. apply in_or_app. right. left. reflexivity. }
      destruct (Nat.eq_dec (S (length (mc_in a))) (length (packet kr i f args))) as [Hlast|Hlast]; [left|right].
      - assert (Epk : mc_in a ++ [c] = packet kr i f args) by (rewrite Hpre; apply firstn_all2; lia).
        destruct (received_packet q kr Hk (mc_table a) Ht i f args x x0 r a Hi Hc eq_refl) as [Hrec Hsv].
        destruct (reached_step q dbl kr ft Hq Hk Hs (Put c) b a x (mk_machine [] (answer kr f r) (mc_table a)) x0
                    (OStatus RESOLVED_PACKET) H) as (b2 & S2 & H2).
        { split; [|right; exact Hout]. cbn [step_ok]. rewrite Epk. auto. }
        { cbn [mc_step]. unfold mc_put. rewrite Epk, Hrec. reflexivity. }
        cbn [step] in S2. ok_inv S2 t. destruct t as [[b3 x3] st]. injection S2 as -> -> ->.
        do 3 eexists. split; [reflexivity|]. split; [exact H2|]. split; [exact Htab|]. split; [reflexivity|].
        split; [reflexivity|]. rewrite Hu, skipn_all2 by lia. reflexivity.
      - destruct (received_prefix q kr Hk (mc_table a) Ht i f args x x0 r a (S (length (mc_in a))) x Hi Hc) as [Hrec Hsv]; auto.
        { lia. }
        destruct (reached_step q dbl kr ft Hq Hk Hs (Put c) b a x (mk_machine (mc_in a ++ [c]) (mc_out a) (mc_table a)) x
                    (OStatus LOADING_PACKET) H) as (b2 & S2 & H2).
        { split; [|right; exact Hout]. cbn [step_ok]. rewrite Hpre. auto. }
        { cbn [mc_step]. unfold mc_put. rewrite Hpre, Hrec. reflexivity. }
        cbn [step] in S2. ok_inv S2 t. destruct t as [[b3 x3] st]. injection S2 as -> -> ->.
        do 3 eexists. split; [reflexivity|]. split; [exact H2|]. split; [exact Htab|]. split; [reflexivity|].
        split; [exact Hout|]. cbn [mc_in]. rewrite app_length. cbn [length]. lia. }
    destruct Hpen as [x|i name f args x x0 r Hn Hc|i name f args x x0 r srv resp x2 Hn Hc E Hpen].
    - cbn [short concat] in *. rewrite Hsh in Hbytes. discriminate.
    - destruct (G i name f args [] x0 r Hn Hc eq_refl)
        as [(b' & a' & s & E1 & H1 & T1 & I1 & O1 & U1)|(b' & a' & s & E1 & H1 & T1 & I1 & O1 & U1)].
      + exists b', a', x0, s, [], []. rewrite I1, O1, U1. repeat (split; [solve [auto | constructor]|]).
        split; [apply app_nil_r|auto].
      + exists b', a', x, s, [packet kr i f args], (answer kr f r). split; [exact E1|]. split; [exact H1|]. split; [exact T1|].
        split; [eapply pending_last; eauto|]. split; [rewrite I1, <- app_assoc; exact Hbytes|]. split; [exact U1|].
        rewrite O1. split; [reflexivity|congruence].
    - destruct (G i name f args srv x0 r Hn Hc eq_refl)
        as [(b' & a' & s & E1 & H1 & T1 & I1 & O1 & U1)|(b' & a' & s & E1 & H1 & T1 & I1 & O1 & U1)].
      + exists b', a', x0, s, srv, resp. rewrite I1, O1, U1, E. split; [exact E1|]. split; [exact H1|]. split; [exact T1|].
        split; [exact Hpen|]. split; [reflexivity|]. split; [eapply short_nil; eauto|]. split; [reflexivity|congruence].
      + exists b', a', x, s, (packet kr i f args :: srv), resp. split; [exact E1|]. split; [exact H1|]. split; [exact T1|].
        split; [eapply pending_void; eauto|]. split; [rewrite I1, <- app_assoc; exact Hbytes|]. split; [exact U1|].
        rewrite O1. split; [reflexivity|congruence].
  Qed.

  Lemma get_next : forall b a x, reached q dbl kr ft b a x ->
    is_loaded b = mc_loaded a
    /\ forall c o, mc_out a = c :: o -> exists b', get_byte b = Ok (b', c)
         /\ reached q dbl kr ft b' (mk_machine (mc_in a) o (mc_table a)) x.
  Proof.
    intros b a x H. split; [apply (reached_loaded q dbl kr ft Hq Hk Hs b a x H)|].
    intros c o Eo.
    destruct (reached_step q dbl kr ft Hq Hk Hs Get b a x (mk_machine (mc_in a) o (mc_table a)) x (OByte c) H) as (b1 & S1 & H1).
    { split; [exact I|right; exact I]. } { cbn [mc_step]. unfold mc_get. rewrite Eo. reflexivity. }
    cbn [step] in S1. ok_inv S1 t. destruct t as [b2 c']. injection S1 as -> ->. eauto.
  Qed.
End Callee.

(** ** The whole *)

Section System.
  Context {X : Type}.
  Variables (p q : platform) (dbl : bool) (kr : keyring X) (ft : action_features).
  Hypothesis Hp : wf_platform p.
  Hypothesis Hq : wf_platform q.
  Hypothesis Hkp : keyring_ok p kr.
  Hypothesis Hkq : keyring_ok q kr.
  Hypothesis Hs : well_sized dbl kr ft.
  (** The results and the world of the local calls. *)
  Variables (all : list (option val)) (xl : X).

  (** What remains to be done when [unsent] is still to be written, [got] was
      read, and [n] turns remain. *)
  Definition inv (n : nat) (s : system X) : Prop :=
    exists a srv resp xe vs unsent got,
      reached q dbl kr ft (sy_b s) a (sy_x s) /\ mc_table a = map snd (kr_funcs kr)
      /\ pending q kr srv (sy_x s) resp xe /\ short srv (mc_in a)
      /\ mc_in a ++ sy_up s ++ unsent = concat srv
      /\ (got ++ sy_down s ++ mc_out a <> [] -> srv = [])
      /\ ((sy_phase s = Idle /\ locally p q kr (sy_calls s) xe vs xl
           /\ sy_results s ++ vs = all /\ unsent = [] /\ got ++ sy_down s ++ mc_out a ++ resp = []
           /\ n = length (sy_up s) + turns_of (sy_calls s))
          \/ (exists name f k args x0 r reqs rest,
                In (name, f) (kr_funcs kr) /\ kr_get kr name f = Some k /\ calls p kr f args x0 xe r
                /\ sy_calls s = (k, args) :: reqs /\ locally p q kr reqs xe rest xl
                /\ sy_results s ++ vs = all /\ vs = option_map (fun _ => r) (sig_ret (f_sig f)) :: rest
                /\ got ++ sy_down s ++ mc_out a ++ resp = answer kr f r
                /\ ((sy_phase s = Writing unsent /\ got = []
                     /\ n = length (sy_up s) + 2 * length unsent + length (sy_down s)
                            + 2 * length (mc_out a ++ resp) + 2 + turns_of reqs)
                    \/ (sy_phase s = Reading got /\ unsent = []
                        /\ n = length (sy_up s) + length (sy_down s)
                               + 2 * length (mc_out a ++ resp) + 1 + turns_of reqs)))).

  Lemma inv_turn : forall n s who, inv n s ->
    take_turn p q who s = Ok None \/ exists s' n', take_turn p q who s = Ok (Some s') /\ n = S n' /\ inv n' s'.
  Proof.
    intros n s who H.
    destruct H as (a & srv & resp & xe & vs & unsent & got & Hr & Ht & Hpen & Hsh & Hby & Hone & H).
    destruct s as [reqs0 ph res up down b x]. cbn [sy_calls sy_phase sy_results sy_up sy_down sy_b sy_x] in *.
    destruct who; cbn [take_turn].
    - (* the caller *)
      unfold caller_turn. cbn [sy_calls sy_phase sy_results sy_up sy_down sy_b sy_x].
      destruct H as [(-> & Hl & Hres & -> & Hgot & ->)|
                     (name & f & k & args & x0 & r & reqs & rest & Hin & Hget & Hc & -> & Hl & Hres & Hvs & Hgot & H)].
      + destruct (locally_inv _ _ _ _ _ _ _ _ Hl) as [(-> & _ & _)|
          (name & f & k & args & x1 & r & reqs & vs' & -> & Evs & Hin & Hget & Hc & Hc' & Hl')]; [left; reflexivity|right].
        subst vs. rename vs' into vs, xe into x'.
        rewrite (message_ok p kr Hp Hkp name f k args x' x1 r Hin Hget Hc). cbn [bind].
        apply app_eq_nil in Hgot as [-> Hgot]. apply app_eq_nil in Hgot as [-> Hgot].
        apply app_eq_nil in Hgot as [Ho ->].
        destruct (key_fields kr name f k Hin Hget) as [Hn _].
        do 2 eexists. split; [reflexivity|].
        assert (Hpen' := pending_snoc q kr srv x [] x' (k_index k) name f args x1 r Hpen eq_refl Hn Hc').
        split.
        2:{ exists a, (srv ++ [packet kr (k_index k) f args]), (answer kr f r), x1,
              (option_map (fun _ => r) (sig_ret (f_sig f)) :: vs), (packet kr (k_index k) f args), [].
            cbn [sy_calls sy_phase sy_results sy_up sy_down sy_b sy_x].
            split; [exact Hr|]. split; [exact Ht|]. split; [exact Hpen'|].
            split. { apply short_app; auto. intros ->. cbn [app] in Hpen'. apply (short_nil q kr Hkq _ _ _ _ Hpen'). }
            split. { rewrite concat_app. cbn [concat]. rewrite !app_nil_r in *. rewrite app_assoc, Hby. reflexivity. }
            split. { rewrite Ho. cbn [app]. congruence. }
            right. exists name, f, k, args, x', r, reqs, vs. rewrite Ho. repeat (split; [auto; fail|]). left.
            split; [reflexivity|]. split; [reflexivity|]. reflexivity. }
        unfold turns_of at 1. cbn [map list_sum fold_right fst]. fold (turns_of reqs).
        rewrite (call_turns p kr name f k args x' x1 r Hin Hget Hc). cbn [app length].
        change (fold_right Nat.add 0 (map (fun ka => turns_of_call (fst ka)) reqs)) with (turns_of reqs). lia.
      + destruct H as [(-> & -> & ->)|(-> & -> & ->)].
        * destruct unsent as [|c unsent]; right; do 2 eexists; (split; [reflexivity|]); split.
          2:{ exists a, srv, resp, xe, vs, [], []. cbn [sy_calls sy_phase sy_results sy_up sy_down sy_b sy_x].
              repeat (split; [auto; fail|]). right. exists name, f, k, args, x0, r, reqs, rest.
              repeat (split; [auto; fail|]). right. split; [reflexivity|]. split; [reflexivity|]. reflexivity. }
          { cbn [length]. lia. }
          2:{ exists a, srv, resp, xe, vs, unsent, []. cbn [sy_calls sy_phase sy_results sy_up sy_down sy_b sy_x].
              repeat (split; [auto; fail|]). split. { rewrite <- app_assoc. exact Hby. }
              split; [exact Hone|]. right. exists name, f, k, args, x0, r, reqs, rest.
              repeat (split; [auto; fail|]). left. split; [reflexivity|]. split; [reflexivity|]. reflexivity. }
          { rewrite !app_length. cbn [length]. lia. }
        * destruct down as [|c down].
          -- destruct (mc_out a ++ resp) as [|o1 out1] eqn:Eo.
             ++ right. apply app_eq_nil in Eo as [Eo ->]. rewrite app_nil_r in Hgot. rewrite Hgot.
                rewrite (key_read_ok p kr Hp Hkp name f k args x0 xe r Hin Hget Hc).
                do 2 eexists. split; [reflexivity|]. split.
                2:{ exists a, srv, [], xe, rest, [], []. cbn [sy_calls sy_phase sy_results sy_up sy_down sy_b sy_x].
                    repeat (split; [auto; fail|]). rewrite Eo.
                    left. split; [reflexivity|]. split; [exact Hl|].
                    split; [rewrite <- app_assoc; subst vs; exact Hres|].
                    split; [reflexivity|]. split; [reflexivity|]. reflexivity. }
                cbn [length]. lia.
             ++ left. rewrite (key_read_waits p kr Hp Hkp name f k args x0 xe r Hin Hget Hc); [reflexivity|].
                rewrite <- Hgot, app_length. cbn [app length]. lia.
          -- right. rewrite (key_read_waits p kr Hp Hkp name f k args x0 xe r Hin Hget Hc);
               [|rewrite <- Hgot, app_length; cbn [app length]; lia].
             do 2 eexists. split; [reflexivity|]. split.
             2:{ exists a, srv, resp, xe, vs, [], (got ++ [c]). cbn [sy_calls sy_phase sy_results sy_up sy_down sy_b sy_x].
                 repeat (split; [auto; fail|]).
                 split. { intros _. apply Hone. destruct got; cbn [app]; congruence. }
                 right. exists name, f, k, args, x0, r, reqs, rest. rewrite <- app_assoc.
                 repeat (split; [auto; fail|]). right. split; [reflexivity|]. split; [reflexivity|]. reflexivity. }
             cbn [length]. lia.
    - (* the receiver *)
      unfold receiver_turn. cbn [sy_calls sy_phase sy_results sy_up sy_down sy_b sy_x].
      destruct up as [|c up]; [left; reflexivity|right].
      assert (Hne : srv <> []).
      { intros ->. cbn [short concat] in *. rewrite Hsh in Hby. discriminate. }
      assert (Hz : got = [] /\ down = [] /\ mc_out a = []).
      { destruct (got ++ down ++ mc_out a) as [|z l] eqn:Ez; [|exfalso; apply Hne, Hone; congruence].
        apply app_eq_nil in Ez as [-> Ez]. apply app_eq_nil in Ez as [-> Ez]. auto. }
      destruct Hz as (-> & -> & Ho). cbn [app] in Hby.
      destruct (put_next q dbl kr ft Hq Hkq Hs b a x srv resp xe c (up ++ unsent) Hr Ht Ho Hpen Hby Hsh)
        as (b' & a' & x' & st & srv' & resp' & E1 & H1 & T1 & P1 & B1 & S1 & R1 & O1).
      rewrite E1. cbn [bind]. rewrite Ho in H. cbn [app] in H.
      destruct H as [(-> & Hl & Hres & -> & Hgot & ->)|
                     (name & f & k & args & x0 & r & reqs & rest & Hin & Hget & Hc & -> & Hl & Hres & Hvs & Hgot & H)].
      + do 2 eexists. split; [reflexivity|]. split; [reflexivity|].
        exists a', srv', resp', xe, vs, [], []. cbn [sy_calls sy_phase sy_results sy_up sy_down sy_b sy_x].
        repeat (split; [auto; fail|]). left. repeat (split; [auto; fail|]).
        split; [cbn [app]; congruence|reflexivity].
      + destruct H as [(-> & _ & ->)|(-> & -> & ->)]; (do 2 eexists; split; [reflexivity|]; split; [cbn [length]; rewrite !Nat.add_succ_l; reflexivity|]).
        * exists a', srv', resp', xe, vs, unsent, []. cbn [sy_calls sy_phase sy_results sy_up sy_down sy_b sy_x].
          repeat (split; [auto; fail|]). right. exists name, f, k, args, x0, r, reqs, rest.
          repeat (split; [auto; fail|]). split; [cbn [app]; congruence|]. left. rewrite R1.
          split; [reflexivity|]. split; [reflexivity|]. cbn [length]. lia.
        * exists a', srv', resp', xe, vs, [], []. cbn [sy_calls sy_phase sy_results sy_up sy_down sy_b sy_x].
          repeat (split; [auto; fail|]). right. exists name, f, k, args, x0, r, reqs, rest.
          repeat (split; [auto; fail|]). split; [cbn [app]; congruence|]. right. rewrite R1.
          split; [reflexivity|]. split; [reflexivity|]. cbn [length]. lia.
    - (* the sender *)
      unfold sender_turn. cbn [sy_calls sy_phase sy_results sy_up sy_down sy_b sy_x].
      destruct (get_next q dbl kr ft Hq Hkq Hs b a x Hr) as [El Hgn]. rewrite El.
      unfold mc_loaded. destruct (mc_out a) as [|c o] eqn:Eo; [left; reflexivity|right].
      destruct (Hgn c o eq_refl) as (b' & E1 & H1). rewrite E1. cbn [bind].
      assert (srv = []). { apply Hone. intros Ez. apply app_eq_nil in Ez as [_ Ez]. apply app_eq_nil in Ez as [_ Ez]. discriminate. }
      subst srv.
      destruct H as [(-> & Hl & Hres & -> & Hgot & ->)|
                     (name & f & k & args & x0 & r & reqs & rest & Hin & Hget & Hc & -> & Hl & Hres & Hvs & Hgot & H)].
      { exfalso. apply app_eq_nil in Hgot as [_ Hgot]. apply app_eq_nil in Hgot as [_ Hgot]. discriminate. }
      assert (Hg' : got ++ (down ++ [c]) ++ o ++ resp = answer kr f r) by (rewrite <- Hgot, <- !app_assoc; reflexivity).
      destruct H as [(-> & -> & ->)|(-> & -> & ->)]; (do 2 eexists; split; [reflexivity|]; split).
      2:{ exists (mk_machine (mc_in a) o (mc_table a)), [], resp, xe, vs, unsent, [].
          cbn [sy_calls sy_phase sy_results sy_up sy_down sy_b sy_x mc_in mc_out mc_table].
          repeat (split; [auto; fail|]). right. exists name, f, k, args, x0, r, reqs, rest.
          repeat (split; [auto; fail|]). left. split; [reflexivity|]. split; [reflexivity|]. reflexivity. }
      { rewrite !app_length. cbn [length app]. rewrite ?app_length. cbn [length app]. lia. }
      2:{ exists (mk_machine (mc_in a) o (mc_table a)), [], resp, xe, vs, [], got.
          cbn [sy_calls sy_phase sy_results sy_up sy_down sy_b sy_x mc_in mc_out mc_table].
          repeat (split; [auto; fail|]). right. exists name, f, k, args, x0, r, reqs, rest.
          repeat (split; [auto; fail|]). right. split; [reflexivity|]. split; [reflexivity|]. reflexivity. }
      { rewrite !app_length. cbn [length app]. rewrite ?app_length. cbn [length app]. lia. }
  Qed.

  Lemma inv_served : forall srv (i : list Z), short srv i -> i = concat srv -> srv = [].
  Proof.
    intros [|pk srv] i H E; auto. cbn [short concat] in *. rewrite E, app_length in H. lia.
  Qed.

  Lemma inv_results : forall n s, inv n s -> exists rest, sy_results s ++ rest = all.
  Proof.
    intros n s (a & srv & resp & xe & vs & unsent & got & _ & _ & _ & _ & _ & _ & H). exists vs.
    destruct H as [(_ & _ & H & _)|(name & f & k & args & x0 & r & reqs & rest & _ & _ & _ & _ & _ & H & _)]; exact H.
  Qed.

  Lemma inv_end : forall n s, inv n s ->
    (finished s = true <-> n = 0) /\ (n = 0 -> sy_results s = all /\ sy_x s = xl)
    /\ (n <> 0 -> exists who s', take_turn p q who s = Ok (Some s')).
  Proof.
    intros n s H0. pose proof H0 as H.
    destruct H as (a & srv & resp & xe & vs & unsent & got & Hr & Ht & Hpen & Hsh & Hby & Hone & H).
    pose proof (reached_loaded q dbl kr ft Hq Hkq Hs (sy_b s) a (sy_x s) Hr) as El.
    assert (Go : forall who, take_turn p q who s <> Ok None -> exists who s', take_turn p q who s = Ok (Some s')).
    { intros who Hw. destruct (inv_turn n s who H0) as [E|(s' & n' & E & _)]; [contradiction|eauto]. }
    assert (Gu : sy_up s <> [] -> exists who s', take_turn p q who s = Ok (Some s')).
    { intros Hu. apply (Go Receiver). cbn [take_turn]. unfold receiver_turn. destruct (sy_up s); [congruence|].
      destruct (put q z (sy_b s) (sy_x s)) as [[[b' x'] st]|e]; cbn [bind]; discriminate. }
    destruct H as [(Hph & Hl & Hres & -> & Hgot & Hn)|
                   (name & f & k & args & x0 & r & reqs & rest & Hin & Hget & Hc & Hcl & Hl & Hres & Hvs & Hgot & H)].
    - apply app_eq_nil in Hgot as [-> Hgot]. apply app_eq_nil in Hgot as [Hd Hgot].
      apply app_eq_nil in Hgot as [Ho ->]. rewrite app_nil_r in Hby.
      assert (Ef : finished s = match sy_calls s, sy_up s with [], [] => true | _, _ => false end).
      { unfold finished. rewrite Hd, El. unfold mc_loaded. rewrite Ho. reflexivity. }
      destruct (locally_inv _ _ _ _ _ _ _ _ Hl) as [(Hcl & -> & Hx)|
          (name & f & k & args & x1 & r & reqs & vs' & Hcl & _ & Hin & Hget & Hc & _ & _)]; rewrite Ef, Hcl.
      + rewrite Hcl in Hn. cbn in Hn. rewrite Nat.add_0_r in Hn. subst n.
        destruct (sy_up s) as [|c up] eqn:Eu; cbn [length].
        * split; [tauto|]. split; [|congruence]. intros _. rewrite app_nil_r in Hres, Hby. split; [exact Hres|].
          rewrite (inv_served srv (mc_in a) Hsh Hby) in Hpen. inversion Hpen. congruence.
        * split; [split; discriminate|]. split; [discriminate|]. intros _. apply Gu. congruence.
      + assert (n <> 0).
        { rewrite Hn, Hcl. unfold turns_of. cbn [map list_sum fold_right fst]. unfold turns_of_call. lia. }
        split; [split; [discriminate|contradiction]|]. split; [contradiction|]. intros _.
        apply (Go Caller). cbn [take_turn]. unfold caller_turn. rewrite Hcl, Hph.
        destruct (message p k args); discriminate.
    - assert (Ef : finished s = false) by (unfold finished; rewrite Hcl; reflexivity). rewrite Ef.
      assert (n <> 0) by (destruct H as [(_ & _ & ->)|(_ & _ & ->)]; lia).
      split; [split; [discriminate|contradiction]|]. split; [contradiction|]. intros _.
      destruct H as [(Hph & _ & _)|(Hph & -> & _)].
      + apply (Go Caller). cbn [take_turn]. unfold caller_turn. rewrite Hcl, Hph. destruct unsent; discriminate.
      + destruct (sy_up s) as [|c up] eqn:Eu; [|apply Gu; congruence]. cbn [app] in Hby. rewrite app_nil_r in Hby.
        rewrite (inv_served srv (mc_in a) Hsh Hby) in Hpen. inversion Hpen. subst resp. rewrite app_nil_r in Hgot.
        destruct (mc_out a) as [|c o] eqn:Eo.
        * apply (Go Caller). cbn [take_turn]. unfold caller_turn. rewrite Hcl, Hph.
          destruct (sy_down s) as [|c down].
          -- cbn [app] in Hgot. rewrite app_nil_r in Hgot. rewrite Hgot.
             rewrite (key_read_ok p kr Hp Hkp name f k args x0 xe r Hin Hget Hc). discriminate.
          -- destruct (key_read p k list_source got) as [[l v]|[]]; discriminate.
        * apply (Go Sender). cbn [take_turn]. unfold sender_turn. rewrite El. unfold mc_loaded. rewrite Eo.
          destruct (get_byte (sy_b s)) as [[b' c']|e]; cbn [bind]; discriminate.
  Qed.

  Lemma inv_execute : forall turns n s, inv n s ->
    exists s' d n', execute p q turns s = Ok (s', d) /\ n = d + n' /\ inv n' s'.
  Proof.
    induction turns as [|who turns IH]; intros n s H; cbn [execute].
    - exists s, 0, n. auto.
    - destruct (inv_turn n s who H) as [E|(s1 & n1 & E & -> & H1)]; rewrite E; cbn [bind].
      + apply IH; auto.
      + destruct (IH n1 s1 H1) as (s' & d & n' & E' & -> & H'). rewrite E'. cbn [bind].
        exists s', (S d), n'. auto.
  Qed.

  Lemma inv_start : forall g g' b x reqs, make_buffered dbl kr ft g g' = Some b ->
    locally p q kr reqs x all xl -> inv (turns_of reqs) (start reqs b x).
  Proof.
    intros g g' b x reqs Hb Hl. exists (fresh kr), [], [], x, all, [], [].
    cbn [start sy_calls sy_phase sy_results sy_up sy_down sy_b sy_x].
    split; [eapply reached_new; eauto|]. split; [reflexivity|]. split; [constructor|]. split; [reflexivity|].
    split; [reflexivity|]. split; [auto|]. left. auto 7.
  Qed.
End System.

Lemma execute_app : forall (X : Type) p q t1 t2 (s : system X), execute p q (t1 ++ t2) s =
  ('(s1, d1) <- execute p q t1 s;; '(s2, d2) <- execute p q t2 s1;; Ok (s2, d1 + d2)).
Proof.
  induction t1 as [|who t1 IH]; intros t2 s; cbn [app execute bind].
  - destruct (execute p q t2 s) as [[s2 d2]|e]; reflexivity.
  - destruct (take_turn p q who s) as [[s1|]|e]; cbn [bind]; auto. rewrite IH.
    destruct (execute p q t1 s1) as [[s2 d2]|e]; cbn [bind]; auto.
    destruct (execute p q t2 s2) as [[s3 d3]|e]; reflexivity.
Qed.

(** Turns without effect: nobody of those who took one had anything to do. *)
Lemma execute_idle : forall (X : Type) p q turns (s s' : system X), execute p q turns s = Ok (s', 0) ->
  forall who, In who turns -> take_turn p q who s = Ok None.
Proof.
  induction turns as [|w turns IH]; intros s s' E who Hin; [destruct Hin|]. cbn [execute] in E.
  destruct (take_turn p q w s) as [[s1|]|e] eqn:Et; cbn [bind] in E; try discriminate.
  - destruct (execute p q turns s1) as [[s2 d2]|e]; discriminate.
  - destruct Hin as [<-|Hin]; eauto.
Qed.

(** ** C68 *)

(** Whoever takes the turns, nothing undefined happens and the results so far
    are the first results of the local calls; as long as not everything is done,
    someone can go on; the number of turns of some effect is known beforehand,
    and when they were taken the results and the world of the callee are those
    of the local calls. *)
Theorem C68_every_schedule : forall (X : Type) p q dbl (kr : keyring X) ft g g' b x reqs vs x2 turns,
  wf_platform p -> wf_platform q -> keyring_ok p kr -> keyring_ok q kr -> well_sized dbl kr ft ->
  make_buffered dbl kr ft g g' = Some b -> locally p q kr reqs x vs x2 ->
  exists s d, execute p q turns (start reqs b x) = Ok (s, d)
    /\ d <= turns_of reqs
    /\ (exists rest, sy_results s ++ rest = vs)
    /\ (finished s = true <-> d = turns_of reqs)
    /\ (finished s = true -> sy_results s = vs /\ sy_x s = x2)
    /\ (finished s = false -> exists who s', take_turn p q who s = Ok (Some s')).
Proof.
  intros X p q dbl kr ft g g' b x reqs vs x2 turns Hp Hq Hkp Hkq Hs Hb Hl.
  pose proof (inv_start p q dbl kr ft vs x2 g g' b x reqs Hb Hl) as H.
  destruct (inv_execute p q dbl kr ft Hp Hq Hkp Hkq Hs vs x2 turns _ _ H) as (s & d & n & E & En & H').
  destruct (inv_end p q dbl kr ft Hp Hq Hkp Hkq Hs vs x2 n s H') as (H1 & H2 & H3).
  exists s, d. split; [exact E|]. split; [lia|]. split; [eapply inv_results; eauto|].
  split; [rewrite H1; lia|]. split.
  - intros F. apply H2, H1, F.
  - intros F. apply H3. intros E0. apply H1 in E0. congruence.
Qed.

(** When everyone takes a turn again and again, everything is done at last. *)
Theorem C68_fair : forall (X : Type) p q dbl (kr : keyring X) ft g g' b x reqs vs x2 rounds,
  wf_platform p -> wf_platform q -> keyring_ok p kr -> keyring_ok q kr -> well_sized dbl kr ft ->
  make_buffered dbl kr ft g g' = Some b -> locally p q kr reqs x vs x2 ->
  Forall round rounds -> turns_of reqs <= length rounds ->
  exists s, execute p q (concat rounds) (start reqs b x) = Ok (s, turns_of reqs)
    /\ finished s = true /\ sy_results s = vs /\ sy_x s = x2.
Proof.
  intros X p q dbl kr ft g g' b x reqs vs x2 rounds Hp Hq Hkp Hkq Hs Hb Hl Hr Hn.
  pose proof (inv_start p q dbl kr ft vs x2 g g' b x reqs Hb Hl) as H.
  remember (turns_of reqs) as n. clear Heqn Hb Hl. revert n H Hn. generalize (start reqs b x) as s0.
  induction Hr as [|bl rounds Hbl Hr IH]; intros s0 n H Hn.
  - cbn [length] in Hn. assert (n = 0) by lia. subst n. cbn [concat execute]. exists s0. split; [reflexivity|].
    destruct (inv_end p q dbl kr ft Hp Hq Hkp Hkq Hs vs x2 0 s0 H) as (H1 & H2 & _).
    split; [apply H1; reflexivity|]. apply H2. reflexivity.
  - cbn [concat]. rewrite execute_app.
    destruct (inv_execute p q dbl kr ft Hp Hq Hkp Hkq Hs vs x2 bl n s0 H) as (s1 & d & n1 & E & En & H').
    rewrite E. cbn [bind].
    destruct (IH s1 n1 H') as (s & E1 & F & R). 2:{ exists s. rewrite E1. cbn [bind]. subst n. auto. }
    cbn [length] in Hn. destruct d as [|d]; [|lia].
    destruct (Nat.eq_dec n 0) as [->|Hz]; [lia|].
    destruct (inv_end p q dbl kr ft Hp Hq Hkp Hkq Hs vs x2 n s0 H) as (_ & _ & H3).
    destruct (H3 Hz) as (who & s' & Ew). exfalso.
    assert (Hi : In who bl) by (destruct Hbl as (B1 & B2 & B3); destruct who; auto).
    rewrite (execute_idle _ _ _ _ _ _ E who Hi) in Ew. discriminate.
Qed.

(** A void call, a call with a response, another void call; the caller on a 16
    bit host, the callee on a 32 bit host, single buffered. *)
Definition ex_reqs : list (key * list val) :=
  [(ex_key_notify, []); (ex_key_add, [VInt (-2); VInt 5]); (ex_key_notify, [])]%Z.

Example C68_example : exists b,
  make_buffered false ex_keyring ANY [] [] = Some b
  /\ keyring_ok avr_portable ex_keyring /\ keyring_ok pc_native ex_keyring /\ well_sized false ex_keyring ANY
  /\ locally avr_portable pc_native ex_keyring ex_reqs [] [None; Some (VInt 3); None]%Z
       [(1, []); (0, [VInt (-2)%Z; VInt 5%Z]); (1, [])]
  /\ turns_of ex_reqs = 29
  /\ exists s, execute avr_portable pc_native (concat (repeat [Sender; Caller; Receiver] 29)) (start ex_reqs b []) = Ok (s, 29)
     /\ sy_results s = [None; Some (VInt 3); None]%Z /\ finished s = true.
Proof.
  eexists. split; [reflexivity|].
  split. { split; [vm_compute; reflexivity|]. unfold ex_keyring. cbn [kr_funcs kr_e kr_m]. list_cases; split; cbn [snd f_sig sig_params sig_ret ex_add ex_notify ex_swap ret_ty_ok]; tyoks. }
  split; [exact ex_keyring_ok|]. split; [exact (proj2 ex_well_sized)|].
  split.
  { change [None; Some (VInt 3); None]%Z with
      [option_map (fun _ => VInt 0) (sig_ret (f_sig ex_notify)); option_map (fun _ => VInt 3) (sig_ret (f_sig ex_add));
       option_map (fun _ => VInt 0) (sig_ret (f_sig ex_notify))]%Z.
    unfold ex_reqs.
    eapply (locally_cons _ _ _ 20 ex_notify); [cbn; auto|reflexivity|split; [encs|split; [reflexivity|exact I]]..|].
    eapply (locally_cons _ _ _ 10 ex_add); [cbn; auto|reflexivity|split; [encs|split; [reflexivity|encs]]..|].
    eapply (locally_cons _ _ _ 20 ex_notify); [cbn; auto|reflexivity|split; [encs|split; [reflexivity|exact I]]..|].
    constructor. }
  split; [reflexivity|]. eexists. split; [vm_compute; reflexivity|]. split; reflexivity.
Qed.

Print Assumptions C68_every_schedule.
Print Assumptions C68_fair.
