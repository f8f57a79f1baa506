(** C74: the names of the callbacks in Python; C75: the modules made from
    keyrings. *)

From Coq Require Import Ascii String List ZArith Bool Arith Lia.
From Verif Require Import Base Serial TypeLevel TupleModel SpecRpc Rpc TypeLevelProofs TupleProofs RpcProofs PyNames.
Import ListNotations.
Open Scope nat_scope.

(** ** Regular expressions, declaratively: [parses r s s' g g'] when [r] matches
    what [s] has in front of [s']. *)

Inductive parses : regex -> text -> text -> groups -> groups -> Prop :=
| P_one : forall ok c s g, ok c = true -> parses (One ok) (c :: s) s g g
| P_many : forall ok a s g, forallb ok a = true -> parses (Many ok) (a ++ s) s g g
| P_maybe : forall r s s' g g', parses r s s' g g' -> parses (Maybe r) s s' g g'
| P_nothing : forall r s g, parses (Maybe r) s s g g
| P_then : forall r1 r2 s s1 s2 g g1 g2, parses r1 s s1 g g1 -> parses r2 s1 s2 g1 g2 ->
    parses (Then r1 r2) s s2 g g2
| P_group : forall n r s s' g g', parses r s s' g g' ->
    parses (Group n r) s s' g ((n, firstn (length s - length s') s) :: g').

Lemma many_sound : forall ok k s g x, many ok k s g = Some x ->
  exists a s', s = a ++ s' /\ forallb ok a = true /\ k s' g = Some x.
Proof.
  induction s as [|c s IH]; cbn [many]; intros g x H.
  - exists [], []. auto.
  - destruct (ok c) eqn:E.
    + destruct (many ok k s g) as [y|] eqn:Em.
      * assert (y = x) by congruence. subst y. destruct (IH _ _ Em) as (a & s' & -> & Ha & Hk).
        exists (c :: a), s'. cbn. rewrite E. auto.
      * exists [], (c :: s). auto.
    + exists [], (c :: s). auto.
Qed.

Lemma many_complete : forall ok k g a s, forallb ok a = true -> k s g <> None -> many ok k (a ++ s) g <> None.
Proof.
  induction a as [|c a IH]; cbn [app forallb]; intros s Ha Hk.
  - destruct s as [|c s]; cbn [many]; auto. destruct (ok c); auto.
    destruct (many ok k s g); auto. discriminate.
  - apply andb_prop in Ha. destruct Ha as [Hc Ha]. cbn [many]. rewrite Hc.
    pose proof (IH s Ha Hk) as H. destruct (many ok k (a ++ s) g); congruence.
Qed.

Lemma run_sound : forall r k s g x, run_regex r k s g = Some x ->
  exists s' g', parses r s s' g g' /\ k s' g' = Some x.
Proof.
  induction r as [ok|ok|r IH|r1 IH1 r2 IH2|n r IH]; cbn [run_regex]; intros k s g x H.
  - destruct s as [|c s]; [discriminate|]. destruct (ok c) eqn:E; [|discriminate].
    exists s, g. split; auto. constructor. auto.
  - destruct (many_sound _ _ _ _ _ H) as (a & s' & -> & Ha & Hk). exists s', g. split; auto. constructor. auto.
  - destruct (run_regex r k s g) as [y|] eqn:E.
    + assert (y = x) by congruence. subst y. destruct (IH _ _ _ _ E) as (s' & g' & Hp & Hk).
      exists s', g'. split; auto. constructor. auto.
    + exists s, g. split; auto. apply P_nothing.
  - destruct (IH1 _ _ _ _ H) as (s1 & g1 & Hp1 & H1). destruct (IH2 _ _ _ _ H1) as (s2 & g2 & Hp2 & H2).
    exists s2, g2. split; auto. econstructor; eauto.
  - destruct (IH _ _ _ _ H) as (s' & g' & Hp & Hk). exists s', ((n, firstn (length s - length s') s) :: g').
    split; auto. constructor. auto.
Qed.

Lemma run_complete : forall r s s' g g', parses r s s' g g' ->
  forall k, k s' g' <> None -> run_regex r k s g <> None.
Proof.
  induction 1 as [ok c s g H|ok a s g H|r s s' g g' Hp IH|r s g|r1 r2 s s1 s2 g g1 g2 Hp1 IH1 Hp2 IH2
                 |n r s s' g g' Hp IH]; intros k Hk; cbn [run_regex].
  - rewrite H. auto.
  - apply many_complete; auto.
  - pose proof (IH k Hk) as H. destruct (run_regex r k s g); congruence.
  - destruct (run_regex r k s g); congruence.
  - apply IH1, IH2, Hk.
  - apply IH, Hk.
Qed.

(** [x*] takes the longest text after which the rest matches. *)
Lemma many_last : forall ok k g x a b, forallb ok a = true -> k b g = Some x ->
  (forall a' b', b = a' ++ b' -> a' <> [] -> k b' g = None) -> many ok k (a ++ b) g = Some x.
Proof.
  intros ok k g x a b Ha Hk Hl. assert (many ok k b g = Some x) as Hb.
  { destruct (many ok k b g) as [y|] eqn:E.
    - destruct (many_sound _ _ _ _ _ E) as (a' & b' & Eb & _ & Hy).
      destruct a' as [|c a']; [cbn in Eb; subst b'; congruence|].
      rewrite (Hl _ _ Eb) in Hy; [discriminate|discriminate].
    - exfalso. assert (H : many ok k ([] ++ b) g <> None) by (apply many_complete; [reflexivity|congruence]).
      cbn [app] in H. auto. }
  induction a as [|c a IH]; cbn [app]; auto. cbn [forallb] in Ha. apply andb_prop in Ha. destruct Ha as [Hc Ha].
  cbn [many]. rewrite Hc, (IH Ha). reflexivity.
Qed.

Lemma many_none : forall ok k g s, (forall a b, s = a ++ b -> k b g = None) -> many ok k s g = None.
Proof.
  intros ok k g s H. destruct (many ok k s g) as [y|] eqn:E; auto.
  destruct (many_sound _ _ _ _ _ E) as (a & b & Eb & _ & Hy). rewrite (H _ _ Eb) in Hy. discriminate.
Qed.

(** ** The names *)

(** A text on one line and an identifier, as the expression has them. *)
Definition lined (s : text) : Prop := forallb dot s = true.
Definition worded (s : text) : Prop := s <> [] /\ forallb word s = true.

(** The address of a callback in a text: a comma, a space, [&], maybe a
    parenthesis, and an identifier. *)
Definition address (o w : text) (sp : ascii) : text := ","%char :: sp :: "&"%char :: o ++ w.
Definition opening (o : text) : Prop := o = [] \/ o = txt "(".

(** A text in which the address of a function is written with parameters, as in
    [unevaluated<void ( * )(), &(g())>]. *)
Definition quotes (s : text) : Prop :=
  exists a sp o w b, s = a ++ address o w sp ++ txt "(" ++ b /\ space sp = true /\ opening o /\ worded w.

(** The part of the expression after [.*]. *)
Definition at_address : regex :=
  Then (One (this ","))
  (Then (One space)
  (Then (One (this "&"))
  (Then (Maybe (One (this "(")))
  (Then (Group 1 (Then (One word) (Many word)))
  (Then (Maybe (Group 2 (Then (One (this "(")) (Then (Many dot) (One (this ")"))))))
  (Then (Maybe (One (this ")")))
        (One (this ">")))))))).

Definition at_end : continuation := fun s' g => match s' with [] => Some g | _ :: _ => None end.

(** What may come after the identifier. *)
Definition ending (x : text) : Prop :=
  exists y h, x = y ++ h ++ txt ">" /\ (h = [] \/ h = txt ")")
    /\ (y = [] \/ exists z, y = txt "(" ++ z ++ txt ")" /\ lined z).

Lemma this_eq : forall c c', this c c' = true -> c' = c.
Proof. intros c c' H. apply Ascii.eqb_eq in H. auto. Qed.

Lemma not_word : forall c, (c = "("%char \/ c = ")"%char \/ c = ">"%char \/ c = " "%char \/ c = ":"%char \/ c = "<"%char) ->
  word c = false.
Proof. intros c H. intuition; subst; reflexivity. Qed.

Lemma ending_head : forall x, ending x -> exists c x', x = c :: x' /\ word c = false.
Proof.
  intros x (y & h & -> & Hh & [-> | (z & -> & _)]).
  - destruct Hh as [-> | ->]; eexists; eexists; split; reflexivity.
  - eexists; eexists; split; reflexivity.
Qed.

Ltac inv H := inversion H; subst; clear H.

Lemma captured : forall (w s : text), firstn (length (w ++ s) - length s) (w ++ s) = w.
Proof.
  intros w s. rewrite app_length. replace (length w + length s - length s) with (length w) by lia.
  rewrite firstn_app, Nat.sub_diag, firstn_all. cbn [firstn]. apply app_nil_r.
Qed.

Lemma address_sound : forall b g, parses at_address b [] [] g ->
  exists sp o w x, b = address o w sp ++ x /\ space sp = true /\ opening o /\ worded w /\ ending x
    /\ group 1 g = Some w.
Proof.
  intros b g H. unfold at_address in H.
  inv H. match goal with H : parses (One (this ",")) _ _ _ _ |- _ => inv H end.
  match goal with H : this _ _ = true |- _ => apply this_eq in H; subst end.
  match goal with H : parses (Then (One space) _) _ _ _ _ |- _ => inv H end.
  match goal with H : parses (One space) _ _ _ _ |- _ => inv H end.
  match goal with H : parses (Then (One (this "&")) _) _ _ _ _ |- _ => inv H end.
  match goal with H : parses (One (this "&")) _ _ _ _ |- _ => inv H end.
  match goal with H : this _ _ = true |- _ => apply this_eq in H; subst end.
  match goal with H : parses (Then (Maybe (One (this "("))) _) _ _ _ _ |- _ => inv H end.
  match goal with H : parses (Then (Group 1 _) _) _ _ _ _ |- _ => inv H end.
  match goal with H : parses (Group 1 _) _ _ _ _ |- _ => inv H end.
  match goal with H : parses (Then (One word) _) _ _ _ _ |- _ => inv H end.
  match goal with H : parses (One word) _ _ _ _ |- _ => inv H end.
  match goal with H : parses (Many word) _ _ _ _ |- _ => inv H end.
  match goal with H : parses (Then (Maybe (Group 2 _)) _) _ _ _ _ |- _ => inv H end.
  match goal with H : parses (Then (Maybe (One (this ")"))) _) _ _ _ _ |- _ => inv H end.
  match goal with H : parses (One (this ">")) _ _ _ _ |- _ => inv H end.
  match goal with H : this ">" _ = true |- _ => apply this_eq in H; subst end.
  repeat match goal with
  | H : context [firstn _ (?c :: ?a ++ ?s)] |- _ =>
      change (c :: a ++ s) with ((c :: a) ++ s) in H; rewrite captured in H
  end.
  match goal with
  | H : parses (Maybe (One (this "("))) ?s ((?c :: ?a) ++ ?s') ?g0 ?g1 |- _ =>
      assert (exists o, s = o ++ (c :: a) ++ s' /\ opening o /\ g1 = g0) as (o & -> & Ho & ->)
        by (inv H; [match goal with H : parses (One _) _ _ _ _ |- _ => inv H end;
                    match goal with H : this _ _ = true |- _ => apply this_eq in H; subst end;
                    exists (txt "("); unfold opening; auto
                   |exists []; unfold opening; auto])
  | H : parses (Maybe (One (this "("))) ?s (?c :: ?a ++ ?s') ?g0 ?g1 |- _ =>
      assert (exists o, s = o ++ (c :: a) ++ s' /\ opening o /\ g1 = g0) as (o & -> & Ho & ->)
        by (inv H; [match goal with H : parses (One _) _ _ _ _ |- _ => inv H end;
                    match goal with H : this _ _ = true |- _ => apply this_eq in H; subst end;
                    exists (txt "("); unfold opening; auto
                   |exists []; unfold opening; auto])
  end.
  match goal with
  | H : parses (Maybe (One (this ")"))) ?s ?s' ?g0 ?g1 |- _ =>
      assert (exists h, s = h ++ s' /\ (h = [] \/ h = txt ")") /\ g1 = g0) as (h & -> & Hh & ->)
        by (inv H; [match goal with H : parses (One _) _ _ _ _ |- _ => inv H end;
                    match goal with H : this _ _ = true |- _ => apply this_eq in H; subst end;
                    exists (txt ")"); auto
                   |exists []; auto])
  end.
  match goal with
  | H : parses (Maybe (Group 2 _)) ?s ?s' ?g0 ?g1 |- _ =>
      assert (exists y, s = y ++ s' /\ (y = [] \/ exists z, y = txt "(" ++ z ++ txt ")" /\ lined z)
                /\ group 1 g1 = group 1 g0) as (y & -> & Hy & Eg)
  end.
  { match goal with H : parses (Maybe (Group 2 _)) _ _ _ _ |- _ => inv H end.
    - match goal with H : parses (Group 2 _) _ _ _ _ |- _ => inv H end.
      match goal with H : parses (Then (One _) (Then _ _)) _ _ _ _ |- _ => inv H end.
      match goal with H : parses (One _) _ _ _ _ |- _ => inv H end.
      match goal with H : this _ _ = true |- _ => apply this_eq in H; subst end.
      match goal with H : parses (Then (Many _) _) _ _ _ _ |- _ => inv H end.
      match goal with H : parses (Many _) _ _ _ _ |- _ => inv H end.
      match goal with H : parses (One _) _ _ _ _ |- _ => inv H end.
      match goal with H : this _ _ = true |- _ => apply this_eq in H; subst end.
      match goal with H : forallb dot ?z = true |- _ => exists (txt "(" ++ z ++ txt ")") end.
      split; [cbn [txt list_ascii_of_string app]; rewrite <- app_assoc; reflexivity|].
      split; [right; eexists; split; [reflexivity|assumption]|reflexivity].
    - exists []. auto. }
  match goal with
  | Hs : space ?sp = true, Hw : word ?c = true, Ha : forallb word ?a = true |- _ =>
      exists sp, o, (c :: a), (y ++ h ++ txt ">");
      split; [unfold address; cbn [app]; rewrite <- ?app_assoc; reflexivity|];
      split; [exact Hs|]; split; [exact Ho|];
      split; [split; [discriminate|cbn [forallb]; rewrite Hw, Ha; reflexivity]|];
      split; [exists y, h; auto|]
  end.
  rewrite Eg. cbn [group Nat.eqb]. reflexivity.
Qed.

Lemma address_complete : forall sp o w x, space sp = true -> opening o -> worded w -> ending x ->
  exists g, parses at_address (address o w sp ++ x) [] [] g.
Proof.
  intros sp o w x Hs Ho [Hw0 Hw] (y & h & -> & Hh & Hy).
  destruct w as [|c w]; [congruence|]. cbn [forallb] in Hw. apply andb_prop in Hw. destruct Hw as [Hc Hw].
  unfold address. cbn [app]. rewrite <- app_assoc.
  assert (H1 : parses (Maybe (One (this "("))) (o ++ (c :: w) ++ y ++ h ++ txt ">") ((c :: w) ++ y ++ h ++ txt ">") [] []).
  { destruct Ho as [-> | ->]; [apply P_nothing|apply P_maybe, P_one; reflexivity]. }
  assert (H2 : exists g, parses (Group 1 (Then (One word) (Many word))) ((c :: w) ++ y ++ h ++ txt ">") (y ++ h ++ txt ">") [] g).
  { eexists. apply P_group. eapply P_then; [apply P_one; exact Hc|apply P_many; exact Hw]. }
  destruct H2 as [g H2].
  assert (H3 : exists g', parses (Maybe (Group 2 (Then (One (this "(")) (Then (Many dot) (One (this ")"))))))
                            (y ++ h ++ txt ">") (h ++ txt ">") g g').
  { destruct Hy as [-> | (z & -> & Hz)]; [eexists; apply P_nothing|].
    replace ((txt "(" ++ z ++ txt ")") ++ h ++ txt ">") with ("("%char :: z ++ ")"%char :: h ++ txt ">")
      by (cbn [txt list_ascii_of_string app]; rewrite <- app_assoc; reflexivity).
    eexists. apply P_maybe, P_group. eapply P_then; [apply P_one; reflexivity|].
    eapply P_then; [apply P_many; exact Hz|apply P_one; reflexivity]. }
  destruct H3 as [g' H3].
  assert (H4 : parses (Maybe (One (this ")"))) (h ++ txt ">") (txt ">") g' g').
  { destruct Hh as [-> | ->]; [apply P_nothing|apply P_maybe, P_one; reflexivity]. }
  exists g'. unfold at_address.
  eapply P_then; [apply P_one; reflexivity|]. eapply P_then; [apply P_one; exact Hs|].
  eapply P_then; [apply P_one; reflexivity|]. eapply P_then; [exact H1|]. eapply P_then; [exact H2|].
  eapply P_then; [exact H3|]. eapply P_then; [exact H4|]. apply P_one. reflexivity.
Qed.

Lemma word_prefix : forall w w' x x', forallb word w = true -> forallb word w' = true -> ending x -> ending x' ->
  w ++ x = w' ++ x' -> w = w' /\ x = x'.
Proof.
  induction w as [|c w IH]; intros [|c' w'] x x' Hw Hw' Hx Hx' E; cbn [app] in E; auto.
  - exfalso. destruct (ending_head x Hx) as (c & y & -> & Hc). injection E as -> _.
    cbn [forallb] in Hw'. rewrite Hc in Hw'. discriminate.
  - exfalso. destruct (ending_head x' Hx') as (c' & y & -> & Hc). injection E as -> _.
    cbn [forallb] in Hw. rewrite Hc in Hw. discriminate.
  - injection E as -> E. cbn [forallb] in Hw, Hw'. apply andb_prop in Hw, Hw'.
    destruct (IH w' x x') as [-> ->]; intuition.
Qed.

Lemma address_unique : forall sp o w x sp' o' w' x', opening o -> worded w -> ending x -> opening o' ->
  worded w' -> ending x' -> address o w sp ++ x = address o' w' sp' ++ x' -> w = w' /\ x = x' /\ o = o'.
Proof.
  intros sp o w x sp' o' w' x' Ho [Hw0 Hw] Hx Ho' [Hw0' Hw'] Hx' E. unfold address in E. cbn [app] in E.
  injection E as _ E. rewrite <- !app_assoc in E.
  destruct Ho as [-> | ->], Ho' as [-> | ->]; cbn [txt list_ascii_of_string app] in E.
  - destruct (word_prefix w w' x x') as [-> ->]; auto.
  - exfalso. destruct w as [|c w]; [congruence|]. injection E as -> _. discriminate Hw.
  - exfalso. destruct w' as [|c w']; [congruence|]. injection E as <- _. discriminate Hw'.
  - injection E as E. destruct (word_prefix w w' x x') as [-> ->]; auto.
Qed.

(** Whether there is a callback at a place, and which. *)
Definition found (b : text) : option groups := run_regex at_address at_end b [].

Lemma found_some : forall sp o w x, space sp = true -> opening o -> worded w -> ending x ->
  exists g, found (address o w sp ++ x) = Some g /\ group 1 g = Some w.
Proof.
  intros sp o w x Hs Ho Hw Hx. destruct (address_complete sp o w x Hs Ho Hw Hx) as [g Hg].
  assert (H : found (address o w sp ++ x) <> None).
  { unfold found. apply (run_complete _ _ _ _ _ Hg). discriminate. }
  destruct (found (address o w sp ++ x)) as [g'|] eqn:E; [|congruence]. exists g'. split; auto.
  destruct (run_sound _ _ _ _ _ E) as (s' & g1 & Hp & Hk). destruct s'; [|discriminate].
  injection Hk as ->. destruct (address_sound _ _ Hp) as (sp' & o' & w' & x' & Eb & _ & Ho' & Hw' & Hx' & Eg).
  apply address_unique in Eb; auto. destruct Eb as (-> & _). auto.
Qed.

Lemma found_none : forall b, (forall sp o w x, b = address o w sp ++ x -> space sp = true -> opening o ->
  worded w -> ending x -> False) -> found b = None.
Proof.
  intros b H. destruct (found b) as [g|] eqn:E; auto. exfalso.
  destruct (run_sound _ _ _ _ _ E) as (s' & g1 & Hp & Hk). destruct s'; [|discriminate].
  destruct (address_sound _ _ Hp) as (sp & o & w & x & Eb & Hs & Ho & Hw & Hx & _). eapply H; eauto.
Qed.

Lemma run_literal : forall l r k s g, run_regex (literal l r) k (l ++ s) g = run_regex r k s g.
Proof.
  induction l as [|c l IH]; intros r k s g; auto. cbn [literal app run_regex]. unfold this at 1.
  rewrite Ascii.eqb_refl. apply IH.
Qed.

Lemma demangle_some : forall a b w, lined a ->
  (exists g, found b = Some g /\ group 1 g = Some w) ->
  (forall a' b', b = a' ++ b' -> a' <> [] -> found b' = None) ->
  demangle (txt "upd::unevaluated<" ++ a ++ b) = Some w.
Proof.
  intros a b w Ha (g & Hg & Hw) Hl. unfold demangle, regex_match, callback_name_re.
  rewrite run_literal. cbn [run_regex].
  rewrite (many_last dot _ [] g a b); auto.
Qed.

Lemma demangle_none : forall s, (forall a b, s = a ++ b -> found b = None) ->
  demangle (txt "upd::unevaluated<" ++ s) = None.
Proof.
  intros s H. unfold demangle, regex_match, callback_name_re. rewrite run_literal. cbn [run_regex].
  rewrite many_none; auto.
Qed.

(** *** Splitting texts *)

Lemma split_left : forall (c : ascii) l1 l2 a r, l1 ++ l2 = a ++ c :: r -> ~ In c l1 ->
  exists a', a = l1 ++ a' /\ l2 = a' ++ c :: r.
Proof.
  induction l1 as [|d l1 IH]; intros l2 a r E H; cbn [app] in *; [eauto|].
  destruct a as [|d' a]; cbn [app] in E; injection E as -> E.
  - exfalso. apply H. left. reflexivity.
  - destruct (IH l2 a r E) as (a' & -> & ->); [intros Hc; apply H; right; auto|]. exists a'. auto.
Qed.

Lemma split_right : forall (c : ascii) l3 l2 a r, l2 ++ l3 = a ++ c :: r -> ~ In c l3 ->
  exists r', l2 = a ++ c :: r' /\ r = r' ++ l3.
Proof.
  induction l2 as [|d l2 IH]; intros a r E H; cbn [app] in *.
  - exfalso. apply H. rewrite E. apply in_or_app. right. left. reflexivity.
  - destruct a as [|d' a]; cbn [app] in E; injection E as -> E.
    + exists l2. auto.
    + destruct (IH a r E H) as (r' & -> & ->). exists r'. auto.
Qed.

Lemma peel : forall (l3 A p r : text), A ++ r = p ++ l3 -> (forall c, In c A -> ~ In c l3) ->
  exists p', p = A ++ p' /\ r = p' ++ l3.
Proof.
  induction A as [|c A IH]; intros p r E H; cbn [app] in E; [exists p; auto|].
  destruct p as [|d p]; cbn [app] in E.
  - exfalso. apply (H c); [left; reflexivity|]. rewrite <- E. left. reflexivity.
  - injection E as E0 E1. subst d. destruct (IH p r E1) as (p' & -> & ->); [intros c' Hc'; apply H; right; auto|].
    exists p'. auto.
Qed.

Lemma in_word : forall w c, forallb word w = true -> In c w -> word c = true.
Proof. intros w c H Hc. rewrite forallb_forall in H. auto. Qed.

Lemma word_dot : forall c, word c = true -> dot c = true.
Proof.
  intros c H. unfold dot. destruct (Ascii.eqb_spec c "010"); [subst; discriminate|].
  destruct (Ascii.eqb_spec c "013"); [subst; discriminate|]. reflexivity.
Qed.

Lemma lined_app : forall a b, lined a -> lined b -> lined (a ++ b).
Proof. unfold lined. intros a b Ha Hb. rewrite forallb_app, Ha, Hb. reflexivity. Qed.

Lemma lined_word : forall w, forallb word w = true -> lined w.
Proof.
  unfold lined. intros w H. rewrite forallb_forall in *. intros c Hc. apply word_dot. auto.
Qed.

(** The characters of an address are neither commas (after the first) nor
    closing brackets. *)
Lemma address_chars : forall sp o w c, space sp = true -> opening o -> forallb word w = true ->
  In c (sp :: "&"%char :: o ++ w) -> c <> ","%char /\ c <> ")"%char /\ c <> ">"%char /\ c <> ":"%char.
Proof.
  intros sp o w c Hs Ho Hw [<- | [<- | Hc]].
  - repeat split; intros ->; discriminate Hs.
  - repeat split; discriminate.
  - apply in_app_or in Hc. destruct Hc as [Hc|Hc].
    + destruct Ho as [-> | ->]; cbn in Hc; intuition; subst; discriminate.
    + apply (in_word w c Hw) in Hc. repeat split; intros ->; discriminate Hc.
Qed.

Lemma later_none : forall sp o w params, space sp = true -> opening o -> forallb word w = true -> ~ quotes params ->
  forall a b, address o w sp ++ txt "(" ++ params ++ txt "))>" = a ++ b -> a <> [] -> found b = None.
Proof.
  intros sp o w params Hs Ho Hw Hc a b E Ha. apply found_none. intros sp' o' w' x Eb Hs' Ho' [Hw0 Hw'] Hx.
  apply Hc. clear Hc. subst b. destruct a as [|c a]; [congruence|].
  assert (E1 : (sp :: "&"%char :: o ++ w) ++ txt "(" ++ params ++ txt "))>"
               = a ++ ","%char :: (sp' :: "&"%char :: o' ++ w') ++ x) by (injection E as _ E; exact E).
  clear E. rename E1 into E. apply split_left in E.
  2:{ intros H. apply address_chars in H; auto. destruct H. congruence. }
  destruct E as (a1 & -> & E). apply split_left in E; [|cbn; intuition; discriminate].
  destruct E as (a2 & -> & E). apply split_right in E; [|cbn; intuition; discriminate].
  destruct E as (p & -> & E).
  apply peel in E.
  2:{ intros d Hd Hin. apply address_chars in Hd; auto. cbn in Hin. intuition; subst; congruence. }
  destruct E as (p' & -> & ->).
  assert (exists p2, p' = txt "(" ++ p2) as (p2 & ->).
  { destruct Hx as (y & h & Ex & Hh & Hy). destruct Hy as [-> | (z & -> & _)].
    - exfalso. apply (f_equal (@length ascii)) in Ex. rewrite !app_length in Ex.
      destruct Hh as [-> | ->]; cbn in Ex; lia.
    - destruct p' as [|d p']; cbn in Ex; [discriminate|]. injection Ex as -> _. exists p'. reflexivity. }
  exists a2, sp', o', w', p2. split; [|split; [auto|split; [auto|split; auto]]].
  unfold address. cbn [app]. rewrite <- !app_assoc. reflexivity.
Qed.

(** Texts without [&] cite nothing. *)
Lemma no_ampersand : forall s, ~ In "&"%char s -> ~ quotes s.
Proof.
  intros s H (a & sp & o & w & b & -> & _). apply H. apply in_or_app. right. apply in_or_app. left.
  right. right. left. reflexivity.
Qed.

Definition cite_re : regex :=
  Then (One (this ",")) (Then (One space) (Then (One (this "&")) (Then (Maybe (One (this "(")))
  (Then (One word) (Then (Many word) (One (this "("))))))).
Fixpoint citesb (s : text) : bool :=
  match run_regex cite_re (fun _ g => Some g) s [] with
  | Some _ => true
  | None => match s with [] => false | _ :: s' => citesb s' end
  end.
Lemma citesb_complete : forall s, citesb s = false -> ~ quotes s.
Proof.
  intros s E (a & sp & o & w & b & -> & Hs & Ho & [Hw0 Hw]).
  destruct w as [|c w]; [congruence|]. cbn [forallb] in Hw. apply andb_prop in Hw. destruct Hw as [Hc Hw].
  revert E. induction a as [|d a IH]; intros E.
  - assert (H : run_regex cite_re (fun _ g => Some g) (address o (c :: w) sp ++ txt "(" ++ b) [] <> None).
    { eapply run_complete; [|discriminate]. unfold cite_re, address. cbn [app]. rewrite <- app_assoc.
      eapply P_then; [apply P_one; reflexivity|]. eapply P_then; [apply P_one; exact Hs|].
      eapply P_then; [apply P_one; reflexivity|].
      apply P_then with (s1 := (c :: w) ++ txt "(" ++ b) (g1 := []).
      - destruct Ho as [-> | ->]; [apply P_nothing|apply P_maybe, P_one; reflexivity].
      - eapply P_then; [apply P_one; exact Hc|]. eapply P_then; [apply P_many; exact Hw|].
        apply P_one. reflexivity. }
    cbn [app] in E. unfold citesb in E. destruct (address o (c :: w) sp ++ txt "(" ++ b) as [|d s];
    destruct (run_regex cite_re (fun _ g => Some g) _ []); congruence.
  - apply IH. cbn [app citesb] in E. destruct (run_regex cite_re _ _ []); [discriminate|exact E].
Qed.

(** ** What is said of the names

    The same notions without the expression: identifiers are made of letters,
    digits and underscores, lines end with the characters 10 and 13. *)

Definition among (cs : text) (c : ascii) : bool := existsb (Ascii.eqb c) cs.

Definition identifier (s : text) : Prop :=
  s <> [] /\ forallb (among (txt "abcdefghijklmnopqrstuvwxyzABCDEFGHIJKLMNOPQRSTUVWXYZ0123456789_")) s = true.
Definition one_line (s : text) : Prop := existsb (among ["010"; "013"]%char) s = false.
Definition white (c : ascii) : Prop := In c [" "; "009"; "010"; "011"; "012"; "013"]%char.

(** A text in which the address of a function is written with parameters, as in
    [unevaluated<void ( * )(), &(g())>]. *)
Definition cites (s : text) : Prop :=
  exists a sp o w b, s = a ++ address o w sp ++ txt "(" ++ b /\ white sp /\ opening o /\ identifier w.

Lemma word_among : forall c, word c = among (txt "abcdefghijklmnopqrstuvwxyzABCDEFGHIJKLMNOPQRSTUVWXYZ0123456789_") c.
Proof. intros [[] [] [] [] [] [] [] []]; reflexivity. Qed.

Lemma identifier_worded : forall s, identifier s <-> worded s.
Proof.
  intros s. unfold identifier, worded. assert (E : forall l, forallb word l
    = forallb (among (txt "abcdefghijklmnopqrstuvwxyzABCDEFGHIJKLMNOPQRSTUVWXYZ0123456789_")) l).
  { induction l as [|c l IH]; cbn [forallb]; [reflexivity|]. rewrite word_among, IH. reflexivity. }
  rewrite E. reflexivity.
Qed.

Lemma one_line_lined : forall s, one_line s <-> lined s.
Proof.
  intros s. unfold one_line, lined. induction s as [|c s IH]; cbn [existsb forallb]; [tauto|].
  assert (E : dot c = negb (among ["010"; "013"]%char c)) by (destruct c as [[] [] [] [] [] [] [] []]; reflexivity).
  rewrite E, orb_false_iff, andb_true_iff, negb_true_iff, IH. reflexivity.
Qed.

Lemma white_space : forall c, white c <-> space c = true.
Proof.
  intros c. unfold white. split.
  - cbn. intuition; subst; reflexivity.
  - destruct c as [[] [] [] [] [] [] [] []]; intros H; try discriminate H; cbn; auto 10.
Qed.

Lemma cites_quotes : forall s, cites s <-> quotes s.
Proof.
  intros s. split; intros (a & sp & o & w & b & E & Hs & Ho & Hw); exists a, sp, o, w, b; (split; [exact E|]);
    (split; [apply white_space; exact Hs|]); (split; [exact Ho|]); apply identifier_worded; exact Hw.
Qed.

Lemma citesb_cites : forall s, citesb s = false -> ~ cites s.
Proof. intros s H Hc. apply cites_quotes in Hc. revert Hc. apply citesb_complete. exact H. Qed.

Ltac by_expression := repeat match goal with
  | H : one_line _ |- _ => apply one_line_lined in H
  | H : identifier _ |- _ => apply identifier_worded in H
  | H : white _ |- _ => apply white_space in H
  | H : ~ cites _ |- _ => rewrite cites_quotes in H
  end.

(** ** C74 *)

(** The name of a function of the global namespace is found, whatever its type,
    unless the address of another function is written among its parameters. *)
Theorem C74_function_partial : forall type name params, one_line type -> one_line params -> identifier name ->
  ~ cites params ->
  demangle (render (mk_symbol type (FunctionRef name params))) = Some name.
Proof.
  intros type name params Ht Hp Hn Hc. by_expression. unfold render. cbn [sy_type sy_ref render_reference].
  replace (txt ", " ++ (txt "&(" ++ name ++ txt "(" ++ params ++ txt "))") ++ txt ">")
    with (address (txt "(") name " " ++ txt "(" ++ params ++ txt "))>").
  2:{ unfold address. cbn [txt list_ascii_of_string app]. rewrite <- !app_assoc. cbn [app]. rewrite <- !app_assoc.
      reflexivity. }
  apply demangle_some; auto.
  - apply found_some; [reflexivity|right; reflexivity|auto|]. exists (txt "(" ++ params ++ txt ")"), (txt ")").
    split; [cbn [txt list_ascii_of_string app]; rewrite <- app_assoc; reflexivity|].
    split; [auto|]. right. exists params. auto.
  - intros a b E Ha. eapply later_none; [| | | |exact E|exact Ha]; [reflexivity|right; reflexivity|apply Hn|auto].
Qed.

(** If there is such an address, the name of that other function (the last one)
    is found instead. *)
Theorem C74_wrong_name : forall type name a sp o w b, one_line type -> one_line a -> one_line b -> identifier name ->
  white sp -> opening o -> identifier w -> ~ cites b ->
  demangle (render (mk_symbol type (FunctionRef name (a ++ address o w sp ++ txt "(" ++ b)))) = Some w.
Proof.
  intros type name a sp o w b Ht Ha Hb Hn Hs Ho Hw Hc. by_expression. unfold render. cbn [sy_type sy_ref render_reference].
  replace (type ++ txt ", " ++ (txt "&(" ++ name ++ txt "(" ++ (a ++ address o w sp ++ txt "(" ++ b) ++ txt "))") ++ txt ">")
    with ((type ++ txt ", &(" ++ name ++ txt "(" ++ a) ++ address o w sp ++ txt "(" ++ b ++ txt "))>").
  2:{ unfold address. cbn [txt list_ascii_of_string app]. rewrite <- !app_assoc. cbn [app]. rewrite <- !app_assoc.
      cbn [app]. rewrite <- !app_assoc. cbn [app]. rewrite <- !app_assoc. reflexivity. }
  apply demangle_some.
  - repeat apply lined_app; auto; try reflexivity. apply lined_word. apply Hn.
  - apply found_some; auto. exists (txt "(" ++ b ++ txt ")"), (txt ")").
    split; [cbn [txt list_ascii_of_string app]; rewrite <- app_assoc; reflexivity|].
    split; [auto|]. right. exists b. auto.
  - intros a' b' E Ha'. eapply later_none; eauto. apply Hw.
Qed.

(** The name of a variable of the global namespace is found. *)
Theorem C74_variable : forall type name, one_line type -> identifier name ->
  demangle (render (mk_symbol type (VariableRef name))) = Some name.
Proof.
  intros type name Ht Hn. by_expression. unfold render. cbn [sy_type sy_ref render_reference].
  change (txt ", " ++ (txt "&" ++ name) ++ txt ">") with (address [] name " " ++ txt ">").
  apply demangle_some; auto.
  - apply found_some; [reflexivity|left; reflexivity|auto|]. exists [], []. auto.
  - intros a b E Ha. apply found_none. intros sp o w x -> Hs Ho Hw Hx.
    destruct a as [|c a]; [congruence|].
    assert (E1 : (" "%char :: "&"%char :: [] ++ name) ++ txt ">" = a ++ ","%char :: (sp :: "&"%char :: o ++ w) ++ x)
      by (injection E as _ E; exact E).
    clear E. rename E1 into E. apply split_left in E.
    2:{ intros H. apply address_chars in H; [destruct H; congruence|reflexivity|left; reflexivity|apply Hn]. }
    destruct E as (a' & _ & E). destruct a' as [|d a']; [discriminate|].
    injection E as _ E. destruct a'; discriminate.
Qed.

Lemma last_two : forall (a b : text) c d, a ++ [c] = b ++ [d] -> c = d /\ a = b.
Proof. intros a b c d H. apply app_inj_tail in H. intuition. Qed.

(** What belongs to a namespace or to a class is refused. *)
Theorem C74_scoped : forall type scope name, identifier name ->
  demangle (render (mk_symbol type (ScopedRef scope name))) = None.
Proof.
  intros type scope name Hn. by_expression. destruct Hn as [Hn0 Hn]. unfold render. cbn [sy_type sy_ref render_reference]. apply demangle_none.
  intros a b E. apply found_none. intros sp o w x -> Hs Ho [Hw0 Hw] Hx.
  destruct (exists_last Hn0) as (n' & c & En). destruct (exists_last Hw0) as (w1 & d & Ew).
  assert (Hlast : forall y, a ++ address o w sp ++ x = y ++ txt ")>" -> False).
  { intros y Ey. rewrite Ey, En in E. rewrite !app_assoc in E.
    change (txt ")>") with ([")"%char] ++ [">"%char]) in E. rewrite !app_assoc in E.
    apply last_two in E. destruct E as [_ E]. apply last_two in E. destruct E as [-> _].
    assert (Hc : word ")" = true) by (apply (in_word name); auto; rewrite En; apply in_or_app; right; left; reflexivity).
    discriminate Hc. }
  destruct Hx as (y & h & -> & [-> | ->] & [-> | (z & -> & _)]).
  - cbn [app] in *.
    assert (E1 : (type ++ txt ", &" ++ scope ++ [":"%char]) ++ ":"%char :: name ++ txt ">" = a ++ address o w sp ++ txt ">").
    { rewrite <- E. cbn [txt list_ascii_of_string app]. rewrite <- !app_assoc. cbn [app]. rewrite <- !app_assoc.
      reflexivity. }
    symmetry in E1. unfold address in E1. cbn [app] in E1.
    assert (E2 : (a ++ [","%char]) ++ ((sp :: "&"%char :: o ++ w) ++ txt ">")
                 = (type ++ txt ", &" ++ scope ++ [":"%char]) ++ ":"%char :: name ++ txt ">").
    { rewrite <- E1, <- app_assoc. reflexivity. }
    apply split_right in E2.
    2:{ intros H. apply in_app_or in H. destruct H as [H|H].
        - apply address_chars in H; auto. intuition.
        - cbn in H. intuition; discriminate. }
    destruct E2 as (r & Er & E2).
    assert (Hin : In ","%char (":"%char :: r)).
    { destruct (@exists_last _ (":"%char :: r)) as (r0 & d0 & Er0); [discriminate|].
      rewrite Er0, app_assoc in Er. apply last_two in Er. destruct Er as [<- _].
      rewrite Er0. apply in_or_app. right. left. reflexivity. }
    destruct Hin as [Hin|Hin]; [discriminate|].
    assert (H : In ","%char (name ++ txt ">")) by (rewrite E2; apply in_or_app; auto).
    apply in_app_or in H. destruct H as [H|H]; [apply (in_word name _ Hn) in H; discriminate|].
    cbn in H. intuition; discriminate.
  - apply (Hlast (a ++ address o w sp ++ txt "(" ++ z)). cbn [app]. rewrite <- !app_assoc. reflexivity.
  - apply (Hlast (a ++ address o w sp)). rewrite <- !app_assoc. reflexivity.
  - apply (Hlast (a ++ address o w sp ++ txt "(" ++ z ++ txt ")")). rewrite <- !app_assoc. reflexivity.
Qed.

(** Instances of function templates are refused, unless the address of another
    function is written. *)
Theorem C74_template : forall type ret name targs params,
  let s := mk_symbol type (TemplateRef ret name targs params) in
  ~ cites (render s) -> demangle (render s) = None.
Proof.
  intros type ret name targs params s Hc. by_expression. unfold render in *. cbn [s sy_type sy_ref render_reference] in *.
  apply demangle_none. intros a b E. apply found_none. intros sp o w x -> Hs Ho Hw Hx.
  destruct Hx as (y & h & -> & Hh & [-> | (z & -> & _)]).
  - cbn [app] in E. destruct Hw as [Hw0 Hw]. destruct (exists_last Hw0) as (w1 & d & Ew).
    replace (type ++ txt ", " ++ (txt "&(" ++ ret ++ txt " " ++ name ++ txt "<" ++ targs ++ txt ">(" ++ params ++ txt "))") ++ txt ">")
      with ((type ++ txt ", &(" ++ ret ++ txt " " ++ name ++ txt "<" ++ targs ++ txt ">(" ++ params) ++ txt "))>") in E
      by (cbn [txt list_ascii_of_string app]; repeat (rewrite <- app_assoc; cbn [app]); reflexivity).
    change (txt "))>") with ([")"%char] ++ [")"%char] ++ [">"%char]) in E.
    unfold address in E. rewrite Ew in E.
    replace (a ++ (","%char :: sp :: "&"%char :: o ++ w1 ++ [d]) ++ h ++ txt ">")
      with ((a ++ ","%char :: sp :: "&"%char :: o ++ w1) ++ [d] ++ h ++ [">"%char]) in E
      by (rewrite <- !app_assoc; cbn [app]; rewrite <- !app_assoc; reflexivity).
    assert (Hd : d = ")"%char).
    { rewrite !app_assoc in E. apply last_two in E. destruct E as [_ E].
      destruct Hh as [-> | ->].
      - rewrite app_nil_r in E. apply last_two in E. destruct E; auto.
      - apply last_two in E. destruct E as [_ E]. apply last_two in E. destruct E; auto. }
    assert (Hwd : word d = true) by (apply (in_word w); auto; rewrite Ew; apply in_or_app; right; left; reflexivity).
    rewrite Hd in Hwd. discriminate Hwd.
  - apply Hc. exists (txt "upd::unevaluated<" ++ a), sp, o, w, (z ++ txt ")" ++ h ++ txt ">").
    split; [|auto]. rewrite E. rewrite <- !app_assoc. reflexivity.
Qed.

(** test/py/module.cpp 18 (and test/py/test.py, [test_demangle_function_with_templated_parameters]): a function
    whose type and parameters contain commas, and references. *)
Example C74_function_example :
  let type := txt "void (*)(std::array<int, 16ul>, std::array<short, 32ul> const&)" in
  let params := txt "std::array<int, 16ul>, std::array<short, 32ul> const&" in
  one_line type /\ one_line params /\ identifier (txt "f7") /\ ~ cites params
  /\ demangle (render (mk_symbol type (FunctionRef (txt "f7") params))) = Some (txt "f7")
  /\ demangle (render (mk_symbol (txt "unsigned char (*)()") (FunctionRef (txt "f1") []))) = Some (txt "f1")
  /\ demangle (render (mk_symbol (txt "{lambda(unsigned char)#1}*") (VariableRef (txt "f6")))) = Some (txt "f6").
Proof.
  cbn zeta. split; [reflexivity|]. split; [reflexivity|]. split; [split; [discriminate|reflexivity]|].
  split; [apply citesb_cites; vm_compute; reflexivity|]. vm_compute. auto.
Qed.

(** [void f(upd::unevaluated<void ( * )(), &g>)] is called [g]. *)
Theorem C74_function_refuted : exists type name params, one_line type /\ one_line params /\ identifier name
  /\ demangle (render (mk_symbol type (FunctionRef name params))) = Some (txt "g") /\ name <> txt "g".
Proof.
  exists (txt "void (*)(upd::unevaluated<void (*)(), &(g())>)"), (txt "f"), (txt "upd::unevaluated<void (*)(), &(g())>").
  split; [reflexivity|]. split; [reflexivity|]. split; [split; [discriminate|reflexivity]|].
  split; [vm_compute; reflexivity|discriminate].
Qed.

Example C74_wrong_name_example :
  txt "upd::unevaluated<void (*)(), &(g())>"
  = txt "upd::unevaluated<void (*)()" ++ address (txt "(") (txt "g") " " ++ txt "(" ++ txt "))>"
  /\ one_line (txt "upd::unevaluated<void (*)()") /\ identifier (txt "g") /\ ~ cites (txt "))>").
Proof.
  split; [reflexivity|]. split; [reflexivity|]. split; [split; [discriminate|reflexivity]|].
  apply citesb_cites. reflexivity.
Qed.

(** [motor::set_speed], and [scale<int>]. *)
Example C74_refused_example :
  identifier (txt "set_speed")
  /\ demangle (render (mk_symbol (txt "void (*)(short)") (ScopedRef (txt "motor") (txt "set_speed")))) = None
  /\ ~ cites (render (mk_symbol (txt "int (*)(int)") (TemplateRef (txt "int") (txt "scale") (txt "int") (txt "int"))))
  /\ demangle (render (mk_symbol (txt "int (*)(int)") (TemplateRef (txt "int") (txt "scale") (txt "int") (txt "int")))) = None.
Proof.
  split; [split; [discriminate|reflexivity]|]. split; [vm_compute; reflexivity|].
  split; [apply citesb_cites; vm_compute; reflexivity|vm_compute; reflexivity].
Qed.

(** ** C75: modules *)

(** A callback which gets its own name: a function whose parameters cite no
    other one, or a variable. *)
Definition named (s : symbol) (name : text) : Prop :=
  one_line (sy_type s) /\ identifier name
  /\ (sy_ref s = VariableRef name
      \/ exists params, sy_ref s = FunctionRef name params /\ one_line params /\ ~ cites params).

(** The names which C++ does not reserve, as far as it matters here. *)
Definition unreserved (name : text) : Prop := firstn 2 name <> txt "__".

(** The keys of a keyring. *)
Definition keys_of {X : Type} (kr : keyring X) : list key :=
  map (fun i => mk_key (kr_index_size kr) i (nth i (kr_signatures kr) (mk_sig [] None)) (kr_e kr) (kr_m kr))
    (seq 0 (length (kr_funcs kr))).

(** The callbacks of the keyrings of a module, and the names of its dispatchers. *)
Definition all_callbacks {X : Type} (ds : list (option text * keyring X)) : list nat :=
  flat_map (fun d => map fst (kr_funcs (snd d))) ds.
Definition all_keys {X : Type} (ds : list (option text * keyring X)) : list key := flat_map (fun d => keys_of (snd d)) ds.
Definition all_dispatchers {X : Type} (ds : list (option text * keyring X)) : list text :=
  flat_map (fun d => match fst d with Some name => [name] | None => [] end) ds.

Lemma named_demangle : forall s name, named s name -> demangle (render s) = Some name.
Proof.
  intros [type ref] name (Ht & Hn & [E | (params & E & Hp & Hc)]); cbn [sy_type sy_ref] in *; subst ref.
  - apply C74_variable; auto.
  - apply C74_function_partial; auto.
Qed.

(** *** What the initialisation of a module does, one class after the other *)

Inductive item : Type :=
| KeyItem (name : text) (k : key)
| DispatcherItem (name : text) (c : attribute).

Definition item_type (it : item) : attribute :=
  match it with KeyItem _ k => KeyClass k | DispatcherItem _ c => c end.
Definition item_names (it : item) : list text :=
  match it with KeyItem name _ => [name; txt "__" ++ name] | DispatcherItem name _ => [name] end.

Definition run_item (it : item) (pm : pymodule) : outcome pymodule :=
  match it with
  | KeyItem name k => define_pykey (txt "__" ++ name) k pm
  | DispatcherItem name c => class_ name c pm
  end.
Fixpoint run_items (l : list item) (pm : pymodule) : outcome pymodule :=
  match l with
  | [] => Done pm
  | it :: l' => match run_item it pm with Done pm1 => run_items l' pm1 | Failed e => Failed e end
  end.

Lemma run_items_app : forall l l' pm,
  run_items (l ++ l') pm = match run_items l pm with Done pm1 => run_items l' pm1 | Failed e => Failed e end.
Proof.
  induction l as [|it l IH]; intros l' pm; cbn [app run_items]; auto.
  destruct (run_item it pm) as [pm1|e]; auto.
Qed.

Lemma names_eqb_eq : forall l l', names_eqb l l' = true <-> l = l'.
Proof.
  induction l as [|a l IH]; intros [|b l']; cbn [names_eqb]; split; intros H; auto; try discriminate.
  - apply andb_prop in H. destruct H as [H1 H2]. apply Nat.eqb_eq in H1. apply IH in H2. congruence.
  - injection H as -> ->. rewrite Nat.eqb_refl. apply IH. reflexivity.
Qed.

Lemma endianess_eqb_eq : forall a b, endianess_eqb a b = true <-> a = b.
Proof. intros [] []; cbn; split; congruence. Qed.
Lemma signed_mode_eqb_eq : forall a b, signed_mode_eqb a b = true <-> a = b.
Proof. intros [] []; cbn; split; congruence. Qed.

Lemma key_eqb_eq : forall a b, key_eqb a b = true <-> a = b.
Proof.
  intros [w i s e m] [w' i' s' e' m']. unfold key_eqb. cbn [k_index_size k_index k_sig k_e k_m].
  rewrite !andb_true_iff, !Nat.eqb_eq, endianess_eqb_eq, signed_mode_eqb_eq. split.
  - intros ((((-> & ->) & H) & ->) & ->). apply sig_eqb_eq in H. congruence.
  - intros H. injection H as -> -> -> -> ->. rewrite sig_eqb_refl. auto.
Qed.

(** A C++ type, as opposed to a key. *)
Definition is_class (c : attribute) : Prop := match c with Key _ => False | _ => True end.

Lemma type_eqb_eq : forall a b, is_class a -> (type_eqb a b = true <-> a = b).
Proof.
  intros [k|k|fs e m] [k'|k'|fs' e' m'] Ha; cbn [type_eqb is_class] in *; try contradiction;
    try (split; intros; discriminate).
  - rewrite key_eqb_eq. split; congruence.
  - rewrite !andb_true_iff, names_eqb_eq, endianess_eqb_eq, signed_mode_eqb_eq. split.
    + intros ((-> & ->) & ->). reflexivity.
    + intros H. injection H as -> -> ->. auto.
Qed.

Lemma registered : forall c l, is_class c -> (existsb (type_eqb c) l = true <-> In c l).
Proof.
  intros c l Hc. rewrite existsb_exists. split.
  - intros (x & Hx & E). apply type_eqb_eq in E; auto. subst x. auto.
  - intros H. exists c. split; auto. apply type_eqb_eq; auto.
Qed.

Lemma getattr_cons : forall n v a name,
  getattr ((n, v) :: a) name = if text_dec name n then Some v else getattr a name.
Proof. reflexivity. Qed.

Definition run_item_done (it : item) (pm : pymodule) : pymodule :=
  match it with
  | KeyItem name k => mk_pymodule ((name, Key k) :: (txt "__" ++ name, KeyClass k) :: pm_attributes pm)
                        (KeyClass k :: pm_types pm)
  | DispatcherItem name c => mk_pymodule ((name, c) :: pm_attributes pm) (c :: pm_types pm)
  end.

Lemma run_item_eq : forall it pm, is_class (item_type it) ->
  (forall n, In n (item_names it) -> getattr (pm_attributes pm) n = None) ->
  (In (item_type it) (pm_types pm) /\ run_item it pm = Failed TypeRegistered)
  \/ (~ In (item_type it) (pm_types pm) /\ run_item it pm = Done (run_item_done it pm)).
Proof.
  intros it pm Hc Hn. destruct (existsb (type_eqb (item_type it)) (pm_types pm)) eqn:E.
  - left. split; [apply registered; auto|]. destruct it as [name k|name c]; cbn [run_item item_type item_names] in *.
    + unfold define_pykey, class_. rewrite (Hn (txt "__" ++ name)); [|cbn; auto]. rewrite E. reflexivity.
    + unfold class_. rewrite (Hn name); [|cbn; auto]. rewrite E. reflexivity.
  - right. split; [rewrite <- registered, E; [discriminate|auto]|].
    destruct it as [name k|name c]; cbn [run_item item_type item_names] in *.
    + unfold define_pykey, class_. rewrite (Hn (txt "__" ++ name)); [|cbn; auto]. rewrite E. reflexivity.
    + unfold class_. rewrite (Hn name); [|cbn; auto]. rewrite E. reflexivity.
Qed.

Lemma NoDup_app_inv : forall (A : Type) (l l' : list A), NoDup (l ++ l') ->
  NoDup l /\ NoDup l' /\ (forall x, In x l -> ~ In x l').
Proof.
  induction l as [|a l IH]; intros l' H; cbn [app] in *.
  - repeat split; auto; constructor.
  - apply NoDup_cons_iff in H. destruct H as [Ha H]. destruct (IH l' H) as (H1 & H2 & H3).
    split; [constructor; auto; intros Hi; apply Ha, in_or_app; auto|]. split; auto.
    intros x [<- | Hx] Hx'; [apply Ha, in_or_app; auto|]. apply (H3 x); auto.
Qed.

Lemma done_getattr : forall it pm n, ~ In n (item_names it) ->
  getattr (pm_attributes (run_item_done it pm)) n = getattr (pm_attributes pm) n.
Proof.
  intros it pm n H. destruct it as [name k|name c]; cbn [run_item_done pm_attributes item_names] in *;
    rewrite !getattr_cons.
  - destruct (text_dec n name); [subst; exfalso; apply H; cbn; auto|].
    destruct (text_dec n (txt "__" ++ name)); [subst; exfalso; apply H; cbn; auto|]. reflexivity.
  - destruct (text_dec n name); [subst; exfalso; apply H; cbn; auto|]. reflexivity.
Qed.

(** What a module has when an item is there. *)
Definition has_item (a : list (text * attribute)) (it : item) : Prop :=
  match it with
  | KeyItem name k => getattr a name = Some (Key k) /\ getattr a (txt "__" ++ name) = Some (KeyClass k)
  | DispatcherItem name c => getattr a name = Some c
  end.

Lemma prefixed_differs : forall name : text, txt "__" ++ name <> name.
Proof.
  intros name H. apply (f_equal (@length ascii)) in H. rewrite app_length in H. cbn in H. lia.
Qed.

Lemma done_has : forall it pm, has_item (pm_attributes (run_item_done it pm)) it.
Proof.
  intros [name k|name c] pm; cbn [run_item_done pm_attributes has_item]; rewrite !getattr_cons.
  - destruct (text_dec name name); [|congruence]. split; auto.
    destruct (text_dec (txt "__" ++ name) name) as [H|H]; [exfalso; eapply prefixed_differs; eauto|].
    destruct (text_dec (txt "__" ++ name) (txt "__" ++ name)); congruence.
  - destruct (text_dec name name); congruence.
Qed.

Lemma run_items_eq : forall l pm, Forall (fun it => is_class (item_type it)) l ->
  NoDup (flat_map item_names l) ->
  (forall n, In n (flat_map item_names l) -> getattr (pm_attributes pm) n = None) ->
  (run_items l pm = Failed TypeRegistered
   /\ ~ (NoDup (map item_type l) /\ forall t, In t (map item_type l) -> ~ In t (pm_types pm)))
  \/ (exists pm', run_items l pm = Done pm' /\ NoDup (map item_type l)
      /\ (forall t, In t (map item_type l) -> ~ In t (pm_types pm))
      /\ (forall it, In it l -> has_item (pm_attributes pm') it)
      /\ (forall n, ~ In n (flat_map item_names l) -> getattr (pm_attributes pm') n = getattr (pm_attributes pm) n)).
Proof.
  induction l as [|it l IH]; intros pm Hc Hn Ha.
  - right. exists pm. cbn. repeat split; auto; try constructor; contradiction.
  - apply Forall_cons_iff in Hc. destruct Hc as [Hc Hcl]. cbn [flat_map] in Hn, Ha.
    destruct (NoDup_app_inv _ _ _ Hn) as (_ & Hnl & Hd).
    destruct (run_item_eq it pm Hc) as [[Hi E]|[Hi E]].
    { intros n H. apply Ha, in_or_app. auto. }
    + left. cbn [run_items]. rewrite E. split; auto. intros [_ H]. apply (H (item_type it)); [left; reflexivity|auto].
    + destruct (IH (run_item_done it pm) Hcl Hnl) as [[Er Hr]|(pm' & Er & Hr1 & Hr2 & Hr3 & Hr4)].
      { intros n H. rewrite done_getattr; [apply Ha, in_or_app; auto|]. intros H'. apply (Hd n); auto. }
      * left. cbn [run_items]. rewrite E. split; auto. intros [H1 H2]. apply Hr. cbn [map] in H1, H2.
        apply NoDup_cons_iff in H1. destruct H1 as [H1 H1']. split; auto. intros t Ht Ht'.
        assert (Hty : pm_types (run_item_done it pm) = item_type it :: pm_types pm) by (destruct it; reflexivity).
        rewrite Hty in Ht'. destruct Ht' as [<- | Ht']; auto. apply (H2 t); [right; auto|auto].
      * right. exists pm'. cbn [run_items]. rewrite E. split; auto.
        assert (Hty : pm_types (run_item_done it pm) = item_type it :: pm_types pm) by (destruct it; reflexivity).
        rewrite Hty in Hr2. cbn [map]. split.
        { constructor; auto. intros H. apply (Hr2 _ H). left. reflexivity. }
        split. { intros t [<- | Ht]; auto. intros H. apply (Hr2 t Ht). right. auto. }
        assert (Hkeep : forall n, ~ In n (flat_map item_names (it :: l)) ->
                  getattr (pm_attributes pm') n = getattr (pm_attributes pm) n).
        { intros n H. cbn [flat_map] in H. rewrite Hr4; [|intros H'; apply H, in_or_app; auto].
          apply done_getattr. intros H'. apply H, in_or_app. auto. }
        split; auto. intros it' [<- | Hit]; auto.
        pose proof (done_has it pm) as Hh. destruct it as [name k|name c]; cbn [has_item item_names] in *.
        { destruct Hh as [Hh1 Hh2]. split.
          - rewrite Hr4; [exact Hh1|]. apply Hd. cbn. auto.
          - rewrite Hr4; [exact Hh2|]. apply Hd. cbn. auto. }
        { rewrite Hr4; [exact Hh|]. apply Hd. cbn. auto. }
Qed.

Section Modules.
  Context {X : Type}.
  Variable sym : nat -> symbol.
  Variable nm : nat -> text.

  Definition key_at (kr : keyring X) (i : nat) (f : func X) : key :=
    mk_key (kr_index_size kr) i (f_sig f) (kr_e kr) (kr_m kr).
  Definition callback_item (kr : keyring X) (it : nat * (nat * func X)) : item :=
    KeyItem (nm (fst (snd it))) (key_at kr (fst it) (snd (snd it))).
  Definition keyring_items (kr : keyring X) : list item :=
    map (callback_item kr) (combine (seq 0 (length (kr_funcs kr))) (kr_funcs kr)).
  Definition dispatcher_items (d : option text * keyring X) : list item :=
    match fst d with
    | Some name => [DispatcherItem name (DispatcherClass (map fst (kr_funcs (snd d))) (kr_e (snd d)) (kr_m (snd d)))]
    | None => []
    end.
  Definition declaration_items (d : option text * keyring X) : list item :=
    dispatcher_items d ++ keyring_items (snd d).

  Lemma define_pykeys_items : forall (kr : keyring X), NoDup (map fst (kr_funcs kr)) ->
    (forall name, In name (map fst (kr_funcs kr)) -> named (sym name) (nm name)) ->
    forall fs i pm, (forall j nf, nth_error fs j = Some nf -> nth_error (kr_funcs kr) (i + j) = Some nf) ->
    define_pykeys sym kr fs pm = run_items (map (callback_item kr) (combine (seq i (length fs)) fs)) pm.
  Proof.
    intros kr Hd Hn. induction fs as [|[name f] fs IH]; intros i pm H; auto.
    cbn [define_pykeys length seq combine map run_items].
    assert (Hi : nth_error (kr_funcs kr) i = Some (name, f)).
    { rewrite <- (Nat.add_0_r i). apply (H 0). reflexivity. }
    assert (Hin : In name (map fst (kr_funcs kr))).
    { apply nth_error_In in Hi. apply (in_map fst) in Hi. exact Hi. }
    unfold demangled_fname. rewrite (named_demangle _ _ (Hn name Hin)). cbn [option_map].
    unfold kr_get. rewrite (find17_nodup nat Nat.eqb name _ i);
      [|intros; apply Nat.eqb_eq|rewrite nth_error_map, Hi; reflexivity|exact Hd].
    cbn [callback_item fst snd run_item]. unfold key_at.
    destruct (define_pykey (txt "__" ++ nm name) _ pm) as [pm1|e]; auto.
    apply IH. intros j nf Hj. rewrite Nat.add_succ_comm. apply H. exact Hj.
  Qed.

  Definition callbacks_ok (ds : list (option text * keyring X)) : Prop :=
    forall d kr, In (d, kr) ds -> NoDup (map fst (kr_funcs kr))
      /\ (forall name, In name (map fst (kr_funcs kr)) -> named (sym name) (nm name)).

  Lemma init_items : forall ds pm, callbacks_ok ds ->
    init_module sym ds pm = run_items (flat_map declaration_items ds) pm.
  Proof.
    induction ds as [|[d kr] ds IH]; intros pm H; auto. cbn [init_module flat_map]. rewrite run_items_app.
    unfold declaration_items at 1. rewrite run_items_app.
    destruct (H d kr) as [Hd Hn]; [left; reflexivity|].
    assert (Hk : forall pm, unpack_keyring sym kr pm = run_items (keyring_items kr) pm).
    { intros pm0. apply define_pykeys_items; auto. }
    assert (Ht : forall pm, init_module sym ds pm = run_items (flat_map declaration_items ds) pm).
    { intros pm0. apply IH. intros d0 kr0 Hin. apply (H d0 kr0). right. exact Hin. }
    destruct d as [name|]; cbn [dispatcher_items fst snd run_items run_item].
    - unfold declare_dispatcher. destruct (class_ name _ pm) as [pm1|e]; auto. rewrite Hk.
      destruct (run_items (keyring_items kr) pm1); auto.
    - rewrite Hk. destruct (run_items (keyring_items kr) pm); auto.
  Qed.

  (** *** Names *)

  Definition key_names (l : list item) : list text :=
    flat_map (fun it => match it with KeyItem name _ => [name] | _ => [] end) l.
  Definition class_names (l : list item) : list text :=
    flat_map (fun it => match it with DispatcherItem name _ => [name] | _ => [] end) l.

  Lemma in_names : forall l n, In n (flat_map item_names l) ->
    In n (key_names l) \/ (exists n', n = txt "__" ++ n' /\ In n' (key_names l)) \/ In n (class_names l).
  Proof.
    induction l as [|it l IH]; intros n H; [contradiction|]. cbn [flat_map] in H. apply in_app_or in H.
    destruct H as [H|H].
    - destruct it as [name k|name c]; cbn in H |- *.
      + destruct H as [<- | [<- | []]]; auto. right. left. exists name. auto.
      + destruct H as [<- | []]. auto.
    - destruct (IH n H) as [H1|[(n' & -> & H1)|H1]].
      + left. apply in_or_app. auto.
      + right. left. exists n'. split; auto. apply in_or_app. auto.
      + right. right. apply in_or_app. auto.
  Qed.

  Lemma unreserved_prefix : forall n, ~ unreserved (txt "__" ++ n).
  Proof. intros n H. apply H. reflexivity. Qed.

  Lemma names_distinct : forall l, NoDup (key_names l) -> NoDup (class_names l) ->
    (forall n, In n (key_names l) -> ~ In n (class_names l)) ->
    (forall n, In n (key_names l) \/ In n (class_names l) -> unreserved n) ->
    NoDup (flat_map item_names l).
  Proof.
    induction l as [|it l IH]; intros Hk Hc Hd Hu; [constructor|].
    assert (Hincl : NoDup (flat_map item_names l)).
    { unfold key_names, class_names in *. cbn [flat_map] in *. apply IH.
      - destruct (NoDup_app_inv _ _ _ Hk); intuition.
      - destruct (NoDup_app_inv _ _ _ Hc); intuition.
      - intros n Hn Hn'. apply (Hd n); apply in_or_app; auto.
      - intros n [Hn|Hn]; apply Hu; [left|right]; apply in_or_app; auto. }
    cbn [flat_map]. destruct it as [name k|name c]; cbn [item_names app].
    - unfold key_names, class_names in *. cbn [flat_map app] in *. apply NoDup_cons_iff in Hk. destruct Hk as [Hk _].
      constructor; [|constructor; auto].
      + intros [H|H]; [eapply prefixed_differs; eauto|]. apply in_names in H.
        destruct H as [H|[(n' & -> & H)|H]].
        * auto.
        * apply (unreserved_prefix n'). apply Hu. left. left. reflexivity.
        * apply (Hd name); [left; reflexivity|exact H].
      + intros H. apply in_names in H. destruct H as [H|[(n' & E & H)|H]].
        * apply (unreserved_prefix name). apply Hu. left. right. exact H.
        * apply app_inv_head in E. subst n'. auto.
        * apply (unreserved_prefix name). apply Hu. right. exact H.
    - unfold key_names, class_names in *. cbn [flat_map app] in *. apply NoDup_cons_iff in Hc. destruct Hc as [Hc _].
      constructor; auto. intros H. apply in_names in H. destruct H as [H|[(n' & -> & H)|H]]; auto.
      + apply (Hd name); [exact H|left; reflexivity].
      + apply (unreserved_prefix n'). apply Hu. right. left. reflexivity.
  Qed.

  Lemma combine_fst : forall (A B : Type) (l : list A) (l' : list B), length l = length l' ->
    map fst (combine l l') = l /\ map snd (combine l l') = l'.
  Proof.
    induction l as [|a l IH]; intros [|b l'] H; cbn in *; try discriminate; auto.
    injection H as H. destruct (IH l' H) as [-> ->]. auto.
  Qed.

  Lemma key_names_map : forall kr l, key_names (map (callback_item kr) l) = map nm (map fst (map snd l)).
  Proof. induction l as [|a l IH]; auto. cbn. f_equal. exact IH. Qed.
  Lemma class_names_map : forall kr l, class_names (map (callback_item kr) l) = [].
  Proof. induction l as [|a l IH]; auto. Qed.

  Lemma key_names_app : forall l l', key_names (l ++ l') = key_names l ++ key_names l'.
  Proof. intros. apply flat_map_app. Qed.
  Lemma class_names_app : forall l l', class_names (l ++ l') = class_names l ++ class_names l'.
  Proof. intros. apply flat_map_app. Qed.

  Lemma key_names_items : forall ds, key_names (flat_map declaration_items ds) = map nm (all_callbacks ds).
  Proof.
    induction ds as [|[d kr] ds IH]; auto. cbn [flat_map]. rewrite key_names_app, IH. unfold all_callbacks.
    cbn [flat_map]. rewrite map_app. f_equal. unfold declaration_items. rewrite key_names_app.
    replace (key_names (dispatcher_items (d, kr))) with (@nil text) by (destruct d; reflexivity).
    cbn [app snd]. unfold keyring_items. rewrite key_names_map.
    destruct (combine_fst nat _ (seq 0 (length (kr_funcs kr))) (kr_funcs kr)) as [_ ->]; [apply seq_length|].
    reflexivity.
  Qed.
  Lemma class_names_items : forall ds, class_names (flat_map declaration_items ds) = all_dispatchers ds.
  Proof.
    induction ds as [|[d kr] ds IH]; auto. cbn [flat_map]. rewrite class_names_app, IH. unfold all_dispatchers.
    cbn [flat_map]. f_equal. unfold declaration_items. rewrite class_names_app. unfold keyring_items.
    rewrite class_names_map, app_nil_r. destruct d; reflexivity.
  Qed.

  (** *** Types *)

  Definition types_keys (l : list attribute) : list key :=
    flat_map (fun c => match c with KeyClass k => [k] | _ => [] end) l.
  Definition types_classes (l : list attribute) : list attribute :=
    flat_map (fun c => match c with DispatcherClass _ _ _ => [c] | _ => [] end) l.

  Lemma types_distinct : forall l, Forall is_class l ->
    (NoDup l <-> NoDup (types_keys l) /\ NoDup (types_classes l)).
  Proof.
    assert (Hin : forall l k, In k (types_keys l) <-> In (KeyClass k) l).
    { induction l as [|c l IH]; intros k; [split; intros []|]. unfold types_keys in *. cbn [flat_map].
      destruct c as [k'|k'|fs e m]; cbn; rewrite IH;
        split; intros H; repeat match goal with H : _ \/ _ |- _ => destruct H as [H|H] end;
        auto; try discriminate; left; congruence. }
    assert (Hin' : forall l fs e m, In (DispatcherClass fs e m) (types_classes l) <-> In (DispatcherClass fs e m) l).
    { induction l as [|c l IH]; intros fs e m; [split; intros []|]. unfold types_classes in *. cbn [flat_map].
      destruct c as [k'|k'|fs' e' m']; cbn; rewrite IH;
        split; intros H; repeat match goal with H : _ \/ _ |- _ => destruct H as [H|H] end;
        auto; try discriminate; left; congruence. }
    induction l as [|c l IH]; intros H; [split; [split; constructor|constructor]|].
    apply Forall_cons_iff in H. destruct H as [Hc H]. rewrite NoDup_cons_iff, (IH H).
    destruct c as [k'|k'|fs e m]; [| contradiction|]; unfold types_keys, types_classes; cbn [flat_map app];
      fold (types_keys l); fold (types_classes l); rewrite NoDup_cons_iff.
    - rewrite Hin. intuition.
    - rewrite Hin'. intuition.
  Qed.

  Lemma types_keys_map : forall kr l, types_keys (map item_type (map (callback_item kr) l))
    = map (fun it => key_at kr (fst it) (snd (snd it))) l.
  Proof. induction l as [|a l IH]; auto. cbn. f_equal. exact IH. Qed.
  Lemma types_classes_map : forall kr l, types_classes (map item_type (map (callback_item kr) l)) = [].
  Proof. induction l as [|a l IH]; auto. Qed.
  Lemma types_keys_app : forall l l', types_keys (l ++ l') = types_keys l ++ types_keys l'.
  Proof. intros. apply flat_map_app. Qed.
  Lemma types_classes_app : forall l l', types_classes (l ++ l') = types_classes l ++ types_classes l'.
  Proof. intros. apply flat_map_app. Qed.

  Lemma keys_of_nth : forall (kr : keyring X) i, nth_error (keys_of kr) i
    = option_map (fun nf => key_at kr i (snd nf)) (nth_error (kr_funcs kr) i).
  Proof.
    intros kr i. unfold keys_of. rewrite nth_error_map.
    destruct (nth_error (kr_funcs kr) i) as [nf|] eqn:E.
    - assert (H : i < length (kr_funcs kr)) by (apply nth_error_Some; congruence).
      rewrite (nth_error_nth' _ 0) by (rewrite seq_length; exact H). rewrite seq_nth by exact H. cbn [option_map Nat.add].
      unfold key_at. f_equal. f_equal. unfold kr_signatures.
      rewrite (nth_indep _ _ (f_sig (snd nf))) by (rewrite map_length; exact H).
      rewrite (map_nth (fun nf => f_sig (snd nf))). rewrite (nth_error_nth _ _ nf E). reflexivity.
    - apply nth_error_None in E. assert (H : nth_error (seq 0 (length (kr_funcs kr))) i = None)
        by (apply nth_error_None; rewrite seq_length; exact E).
      rewrite H. reflexivity.
  Qed.

  Lemma nth_error_combine : forall (A : Type) (l : list A) k i,
    nth_error (combine (seq k (length l)) l) i = option_map (fun a => (k + i, a)) (nth_error l i).
  Proof.
    induction l as [|a l IH]; intros k i; cbn [length seq combine].
    - destruct i; reflexivity.
    - destruct i as [|i]; cbn [nth_error option_map]; [rewrite Nat.add_0_r; reflexivity|].
      rewrite IH. destruct (nth_error l i); cbn [option_map]; auto. rewrite Nat.add_succ_comm. reflexivity.
  Qed.

  Lemma nth_error_ext : forall (A : Type) (l l' : list A), (forall i, nth_error l i = nth_error l' i) -> l = l'.
  Proof.
    induction l as [|a l IH]; intros [|b l'] H; auto.
    - specialize (H 0). discriminate.
    - specialize (H 0). discriminate.
    - f_equal; [specialize (H 0); cbn in H; congruence|]. apply IH. intros i. apply (H (S i)).
  Qed.

  Lemma keyring_keys : forall kr, types_keys (map item_type (keyring_items kr)) = keys_of kr.
  Proof.
    intros kr. unfold keyring_items. rewrite types_keys_map. apply nth_error_ext. intros i.
    rewrite nth_error_map, nth_error_combine, keys_of_nth. destruct (nth_error (kr_funcs kr) i); reflexivity.
  Qed.

  Lemma types_keys_items : forall ds, types_keys (map item_type (flat_map declaration_items ds)) = all_keys ds.
  Proof.
    induction ds as [|[d kr] ds IH]; auto. cbn [flat_map]. rewrite map_app, types_keys_app, IH. unfold all_keys.
    cbn [flat_map]. f_equal. unfold declaration_items. rewrite map_app, types_keys_app.
    cbn [snd]. rewrite keyring_keys. destruct d; reflexivity.
  Qed.

  Lemma classes_items : forall ds c, In c (types_classes (map item_type (flat_map declaration_items ds))) ->
    exists name kr, In (Some name, kr) ds /\ c = DispatcherClass (map fst (kr_funcs kr)) (kr_e kr) (kr_m kr).
  Proof.
    induction ds as [|[d kr] ds IH]; intros c H; [contradiction|]. cbn [flat_map] in H.
    rewrite map_app, types_classes_app in H. apply in_app_or in H. destruct H as [H|H].
    - unfold declaration_items in H. rewrite map_app, types_classes_app in H. unfold keyring_items in H.
      rewrite types_classes_map, app_nil_r in H. destruct d as [name|]; [|contradiction].
      cbn in H. destruct H as [<- | []]. exists name, kr. split; [left; reflexivity|reflexivity].
    - destruct (IH c H) as (name & kr' & Hin & ->). exists name, kr'. split; [right; exact Hin|reflexivity].
  Qed.

  Lemma classes_distinct : forall ds, NoDup (all_callbacks ds) -> (forall d kr, In (d, kr) ds -> kr_funcs kr <> []) ->
    NoDup (types_classes (map item_type (flat_map declaration_items ds))).
  Proof.
    induction ds as [|[d kr] ds IH]; intros Hd Hne; [constructor|]. unfold all_callbacks in Hd. cbn [flat_map snd] in Hd.
    destruct (NoDup_app_inv _ _ _ Hd) as (_ & Hd' & Hx). cbn [flat_map]. rewrite map_app, types_classes_app.
    unfold declaration_items at 1. rewrite map_app, types_classes_app. unfold keyring_items at 1.
    rewrite types_classes_map, app_nil_r.
    assert (Hr : NoDup (types_classes (map item_type (flat_map declaration_items ds)))).
    { apply IH; auto. intros d0 kr0 Hin. apply (Hne d0). right. exact Hin. }
    destruct d as [name|]; cbn; auto. constructor; auto.
    intros H. apply classes_items in H. destruct H as (name' & kr' & Hin & E). injection E as E _ _.
    destruct (kr_funcs kr) as [|nf fs] eqn:Ef; [apply (Hne (Some name) kr); [left; reflexivity|exact Ef]|].
    apply (Hx (fst nf)); [left; reflexivity|]. apply in_flat_map. exists (Some name', kr'). split; auto.
    cbn [snd]. rewrite <- E. left. reflexivity.
  Qed.

  Lemma items_class : forall ds, Forall (fun it => is_class (item_type it)) (flat_map declaration_items ds).
  Proof.
    intros ds. apply Forall_forall. intros it H. apply in_flat_map in H. destruct H as ([d kr] & _ & H).
    unfold declaration_items in H. apply in_app_or in H. destruct H as [H|H].
    - destruct d as [name|]; [|contradiction]. destruct H as [<- | []]. exact I.
    - unfold keyring_items in H. apply in_map_iff in H. destruct H as (x & <- & _). exact I.
  Qed.
End Modules.

(** What a module is made from: callbacks which get their own names, each in one
    keyring only; distinct names, which are not reserved, for the callbacks and
    the dispatchers. *)
Definition module_ok {X : Type} (sym : nat -> symbol) (nm : nat -> text) (ds : list (option text * keyring X)) : Prop :=
  (forall name, In name (all_callbacks ds) -> named (sym name) (nm name))
  /\ NoDup (map nm (all_callbacks ds) ++ all_dispatchers ds)
  /\ (forall n, In n (map nm (all_callbacks ds) ++ all_dispatchers ds) -> unreserved n)
  /\ (forall d kr, In (d, kr) ds -> kr_funcs kr <> []).

Lemma module_run : forall X sym nm (ds : list (option text * keyring X)), module_ok sym nm ds ->
  (init_module sym ds empty_module = Failed TypeRegistered /\ ~ NoDup (all_keys ds))
  \/ (exists pm, init_module sym ds empty_module = Done pm /\ NoDup (all_keys ds)
      /\ (forall it, In it (flat_map (declaration_items nm) ds) -> has_item (pm_attributes pm) it)
      /\ (forall n, ~ In n (flat_map item_names (flat_map (declaration_items nm) ds)) ->
            getattr (pm_attributes pm) n = None)).
Proof.
  intros X sym nm ds (Hn & Hd & Hu & Hne). destruct (NoDup_app_inv _ _ _ Hd) as (Hd1 & Hd2 & Hd3).
  assert (Hcb : NoDup (all_callbacks ds)) by (eapply NoDup_map_inv; eauto).
  assert (Hok : callbacks_ok sym nm ds).
  { intros d kr Hin. split.
    - apply in_split in Hin. destruct Hin as (l1 & l2 & ->). unfold all_callbacks in Hcb.
      rewrite flat_map_app in Hcb. cbn [flat_map snd] in Hcb.
      apply NoDup_app_inv in Hcb. destruct Hcb as (_ & Hcb & _). apply NoDup_app_inv in Hcb. apply Hcb.
    - intros name Hname. apply Hn. unfold all_callbacks. apply in_flat_map. exists (d, kr). auto. }
  rewrite (init_items sym nm ds empty_module Hok).
  assert (Hnames : NoDup (flat_map item_names (flat_map (declaration_items nm) ds))).
  { apply names_distinct; rewrite ?key_names_items, ?class_names_items; auto.
    intros n Hin. apply Hu, in_or_app. exact Hin. }
  assert (Hty : NoDup (map item_type (flat_map (declaration_items nm) ds)) <-> NoDup (all_keys ds)).
  { rewrite types_distinct; [|rewrite Forall_map; apply items_class]. rewrite types_keys_items.
    pose proof (classes_distinct nm ds Hcb Hne). intuition. }
  destruct (run_items_eq (flat_map (declaration_items nm) ds) empty_module) as [[E H]|(pm & E & H1 & _ & H3 & H4)]; auto.
  - apply items_class.
  - left. split; auto. intros Hk. apply H. split; [apply Hty; exact Hk|]. intros t _ [].
  - right. exists pm. split; auto. split; [apply Hty; exact H1|]. split; auto.
Qed.

(** A module is imported if its keyrings have no key type in common; then each
    callback has a key with its name, whose class has the name with two
    underscores in front, each dispatcher has a class, and there is nothing
    else. *)
Theorem C75_module_partial : forall X sym nm (ds : list (option text * keyring X)), module_ok sym nm ds ->
  NoDup (all_keys ds) ->
  exists pm, init_module sym ds empty_module = Done pm
    /\ (forall d kr i name f, In (d, kr) ds -> nth_error (kr_funcs kr) i = Some (name, f) ->
          let k := mk_key (kr_index_size kr) i (f_sig f) (kr_e kr) (kr_m kr) in
          getattr (pm_attributes pm) (nm name) = Some (Key k)
          /\ getattr (pm_attributes pm) (txt "__" ++ nm name) = Some (KeyClass k))
    /\ (forall name kr, In (Some name, kr) ds ->
          getattr (pm_attributes pm) name = Some (DispatcherClass (map fst (kr_funcs kr)) (kr_e kr) (kr_m kr)))
    /\ (forall n a, getattr (pm_attributes pm) n = Some a ->
          In n (map nm (all_callbacks ds)) \/ (exists n', n = txt "__" ++ n' /\ In n' (map nm (all_callbacks ds)))
          \/ In n (all_dispatchers ds)).
Proof.
  intros X sym nm ds Hok Hk. destruct (module_run X sym nm ds Hok) as [[_ H]|(pm & E & _ & H3 & H4)]; [contradiction|].
  exists pm. split; auto. split; [|split].
  - intros d kr i name f Hin Hi. cbv zeta.
    apply (H3 (KeyItem (nm name) (mk_key (kr_index_size kr) i (f_sig f) (kr_e kr) (kr_m kr)))).
    apply in_flat_map. exists (d, kr). split; auto. apply in_or_app. right. unfold keyring_items. apply in_map_iff.
    exists (i, (name, f)). split; auto. cbn [snd]. eapply nth_error_In. rewrite nth_error_combine, Hi. reflexivity.
  - intros name kr Hin.
    apply (H3 (DispatcherItem name (DispatcherClass (map fst (kr_funcs kr)) (kr_e kr) (kr_m kr)))).
    apply in_flat_map. exists (Some name, kr). split; auto. apply in_or_app. left. left. reflexivity.
  - intros n a Ha. destruct (in_dec text_dec n (flat_map item_names (flat_map (declaration_items nm) ds))) as [Hi|Hi].
    + apply in_names in Hi. rewrite key_names_items, class_names_items in Hi. exact Hi.
    + rewrite (H4 n Hi) in Ha. discriminate.
Qed.

(** Otherwise the import fails. *)
Theorem C75_common_key : forall X sym nm (ds : list (option text * keyring X)), module_ok sym nm ds ->
  ~ NoDup (all_keys ds) -> init_module sym ds empty_module = Failed TypeRegistered.
Proof.
  intros X sym nm ds Hok Hk. destruct (module_run X sym nm ds Hok) as [[E _]|(pm & _ & H & _)]; [exact E|contradiction].
Qed.

(** One keyring has no key type in common with itself. *)
Theorem C75_one_keyring : forall X sym nm d (kr : keyring X), module_ok sym nm [(d, kr)] ->
  exists pm, init_module sym [(d, kr)] empty_module = Done pm.
Proof.
  intros X sym nm d kr Hok. destruct (C75_module_partial X sym nm [(d, kr)] Hok) as (pm & E & _); [|eauto].
  unfold all_keys. cbn [flat_map snd]. rewrite app_nil_r. apply (NoDup_map_inv k_index). unfold keys_of.
  rewrite map_map. cbn [k_index]. rewrite map_id. apply seq_NoDup.
Qed.

(** test/py/module.cpp: two keyrings, one of which a dispatcher is declared for. *)
Definition ex_sig (ps : list ty) (r : option ty) : func unit := mk_func (mk_sig ps r) (fun _ s => (s, VInt 0)).
Definition ex_keys : keyring unit := mk_keyring LITTLE TWOS_COMPLEMENT
  [(1, ex_sig [] (Some (TUns 1))); (2, ex_sig [TUns 1] None); (3, ex_sig [] None); (4, ex_sig [TUns 1] (Some (TUns 1)));
   (5, ex_sig [TUns 1] None); (6, ex_sig [TUns 1] None); (7, ex_sig [TArr (TSig 4) 16; TArr (TSig 2) 32] None)].
Definition ex_dispatched : keyring unit := mk_keyring LITTLE TWOS_COMPLEMENT
  [(11, ex_sig [] (Some (TUns 2))); (12, ex_sig [TUns 2] (Some (TUns 2))); (13, ex_sig [TUns 2] None)].
Definition ex_symbol (n : nat) : symbol :=
  match n with
  | 1 => mk_symbol (txt "unsigned char (*)()") (FunctionRef (txt "f1") [])
  | 2 => mk_symbol (txt "void (*)(unsigned char)") (FunctionRef (txt "f2") (txt "unsigned char"))
  | 3 => mk_symbol (txt "void (*)()") (FunctionRef (txt "f3") [])
  | 4 => mk_symbol (txt "unsigned char (*)(unsigned char)") (FunctionRef (txt "f4") (txt "unsigned char"))
  | 5 => mk_symbol (txt "{unnamed type#1}*") (VariableRef (txt "f5"))
  | 6 => mk_symbol (txt "{lambda(unsigned char)#1}*") (VariableRef (txt "f6"))
  | 7 => mk_symbol (txt "void (*)(std::array<int, 16ul>, std::array<short, 32ul>)")
           (FunctionRef (txt "f7") (txt "std::array<int, 16ul>, std::array<short, 32ul>"))
  | 11 => mk_symbol (txt "unsigned short (*)()") (FunctionRef (txt "g1") [])
  | 12 => mk_symbol (txt "unsigned short (*)(unsigned short)") (FunctionRef (txt "g2") (txt "unsigned short"))
  | _ => mk_symbol (txt "void (*)(unsigned short)") (FunctionRef (txt "g3") (txt "unsigned short"))
  end.
Definition ex_name (n : nat) : text :=
  txt (match n with
       | 1 => "f1" | 2 => "f2" | 3 => "f3" | 4 => "f4" | 5 => "f5" | 6 => "f6" | 7 => "f7"
       | 11 => "g1" | 12 => "g2" | _ => "g3"
       end).
Definition ex_module : list (option text * keyring unit) :=
  [(None, ex_keys); (Some (txt "Dispatcher"), ex_dispatched)].

Ltac distinct := repeat (constructor; [cbn; intuition discriminate|]); constructor.

Lemma ex_named : forall n, In n [1; 2; 3; 4; 5; 6; 7; 11; 12; 13] -> named (ex_symbol n) (ex_name n).
Proof.
  intros n H. repeat (destruct H as [<- | H]; [split; [reflexivity|split; [split; [discriminate|reflexivity]|]]; cbn [ex_symbol sy_ref];
    first [left; reflexivity
          |right; eexists; split; [reflexivity|split; [reflexivity|apply citesb_cites; vm_compute; reflexivity]]]|]).
  contradiction.
Qed.

Example C75_module_example : module_ok ex_symbol ex_name ex_module /\ NoDup (all_keys ex_module)
  /\ match init_module ex_symbol ex_module empty_module with
     | Done pm => getattr (pm_attributes pm) (txt "f4") = Some (Key (mk_key 1 3 (mk_sig [TUns 1] (Some (TUns 1))) LITTLE TWOS_COMPLEMENT))
                  /\ getattr (pm_attributes pm) (txt "g2") = Some (Key (mk_key 1 1 (mk_sig [TUns 2] (Some (TUns 2))) LITTLE TWOS_COMPLEMENT))
                  /\ getattr (pm_attributes pm) (txt "Dispatcher") = Some (DispatcherClass [11; 12; 13] LITTLE TWOS_COMPLEMENT)
     | Failed _ => False
     end.
Proof.
  split; [|split; [vm_compute; distinct|vm_compute; auto]]. split; [exact ex_named|]. split; [vm_compute; distinct|].
  split.
  - intros n H. vm_compute in H. intuition; subst; discriminate.
  - intros d kr [H|[H|[]]]; injection H as <- <-; discriminate.
Qed.

(** Two keyrings whose first callbacks, of different names, have the same
    signature: their keys are of the same C++ type.  The module cannot be
    imported. *)
Theorem C75_module_refuted : exists X sym nm (ds : list (option text * keyring X)), module_ok sym nm ds
  /\ init_module sym ds empty_module = Failed TypeRegistered.
Proof.
  exists unit, ex_symbol, ex_name,
    [(None, mk_keyring LITTLE TWOS_COMPLEMENT [(2, ex_sig [TUns 1] None); (3, ex_sig [] None)]);
     (None, mk_keyring LITTLE TWOS_COMPLEMENT [(5, ex_sig [TUns 1] None)])].
  split; [|vm_compute; reflexivity]. split; [|split; [vm_compute; distinct|split]].
  - intros n H. apply ex_named. vm_compute in H |- *. intuition.
  - intros n H. vm_compute in H. intuition; subst; discriminate.
  - intros d kr [H|[H|[]]]; injection H as <- <-; discriminate.
Qed.

(** A dispatcher which has the name of a callback of its keyring: the module is
    imported, but the name is that of the key. *)
Theorem C75_dispatcher_name_refuted : exists X sym nm name (kr : keyring X) pm,
  module_ok sym nm [(None, kr)] /\ identifier name
  /\ init_module sym [(Some name, kr)] empty_module = Done pm
  /\ forall fs e m, getattr (pm_attributes pm) name <> Some (DispatcherClass fs e m).
Proof.
  exists unit, ex_symbol, ex_name, (txt "g2"), ex_dispatched.
  destruct (init_module ex_symbol [(Some (txt "g2"), ex_dispatched)] empty_module) as [pm|e] eqn:E.
  2:{ exfalso. vm_compute in E. discriminate. }
  exists pm. split; [|split; [split; [discriminate|reflexivity]|split; [reflexivity|]]].
  - split; [intros n H; apply ex_named; vm_compute in H |- *; intuition|split; [vm_compute; distinct|split]].
    + intros n H. vm_compute in H. intuition; subst; discriminate.
    + intros d kr [H|[]]; injection H as <- <-; discriminate.
  - vm_compute in E. injection E as <-. intros fs e m. vm_compute. discriminate.
Qed.

(** A callback whose name cannot be found (C74_scoped, C74_template) makes the
    import fail, wherever it is. *)
Theorem C75_unnamed : forall X sym (ds : list (option text * keyring X)) d kr name f pm,
  In (d, kr) ds -> In (name, f) (kr_funcs kr) -> demangle (render (sym name)) = None ->
  exists e, init_module sym ds pm = Failed e.
Proof.
  intros X sym ds d kr name f pm Hd Hf Hn.
  assert (K : forall fs pm, In (name, f) fs -> exists e, define_pykeys sym kr fs pm = Failed e).
  { induction fs as [|[n g] fs IH]; intros pm0 H; [destruct H|]. cbn [define_pykeys].
    destruct (demangled_fname (sym n)) as [s|] eqn:En; [|eauto].
    destruct H as [H|H].
    - injection H as -> ->. unfold demangled_fname in En. rewrite Hn in En. discriminate.
    - destruct (kr_get kr n g); [|eauto]. destruct (define_pykey s k pm0); eauto. }
  revert pm. induction ds as [|[d0 kr0] ds IH]; intros pm; [destruct Hd|]. cbn [init_module]. destruct Hd as [H|H].
  - injection H as -> ->. unfold declare_dispatcher, unpack_keyring.
    destruct d as [nm|]; [destruct (class_ nm _ pm) as [pm1|]; [|eauto]|];
      (destruct (K (kr_funcs kr) ltac:(assumption) Hf) as [e ->]; eauto).
  - destruct (match d0 with Some _ => _ | None => _ end); eauto.
Qed.

(** A function of a namespace after one whose name is found. *)
Example C75_unnamed_example :
  let sym n := match n with
               | 0 => ex_symbol 2
               | _ => mk_symbol (txt "void (*)(short)") (ScopedRef (txt "motor") (txt "set_speed"))
               end in
  let kr := mk_keyring LITTLE TWOS_COMPLEMENT [(0, ex_sig [TUns 1] None); (1, ex_sig [TSig 2] None)] in
  demangle (render (sym 1)) = None
  /\ init_module sym [(None, kr)] empty_module = Failed NoName
  /\ exists pm, init_module sym [(None, mk_keyring LITTLE TWOS_COMPLEMENT [(0, ex_sig [TUns 1] None)])] empty_module = Done pm.
Proof. cbv zeta. split; [vm_compute; reflexivity|]. split; [vm_compute; reflexivity|]. eexists. vm_compute. reflexivity. Qed.

Print Assumptions C74_function_partial.
Print Assumptions C74_wrong_name.
Print Assumptions C74_variable.
Print Assumptions C74_scoped.
Print Assumptions C74_template.
Print Assumptions C74_function_refuted.
Print Assumptions C75_module_partial.
Print Assumptions C75_common_key.
Print Assumptions C75_one_keyring.
Print Assumptions C75_unnamed.
Print Assumptions C75_module_refuted.
Print Assumptions C75_dispatcher_name_refuted.
