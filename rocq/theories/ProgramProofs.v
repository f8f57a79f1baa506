(** The interpreter of Classes.v with the statements of Library.v does what it does
    with the definitions of Rpc.v. *)

From Coq Require Import List ZArith Lia Bool Arith ZifyBool ZifyNat String.
From Verif Require Import Base CInt Spec Conditions TypeLevel IntProofs Serial TupleModel SerialProofs SpecRpc Rpc RpcProofs
  Hosts Buffered SpecBuffered Counters BufferedProofs.
From Verif Require Templates Library LibraryProofs PropertiesLibrary PropertiesSource PropertiesMethods.
From Verif Require Import Classes Methods Program.
Import ListNotations.
Open Scope string_scope.
Open Scope list_scope.
Open Scope nat_scope.

(** ** Getters and putters which agree on the states which can be reached *)

Section Agree.
  Variable p : platform.
  Context {W : Type}.
  Variable P : W -> Prop.

  (** Same outcome, and the state stays among those. *)
  Definition agree {A : Type} (st : A -> W) (r1 r2 : res A) : Prop :=
    r1 = r2 /\ forall a, r2 = Ok a -> P (st a).

  Lemma agree_bind : forall (A B : Type) (sa : A -> W) (sb : B -> W) r1 r2 f1 f2,
    agree sa r1 r2 -> (forall a, P (sa a) -> agree sb (f1 a) (f2 a)) -> agree sb (bind r1 f1) (bind r2 f2).
  Proof.
    intros A B sa sb r1 r2 f1 f2 [-> H] Hf. destruct r2 as [a|f]; cbn [bind]; [apply Hf, H; reflexivity|].
    split; [reflexivity|discriminate].
  Qed.

  (** A computation which does not touch the state. *)
  Lemma agree_pure : forall (A B : Type) (sb : B -> W) (r : res A) f1 f2,
    (forall a, r = Ok a -> agree sb (f1 a) (f2 a)) -> agree sb (bind r f1) (bind r f2).
  Proof.
    intros A B sb r f1 f2 H. destruct r as [a|f]; cbn [bind]; [apply H; reflexivity|]. split; [reflexivity|discriminate].
  Qed.

  Lemma agree_ok : forall (A : Type) (st : A -> W) a, P (st a) -> agree st (Ok a) (Ok a).
  Proof. intros A st a H. split; [reflexivity|]. intros b E. injection E as <-. exact H. Qed.

  Lemma agree_fault : forall (A : Type) (st : A -> W) f, agree st (Fault f) (Fault f).
  Proof. intros. split; [reflexivity|discriminate]. Qed.

  Variables (src1 src2 : source W) (dest1 dest2 : destination W).
  Hypothesis Hsrc : forall w, P w -> agree fst (src1 w) (src2 w).
  Hypothesis Hdest : forall byte w, P w -> agree (fun w => w) (dest1 byte w) (dest2 byte w).

  Lemma fill_agree : forall k pos w mem, P w -> agree fst (fill src1 k pos w mem) (fill src2 k pos w mem).
  Proof.
    induction k as [|k IH]; intros pos w mem Hw; cbn [fill]; [apply agree_ok; exact Hw|].
    apply (agree_bind _ _ fst); [auto|]. intros [w1 b] H1. cbn [fst] in H1. apply agree_pure. intros m _. auto.
  Qed.

  Lemma put_each_agree : forall bs w, P w -> agree (fun w => w) (put_each dest1 bs w) (put_each dest2 bs w).
  Proof.
    induction bs as [|b bs IH]; intros w Hw; cbn [put_each]; [apply agree_ok; exact Hw|].
    apply (agree_bind _ _ (fun w => w)); auto.
  Qed.

  Lemma read_tuple_agree : forall e m ts w, P w -> agree fst (read_tuple p e m ts src1 w) (read_tuple p e m ts src2 w).
  Proof. intros e m ts w Hw. unfold read_tuple, fill_tuple. apply agree_pure. intros st _. apply fill_agree; auto. Qed.

  Lemma get_index_agree : forall d w, P w -> agree fst (get_index p d src1 w) (get_index p d src2 w).
  Proof.
    intros d w Hw. unfold get_index. apply (agree_bind _ _ fst); [apply read_tuple_agree; auto|]. intros [w1 st] H1.
    apply agree_pure. intros [z|l] _; [apply agree_ok; exact H1|apply agree_fault].
  Qed.

  Definition keeps (f : func W) : Prop := forall args w, P w -> P (fst (f_call f args w)).
  Definition action_keeps (a : action W) : Prop :=
    match a with Storage None => True | Storage (Some c) | NoStorage c => keeps (m_func c) end.

  Lemma invoke_agree : forall v f st w, keeps f -> P w ->
    agree fst (invoke p v (f_call f) st w) (invoke p v (f_call f) st w).
  Proof.
    intros v f st w Hf Hw. unfold invoke. apply agree_pure. intros args _. specialize (Hf args w Hw).
    destruct (f_call f args w) as [w1 r]. apply agree_ok. exact Hf.
  Qed.

  Lemma write_tuple_agree : forall e m ts vs w, P w ->
    agree (fun w => w) (write_tuple p e m ts vs dest1 w) (write_tuple p e m ts vs dest2 w).
  Proof.
    intros e m ts vs w Hw. unfold write_tuple. apply agree_pure. intros st _. apply agree_pure. intros bs _.
    apply put_each_agree; auto.
  Qed.

  Lemma run_agree : forall a w, action_keeps a -> P w -> agree (fun w => w) (run p a src1 dest1 w) (run p a src2 dest2 w).
  Proof.
    intros [[[e m f]|]|[e m f]] w Ha Hw; cbn [run m_e m_m m_func action_keeps] in *.
    - unfold call. destruct (sig_ret (f_sig f)) as [t|].
      + apply (agree_bind _ _ fst); [apply read_tuple_agree; auto|]. intros [w1 st] H1.
        apply (agree_bind _ _ fst); [apply invoke_agree; auto|]. intros [w2 r] H2.
        unfold insert. apply write_tuple_agree. exact H2.
      + apply (agree_bind _ _ fst); [apply read_tuple_agree; auto|]. intros [w1 st] H1.
        apply (agree_bind _ _ fst); [apply invoke_agree; auto|]. intros [w2 r] H2. apply agree_ok. exact H2.
    - apply agree_ok. exact Hw.
    - unfold static_wrapper. destruct (sig_ret (f_sig f)) as [t|].
      + apply (agree_bind _ _ fst); [apply read_tuple_agree; auto|]. intros [w1 st] H1.
        apply (agree_bind _ _ fst); [apply invoke_agree; auto|]. intros [w2 r] H2.
        apply agree_pure. intros rt _. apply agree_pure. intros bs _. apply put_each_agree. exact H2.
      + apply (agree_bind _ _ fst); [apply read_tuple_agree; auto|]. intros [w1 st] H1.
        apply (agree_bind _ _ fst); [apply invoke_agree; auto|]. intros [w2 r] H2. apply agree_ok. exact H2.
  Qed.
End Agree.

(** ** Two linkages *)

(** [while] (buffered_dispatcher.hpp 112-115). *)
Definition turns_by {X : Type} (c : state X -> res (state X * value)) (body : state X -> res (state X * outcome))
    : nat -> state X -> res (state X * outcome) :=
  fix loop (n : nat) (st : state X) : res (state X * outcome) :=
    '(st1, v) <- c st;;
    b <- truth v;;
    if b then
      match n with
      | O => Fault OutOfFuel
      | S n' =>
          '(st2, o) <- body st1;;
          match o with
          | Next => loop n' st2
          | Returned v => Ok (st2, Returned v)
          end
      end
    else Ok (st1, Next).

Scheme expr_mut := Induction for expr Sort Prop with stmt_mut := Induction for stmt Sort Prop.
Combined Scheme program_ind from expr_mut, stmt_mut.

Section Links.
  Variable p : platform.
  Variable sz fuel : nat.
  Context {X : Type}.
  Variable link : linkage (state X).
  Variable d : dispatcher X.
  Variable src : source X.
  Variable dest : destination X.
  Hypothesis Hindex : forall g st, l_index link (within_dispatcher d) g st = get_index p (within_dispatcher d) g st.
  Hypothesis Hrun : forall a, In a (d_actions d) -> forall g h st,
    l_run link (within_action a) g h st = run p (within_action a) g h st.

  Definition holds (st : state X) : Prop := s_dispatcher (st_object st) = d.

  Notation same := (agree holds fst).
  Notation ev1 := (eval p sz fuel link src dest).
  Notation ev2 := (eval p sz fuel (modelled p) src dest).
  Notation ex1 := (exec p sz fuel link src dest).
  Notation ex2 := (exec p sz fuel (modelled p) src dest).

  Lemma set_member_keeps : forall m z (b : members X), s_dispatcher (set_member m z b) = s_dispatcher b.
  Proof. intros m z []. destruct m; reflexivity. Qed.

  Lemma write_keeps : forall l v (st st' : state X), holds st -> write p sz l v st = Ok st' -> holds st'.
  Proof.
    intros l v st st' H E. unfold holds in *. destruct l as [m|x]; cbn [write] in E.
    - ok_inv E v'. ok_inv E z. injection E as <-. cbn [st_object]. rewrite set_member_keeps. exact H.
    - ok_inv E old. ok_inv E v'. injection E as <-. exact H.
  Qed.

  Lemma store_keeps : forall v n b (st st' : state X), holds st -> store_at v n b st = Ok st' -> holds st'.
  Proof.
    intros v n b st st' H E. unfold holds in *. unfold store_at in E. destruct v; try discriminate. destruct b; try discriminate.
    ok_inv E bytes. destruct (st_object st). injection E as <-. exact H.
  Qed.

  Lemma within_keeps : forall a : action X, action_keeps holds (within_action a).
  Proof.
    intros [[[e m f]|]|[e m f]]; cbn; auto; intros args w H; cbn; destruct (f_call f args (st_world w)); exact H.
  Qed.

  Lemma action_in : forall i a, action_at (within_dispatcher d) i = Ok a -> exists a0, In a0 (d_actions d) /\ a = within_action a0.
  Proof.
    intros i a E. unfold action_at, within_dispatcher in E. cbn [d_actions] in E. rewrite nth_error_map in E.
    destruct (nth_error (d_actions d) i) as [a0|] eqn:N; [|discriminate]. cbn [option_map] in E. injection E as <-.
    exists a0. split; [eapply nth_error_In; eauto|reflexivity].
  Qed.

  Lemma same_getter : forall e, (forall st, holds st -> same (ev1 e st) (ev2 e st)) -> forall st, holds st ->
    same ('(st1, v) <- ev1 e st;; z <- number v;; Ok (st1, z)) ('(st1, v) <- ev2 e st;; z <- number v;; Ok (st1, z)).
  Proof.
    intros e H st Hst. apply (agree_bind _ _ _ fst); [auto|]. intros [st1 v] H1. apply agree_pure. intros z _.
    apply agree_ok. exact H1.
  Qed.

  Ltac pure := apply agree_pure; intros ? _.
  Ltac step H := apply (agree_bind _ _ _ fst); [apply H; assumption|]; intros [? ?] ?; cbn [fst] in *.
  Ltac done := apply agree_ok; cbn [fst]; assumption.

  Theorem same_program :
    (forall e st, holds st -> same (ev1 e st) (ev2 e st)) /\ (forall c st, holds st -> same (ex1 c st) (ex2 c st)).
  Proof.
    apply program_ind.
    - intros l st H. cbn [eval]. pure. done.
    - intros z st H. done.
    - intros b st H. done.
    - intros s st H. done.
    - intros st H. done.
    - intros st H. done.
    - intros st H. done.
    - intros st H. done.
    - intros st H. done.
    - intros a IH st H. cbn [eval]. step IH. pure. done.
    - intros a IHa b IHb st H. cbn [eval]. step IHa. apply agree_pure. intros [] _; [|done]. step IHb. pure. done.
    - intros c IHc a IHa b IHb st H. cbn [eval]. step IHc. apply agree_pure. intros [] _; auto.
    - intros o a IHa b IHb st H. cbn [eval]. step IHa. step IHb. pure. done.
    - intros l st H. cbn [eval]. pure. pure. apply agree_pure. intros st1 E. apply write_keeps in E; auto. done.
    - intros l st H. cbn [eval]. pure. pure. apply agree_pure. intros st1 E. apply write_keeps in E; auto. pure. done.
    - intros a IH st H. cbn [eval]. step IH. pure. done.
    - intros a IHa b IHb st H. cbn [eval]. step IHa. step IHb. pure. pure. done.
    - intros st H. cbn [eval]. apply agree_pure. intros [x byte] _. done.
    - intros l IH st H.
      change (ev1 (GetIndex l) st) with
        ('(st1, i) <- l_index link (within_dispatcher (s_dispatcher (st_object st)))
             (fun st => '(st1, v) <- ev1 l st;; z <- number v;; Ok (st1, z)) st;;
         Ok (st1, Number (CInt (index_length (s_dispatcher (st_object st))) false) (Z.of_nat i))).
      change (ev2 (GetIndex l) st) with
        ('(st1, i) <- get_index p (within_dispatcher (s_dispatcher (st_object st)))
             (fun st => '(st1, v) <- ev2 l st;; z <- number v;; Ok (st1, z)) st;;
         Ok (st1, Number (CInt (index_length (s_dispatcher (st_object st))) false) (Z.of_nat i))).
      rewrite H, Hindex. apply (agree_bind _ _ _ fst).
      + apply get_index_agree; auto. intros w Hw. apply same_getter; auto.
      + intros [st1 i] H1. done.
    - intros a IH st H. cbn [eval]. step IH. pure. pure. pure. done.
    - intros T body IH st H. cbn [eval]. step IH. pure. done.
    - intros T T' x body IH a IHa st H. cbn [eval]. step IHa. pure. step IH. pure. done.
    - intros st H. done.
    - intros a IHa b IHb st H. cbn [exec]. step IHa. destruct o; [auto|done].
    - intros a IH st H. cbn [exec]. step IH. done.
    - intros l a IH st H. cbn [exec]. step IH. apply agree_pure. intros st1 E. apply write_keeps in E; auto. done.
    - intros a IHa b IHb c IHc st H. cbn [exec]. step IHc. step IHa. step IHb. pure. apply agree_pure. intros st1 E.
      apply store_keeps in E; auto. done.
    - intros T x a IH st H. cbn [exec]. step IH. pure. done.
    - intros x a IH st H. cbn [exec]. step IH. done.
    - intros c IHc a IHa b IHb st H. cbn [exec]. step IHc. apply agree_pure. intros [] _; auto.
    - intros c IHc body IHb.
      cut (forall n st, holds st ->
             same (turns_by (ev1 c) (ex1 body) n st) (turns_by (ev2 c) (ex2 body) n st)).
      { intros H st Hst. exact (H fuel st Hst). }
      induction n as [|n IHn]; intros st Hst; cbn [turns_by];
        step IHc; (apply agree_pure; intros [] _; [|done]); [apply agree_fault|].
      step IHb. destruct o; [auto|done].
    - intros a IH st H. cbn [exec]. step IH. done.
    - intros a IH st H. cbn [exec]. step IH. pure. pure. done.
    - intros i IHi g IHg x c IHc st H.
      set (G1 := (fun st => '(st1, v) <- ev1 g st;; z <- number v;; Ok (st1, z)) : source (state X)).
      set (G2 := (fun st => '(st1, v) <- ev2 g st;; z <- number v;; Ok (st1, z)) : source (state X)).
      set (D1 := (fun byte st => '(st1, _) <- ex1 c (declare x (Number (CInt 1 false) byte) st);;
                                 Ok (leave (st_locals st) st1)) : destination (state X)).
      set (D2 := (fun byte st => '(st1, _) <- ex2 c (declare x (Number (CInt 1 false) byte) st);;
                                 Ok (leave (st_locals st) st1)) : destination (state X)).
      change (ex1 (RunAction i g x c) st) with
        ('(st1, v) <- ev1 i st;; j <- number v;;
         a <- action_at (within_dispatcher (s_dispatcher (st_object st1))) (Z.to_nat j);;
         st2 <- l_run link a G1 D1 st1;; Ok (st2, Next)).
      change (ex2 (RunAction i g x c) st) with
        ('(st1, v) <- ev2 i st;; j <- number v;;
         a <- action_at (within_dispatcher (s_dispatcher (st_object st1))) (Z.to_nat j);;
         st2 <- run p a G2 D2 st1;; Ok (st2, Next)).
      step IHi. pure. match goal with H : holds ?s |- context [s_dispatcher (st_object ?s)] => rewrite H end.
      apply agree_pure. intros a' E. destruct (action_in _ _ E) as (a0 & Ha & ->). rewrite Hrun by exact Ha.
      apply (agree_bind _ _ _ (fun w => w)).
      + apply run_agree; auto.
        * intros w Hw. apply same_getter; auto.
        * intros byte w Hw. unfold D1, D2. apply (agree_bind _ _ _ fst); [apply IHc; exact Hw|].
          intros [st1 o] H1. apply agree_ok. exact H1.
        * apply within_keeps.
      + intros st2 H2. done.
  Qed.

  Theorem same_method : forall T body args b x, s_dispatcher b = d ->
    run_method p sz fuel link T body args src dest b x = run_method p sz fuel (modelled p) T body args src dest b x.
  Proof.
    intros T body args b x H. unfold run_method. rewrite (proj1 (proj2 same_program body (mk_state b args x) H)). reflexivity.
  Qed.
End Links.

(** ** Callbacks whose types the host can count *)

(** The types of a tuple: the arrays, the objects and the tuple itself are not larger
    than what [std::size_t] and its signed counterpart can count. *)
Definition counted (sz : nat) (ts : list ty) : Prop :=
  Forall (fun t => wf_ty t /\ LibraryProofs.countable sz t /\ (Z.of_nat (sizeof t) < space sz)%Z) ts
  /\ (Z.of_nat (tuple_size ts) < half sz)%Z.

(** The same for the parameters and the result of a callback, which returns a value of
    the type it says. *)
Definition described {X : Type} (sz : nat) (f : func X) : Prop :=
  counted sz (sig_params (f_sig f))
  /\ match sig_ret (f_sig f) with
     | None => True
     | Some t => counted sz [t] /\ forall args x, has_type t (snd (f_call f args x))
     end.

Lemma counted_fit : forall sz ts, counted sz ts -> exists n, forall fuel, n <= fuel -> LibraryProofs.all_fit sz fuel ts.
Proof.
  intros sz ts [H Hz].
  assert (F : exists n, forall fuel, n <= fuel -> Forall (LibraryProofs.fits sz fuel) ts).
  { clear Hz. induction H as [|t ts (Hw & Hc & Hs) _ (n & IH)]; [exists 0; constructor|].
    exists (Nat.max n (Nat.max (LibraryProofs.longest t) (sizeof t))). intros fuel Hf.
    constructor; [|apply IH; lia]. unfold LibraryProofs.fits. repeat split; auto; lia. }
  destruct F as (n & F). exists (Nat.max n (tuple_size ts)). intros fuel Hf.
  split; [apply F; lia|]. split; [lia|exact Hz].
Qed.

Lemma described_fits : forall (X : Type) sz (f : func X), described sz f ->
  exists n, forall fuel, n <= fuel -> LibraryProofs.sig_fits sz fuel (f_call f) (f_sig f).
Proof.
  intros X sz f [Hp Hr]. destruct (counted_fit sz _ Hp) as (n & Hn). unfold LibraryProofs.sig_fits.
  destruct (sig_ret (f_sig f)) as [t|].
  - destruct Hr as [Ht Hr]. destruct (counted_fit sz _ Ht) as (n' & Hn'). exists (Nat.max n n'). intros fuel Hf.
    split; [apply Hn; lia|]. split; [apply Hn'; lia|exact Hr].
  - exists n. auto.
Qed.

Lemma all_described_fit : forall (X : Type) sz (fs : list (func X)), Forall (described sz) fs ->
  exists n, forall fuel, n <= fuel -> Forall (fun f => LibraryProofs.sig_fits sz fuel (f_call f) (f_sig f)) fs.
Proof.
  intros X sz fs H. induction H as [|f fs Hf _ (n & IH)]; [exists 0; constructor|].
  destruct (described_fits X sz f Hf) as (n' & Hn'). exists (Nat.max n n'). intros fuel Hfuel.
  constructor; [apply Hn'; lia|apply IH; lia].
Qed.

(** ** The statements of Library.v *)

Section Statements.
  Variable p : platform.
  Variable sz fuel : nat.
  Hypothesis Hh : PropertiesSource.host_sizes p sz.
  Hypothesis Hf : 8 <= fuel.

  Lemma index_fits : forall w, 1 <= w <= 8 -> LibraryProofs.all_fit sz fuel [TUns w].
  Proof.
    intros w Hw. destruct Hh as [_ H].
    pose proof (space_mono 2 sz ltac:(lia)) as s. change (space 2) with 65536%Z in s.
    pose proof (space_half sz ltac:(lia)) as h.
    assert (a : (Z.of_nat w < half sz)%Z) by lia. assert (b : (Z.of_nat w < space sz)%Z) by lia. clear s h.
    assert (T : tuple_size [TUns w] = w) by (unfold tuple_size; cbn; lia).
    unfold LibraryProofs.all_fit, LibraryProofs.fits. rewrite T. cbn [wf_ty LibraryProofs.countable LibraryProofs.longest sizeof].
    split; [constructor; [|constructor]|split; lia].
    split; [exact Hw|]. split; [exact I|]. split; [exact Hf|]. cbn [sizeof]. split; [lia|exact b].
  Qed.

  Lemma index_statements_ok : forall (W : Type) (d : dispatcher W) src w,
    index_statements p sz fuel d src w = get_index p d src w.
  Proof.
    intros W d src w.
    pose proof (PropertiesLibrary.C102_index p sz fuel W src Library.no_destination Library.no_functor d [] w Hh Hf
                  (index_fits _ (PropertiesMethods.index_length_range W d))) as E.
    unfold index_statements. revert E.
    generalize (Library.run_body p sz fuel src Library.no_destination Library.no_functor
      (Library.get_index_src (kr_e (d_keyring d)) (kr_m (d_keyring d)) (kr_index_size (d_keyring d))) [] [] w).
    generalize (get_index p d src w).
    intros [[x i]|f] [[[m w1] v]|f']; cbn [bind]; intros E; [|congruence| |congruence].
    - destruct v as [| | | |v| | |]; try discriminate. destruct v; [|discriminate]. congruence.
    - destruct v as [| | | |v| | |]; try congruence. destruct v; congruence.
  Qed.

  (** The callback of an action. *)
  Definition action_fits {W : Type} (a : action W) : Prop :=
    match a with
    | Storage None => True
    | Storage (Some c) | NoStorage c => LibraryProofs.sig_fits sz fuel (f_call (m_func c)) (f_sig (m_func c))
    end.

  Lemma action_statements_ok : forall (W : Type) (a : action W) src dest w, action_fits a ->
    action_statements p sz fuel a src dest w = run p a src dest w.
  Proof.
    intros W [[[e m [s f]]|]|[e m [s f]]] src dest w Ha; cbn [action_statements run m_e m_m m_func f_sig f_call action_fits] in *; auto.
    - rewrite (PropertiesLibrary.C102_call p sz fuel W src dest f e m s [] w Hh Ha Hf).
      destruct (call p e m (mk_func s f) src dest w); reflexivity.
    - rewrite (PropertiesLibrary.C102_static p sz fuel W src dest f e m s [] w Hh Ha Hf).
      destruct (static_wrapper p e m (mk_func s f) src dest w); reflexivity.
  Qed.

  Lemma within_fits : forall (X : Type) (a : action X), action_fits a -> action_fits (within_action a).
  Proof.
    intros X [[[e m [s f]]|]|[e m [s f]]] H; cbn in *; auto; destruct H as [H1 H2]; (split; [exact H1|]);
      (destruct (sig_ret s); [|exact I]); destruct H2 as [H2 H3]; (split; [exact H2|]);
      intros args x; specialize (H3 args (st_world x)); destruct (f args (st_world x)); exact H3.
  Qed.

  Context {X : Type}.

  (** The functions of Library.v in place of the definitions of Rpc.v, in one call of a
      member function. *)
  Theorem method_statements : forall T body args src dest (b : members X) x,
    Forall action_fits (d_actions (s_dispatcher b)) ->
    run_method p sz fuel (transcribed p sz fuel) T body args src dest b x
    = run_method p sz fuel (modelled p) T body args src dest b x.
  Proof.
    intros T body args src dest b x H. apply (same_method p sz fuel _ (s_dispatcher b)); auto.
    - intros g st. apply index_statements_ok.
    - intros a Ha g h st. apply action_statements_ok, within_fits. rewrite Forall_forall in H. auto.
  Qed.

  Lemma method_keeps : forall T body args src dest (b b' : members X) x x' v,
    run_method p sz fuel (modelled p) T body args src dest b x = Ok (b', x', v) -> s_dispatcher b' = s_dispatcher b.
  Proof.
    intros T body args src dest b b' x x' v E. unfold run_method in E.
    pose proof (proj2 (same_program p sz fuel (modelled p) (s_dispatcher b) src dest
                  (fun _ _ => eq_refl) (fun _ _ _ _ _ => eq_refl)) body (mk_state b args x) eq_refl) as [_ K].
    ok_inv E q. destruct q as [st o]. ok_inv E w. injection E as <- <- <-. exact (K _ eq_refl).
  Qed.

  (** The callback given to [replace]. *)
  Definition op_func (o : op X) : list (func X) :=
    match o with Replace _ (ByUnevaluated f) | Replace _ (ByFunctor f) => [f] | _ => [] end.

  Lemma set_nth_Forall : forall (A : Type) (P : A -> Prop) l i a, Forall P l -> P a -> Forall P (set_nth l i a).
  Proof.
    intros A P l. induction l as [|b l IH]; intros i a H Ha; cbn [set_nth]; [constructor|].
    inversion H; subst. destruct i; constructor; auto.
  Qed.

  Lemma step_statements : forall (o : op X) (b : members X) x,
    Forall action_fits (d_actions (s_dispatcher b)) ->
    Forall (fun f => LibraryProofs.sig_fits sz fuel (f_call f) (f_sig f)) (op_func o) ->
    step_source p sz fuel (transcribed p sz fuel) o b x = step_source p sz fuel (modelled p) o b x
    /\ forall b' x' v, step_source p sz fuel (modelled p) o b x = Ok (b', x', v) ->
         Forall action_fits (d_actions (s_dispatcher b')).
  Proof.
    intros o b x H Ho.
    assert (M : forall T body args src dest, 
      ('(b', x', v) <- run_method p sz fuel (transcribed p sz fuel) T body args src dest b x;;
       r <- observed v;; Ok (b', x', r))
      = ('(b', x', v) <- run_method p sz fuel (modelled p) T body args src dest b x;;
         r <- observed v;; Ok (b', x', r))
      /\ forall b' x' v, ('(b', x', v) <- run_method p sz fuel (modelled p) T body args src dest b x;;
                          r <- observed v;; Ok (b', x', r)) = Ok (b', x', v) ->
           Forall action_fits (d_actions (s_dispatcher b'))).
    { intros T body args src dest. split; [rewrite method_statements by exact H; reflexivity|].
      intros b' x' v E. ok_inv E q. destruct q as [[b1 x1] v1]. ok_inv E r. injection E as <- <- <-.
      apply method_keeps in E0. rewrite E0. exact H. }
    destruct o as [byte| | |src|dest|src dest|i r|g|]; try apply M; (split; [reflexivity|]); intros b' x' v E;
      cbn [step_source step_w] in E.
    - destruct (replace (s_dispatcher b) i r) as [o|] eqn:R; [|discriminate]. ok_inv E d.
      injection E as <- <- <-. cbn [s_dispatcher]. subst o. unfold replace in R.
      destruct (at17 _ i) as [s|]; [|discriminate]. destruct (_ && _); [|discriminate].
      assert (A : forall a, action_fits a -> assign_action (s_dispatcher b) i a = Ok d -> Forall action_fits (d_actions d)).
      { intros a Ha E. unfold assign_action in E. destruct (_ <? _); [|discriminate]. injection E as <-.
        apply set_nth_Forall; auto. }
      destruct r as [f|f]; cbn [op_func] in Ho; inversion Ho; subst;
        destruct (d_features (s_dispatcher b)); try discriminate; injection R as R; (eapply A; [|exact R]); assumption.
    - injection E as <- <- <-. exact H.
    - injection E as <- <- <-. exact H.
  Qed.

  Lemma run_statements : forall (ops : list (op X)) (b : members X) x,
    Forall action_fits (d_actions (s_dispatcher b)) ->
    Forall (fun f => LibraryProofs.sig_fits sz fuel (f_call f) (f_sig f)) (flat_map op_func ops) ->
    run_program p sz fuel ops b x = run_source p sz fuel (modelled p) ops b x.
  Proof.
    intros ops. induction ops as [|o ops IH]; intros b x H Ho; [reflexivity|].
    cbn [flat_map] in Ho. apply Forall_app in Ho. destruct Ho as [Ho Hos]. unfold run_program in *. cbn [run_source].
    destruct (step_statements o b x H Ho) as [E K]. rewrite E. clear E.
    apply LibraryProofs.bind_ext. intros [[b1 x1] v] E.
    rewrite (IH b1 x1 (K b1 x1 v E) Hos). reflexivity.
  Qed.
End Statements.

(** The actions of a new dispatcher (dispatcher.hpp 99-112). *)
Lemma new_actions_fit : forall (X : Type) sz fuel (kr : keyring X) ft,
  Forall (fun f => LibraryProofs.sig_fits sz fuel (f_call f) (f_sig f)) (map snd (kr_funcs kr)) ->
  Forall (action_fits sz fuel) (d_actions (make_dispatcher kr ft)).
Proof.
  intros X sz fuel kr ft H. unfold make_dispatcher. cbn [d_actions]. rewrite Forall_map in *.
  eapply Forall_impl; [|exact H]. intros [n f] Hf. destruct ft; exact Hf.
Qed.
