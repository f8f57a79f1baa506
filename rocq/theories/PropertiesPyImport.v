(** C76: the import hook; C77: the environment of the compiler. *)

From Coq Require Import Ascii String List Bool Arith Lia.
From Verif Require Import PyImport.
Import ListNotations.
Open Scope nat_scope.

(** ** A script when the hook answers nothing to the imports made meanwhile *)

Fixpoint alone {W M A : Type} (s : script W M A) (w : W) : (A + python_exception) * W :=
  match s with
  | Returns a => (inl a, w)
  | Raises e => (inr e, w)
  | Does f s' => alone s' (f w)
  | Looks s' => alone (s' w) w
  | Imports _ s' => alone (s' None) w
  end.

Lemma alone_andthen : forall (W M A B : Type) (s : script W M A) (k : A -> script W M B) w,
  alone (andthen s k) w
  = match alone s w with
    | (inl a, w') => alone (k a) w'
    | (inr e, w') => (inr e, w')
    end.
Proof.
  intros W M A B s k. induction s as [a|e|f s IH|s IH|name s IH]; intros w; cbn [andthen alone]; auto.
Qed.

Definition of_alone {A : Type} (r : A + python_exception) : result A :=
  match r with inl a => Value a | inr e => Exception e end.

Lemma run_alone : forall (W M A : Type) (lib : library W M) d (s : script W M A) w,
  run_script (find_spec lib (S d)) s (true, w) = (of_alone (fst (alone s w)), (true, snd (alone s w))).
Proof.
  intros W M A lib d s. induction s as [a|e|f s IH|s IH|name s IH]; intros w; cbn [run_script alone fst snd]; auto.
  cbn [find_spec fst]. apply IH.
Qed.

(** The import of one module: the file of its source is found, the file of the
    extension is given by [setup_module_data], that file is removed if there is
    one, the module is built, then loaded. *)
Definition steps_done {W M : Type} (lib : library W M) (name : string) (w : W) (m : M) (w' : W) : Prop :=
  exists path ext w1 w2 w3 w4,
    alone (find_module_cpppath lib name) w = (inl path, w1)
    /\ alone (setup_module_data lib name path) w1 = (inl ext, w2)
    /\ (if path_exists lib ext w2 then alone (remove lib ext) w2 = (inl tt, w3) else w3 = w2)
    /\ alone (build_safely lib path ext) w3 = (inl tt, w4)
    /\ alone (load_module lib name) w4 = (inl m, w').

(** One of these steps raises an exception. *)
Definition step_raises {W M : Type} (lib : library W M) (name : string) (w : W) (e : python_exception) (w' : W) : Prop :=
  alone (find_module_cpppath lib name) w = (inr e, w')
  \/ exists path w1, alone (find_module_cpppath lib name) w = (inl path, w1)
     /\ (alone (setup_module_data lib name path) w1 = (inr e, w')
         \/ exists ext w2, alone (setup_module_data lib name path) w1 = (inl ext, w2)
            /\ ((path_exists lib ext w2 = true /\ alone (remove lib ext) w2 = (inr e, w'))
                \/ exists w3, (if path_exists lib ext w2 then alone (remove lib ext) w2 = (inl tt, w3) else w3 = w2)
                   /\ (alone (build_safely lib path ext) w3 = (inr e, w')
                       \/ exists w4, alone (build_safely lib path ext) w3 = (inl tt, w4)
                          /\ alone (load_module lib name) w4 = (inr e, w')))).

Lemma body_cases : forall (W M : Type) (lib : library W M) name w,
  match alone (try_body lib name) w with
  | (inl m, w') => steps_done lib name w m w'
  | (inr e, w') => step_raises lib name w e w'
  end.
Proof.
  intros W M lib name w. unfold try_body. rewrite alone_andthen.
  destruct (alone (find_module_cpppath lib name) w) as [[path|e] w1] eqn:E1; [|left; exact E1].
  rewrite alone_andthen. destruct (alone (setup_module_data lib name path) w1) as [[ext|e] w2] eqn:E2.
  2:{ right. exists path, w1. split; [exact E1|]. left. exact E2. }
  rewrite alone_andthen. cbn [alone].
  assert (Hr : match alone (if path_exists lib ext w2 then remove lib ext else Returns tt) w2 with
               | (inl _, w3) => if path_exists lib ext w2 then alone (remove lib ext) w2 = (inl tt, w3) else w3 = w2
               | (inr e, w3) => path_exists lib ext w2 = true /\ alone (remove lib ext) w2 = (inr e, w3)
               end).
  { destruct (path_exists lib ext w2); cbn [alone]; auto.
    destruct (alone (remove lib ext) w2) as [[[]|e] w3]; auto. }
  destruct (alone (if path_exists lib ext w2 then remove lib ext else Returns tt) w2) as [[u|e] w3].
  2:{ right. exists path, w1. split; [exact E1|]. right. exists ext, w2. split; [exact E2|]. left. exact Hr. }
  rewrite alone_andthen. destruct (alone (build_safely lib path ext) w3) as [[[]|e] w4] eqn:E4.
  2:{ right. exists path, w1. split; [exact E1|]. right. exists ext, w2. split; [exact E2|]. right.
      exists w3. split; [exact Hr|]. left. exact E4. }
  destruct (alone (load_module lib name) w4) as [[m|e] w5] eqn:E5.
  - exists path, ext, w1, w2, w3, w4. auto.
  - right. exists path, w1. split; [exact E1|]. right. exists ext, w2. split; [exact E2|]. right.
    exists w3. split; [exact Hr|]. right. exists w4. auto.
Qed.

Lemma find_spec_alone : forall (W M : Type) (lib : library W M) d name w,
  find_spec lib (S (S d)) name (false, w)
  = match alone (try_body lib name) w with
    | (inl m, w') => (Value (Some m), (false, w'))
    | (inr ImportError, w') => (Value None, (false, w'))
    | (inr OtherError, w') => (Exception OtherError, (false, w'))
    end.
Proof.
  intros W M lib d name w.
  change (find_spec lib (S (S d)) name (false, w))
    with (match run_script (find_spec lib (S d)) (try_body lib name) (true, w) with
          | (Value m, st') => (Value (Some m), (false, snd st'))
          | (Exception ImportError, st') => (Value None, (false, snd st'))
          | (Exception OtherError, st') => (Exception OtherError, (false, snd st'))
          | (TooDeep, st') => (TooDeep, (false, snd st'))
          end).
  rewrite run_alone. destruct (alone (try_body lib name) w) as [[m|[]] w']; reflexivity.
Qed.

Lemma cases_exclusive : forall (W M : Type) (lib : library W M) name w m w1 e w2,
  steps_done lib name w m w1 -> step_raises lib name w e w2 -> False.
Proof.
  intros W M lib name w m w1 e w2 (path & ext & a & b & c & d & E1 & E2 & E3 & E4 & E5).
  intros [H|(path' & a' & H1 & [H|(ext' & b' & H2 & [[H3 H]|(c' & H3 & [H|(d' & H4 & H)])])])].
  - congruence.
  - assert (path' = path /\ a' = a) as [-> ->] by (split; congruence). congruence.
  - assert (path' = path /\ a' = a) as [-> ->] by (split; congruence).
    assert (ext' = ext /\ b' = b) as [-> ->] by (split; congruence). rewrite H3 in E3. congruence.
  - assert (path' = path /\ a' = a) as [-> ->] by (split; congruence).
    assert (ext' = ext /\ b' = b) as [-> ->] by (split; congruence).
    assert (c' = c) as -> by (revert E3 H3; destruct (path_exists lib ext b); congruence). congruence.
  - assert (path' = path /\ a' = a) as [-> ->] by (split; congruence).
    assert (ext' = ext /\ b' = b) as [-> ->] by (split; congruence).
    assert (c' = c) as -> by (revert E3 H3; destruct (path_exists lib ext b); congruence).
    assert (d' = d) as -> by congruence. congruence.
Qed.

Lemma done_unique : forall (W M : Type) (lib : library W M) name w m w1 m' w2,
  steps_done lib name w m w1 -> steps_done lib name w m' w2 -> m = m' /\ w1 = w2.
Proof.
  intros W M lib name w m w1 m' w2 (path & ext & a & b & c & d & E1 & E2 & E3 & E4 & E5).
  intros (path' & ext' & a' & b' & c' & d' & H1 & H2 & H3 & H4 & H5).
  assert (path' = path /\ a' = a) as [-> ->] by (split; congruence).
  assert (ext' = ext /\ b' = b) as [-> ->] by (split; congruence).
  assert (c' = c) as -> by (revert E3 H3; destruct (path_exists lib ext b); congruence).
  assert (d' = d) as -> by congruence. split; congruence.
Qed.

Lemma raises_unique : forall (W M : Type) (lib : library W M) name w e w1 e' w2,
  step_raises lib name w e w1 -> step_raises lib name w e' w2 -> e = e' /\ w1 = w2.
Proof.
  intros W M lib name w e w1 e' w2 H H'. pose proof (body_cases W M lib name w) as B.
  assert (D : forall e w', step_raises lib name w e w' -> alone (try_body lib name) w = (inr e, w')).
  { clear. intros e w' H. unfold try_body. rewrite alone_andthen.
    destruct H as [H|(path & a & H1 & H)]; [rewrite H; reflexivity|]. rewrite H1, alone_andthen.
    destruct H as [H|(ext & b & H2 & H)]; [rewrite H; reflexivity|]. rewrite H2, alone_andthen. cbn [alone].
    destruct H as [[H3 H]|(c & H3 & H)]; [rewrite H3, H; reflexivity|].
    assert (E : alone (if path_exists lib ext b then remove lib ext else Returns tt) b = (inl tt, c)).
    { destruct (path_exists lib ext b); [exact H3|subst c; reflexivity]. }
    rewrite E, alone_andthen. destruct H as [H|(d & H4 & H)]; [rewrite H; reflexivity|]. rewrite H4, H. reflexivity. }
  apply D in H, H'. split; congruence.
Qed.

(** ** C76 *)

(** The module is returned exactly when every step is done, from a file which is
    built after the file which was there is removed; nothing is returned exactly
    when a step raises [ImportError]; another exception leaves the hook exactly
    when a step raises it.  In every case the hook can be used again.  The hook
    answers nothing to the imports made meanwhile: there is no recursion. *)
Theorem C76_find_spec : forall (W M : Type) (lib : library W M) d name w,
  exists r w', find_spec lib (2 + d) name (false, w) = (r, (false, w'))
  /\ (forall m, r = Value (Some m) <-> steps_done lib name w m w')
  /\ (r = Value None <-> step_raises lib name w ImportError w')
  /\ (forall e, r = Exception e <-> e = OtherError /\ step_raises lib name w OtherError w')
  /\ r <> TooDeep.
Proof.
  intros W M lib d name w. change (2 + d) with (S (S d)). rewrite find_spec_alone.
  pose proof (body_cases W M lib name w) as B. destruct (alone (try_body lib name) w) as [[m|[]] w'].
  - exists (Value (Some m)), w'. split; [reflexivity|]. split; [|split; [|split]].
    + intros m'. split; [intros H; injection H as <-; exact B|]. intros H.
      destruct (done_unique _ _ _ _ _ _ _ _ _ B H). congruence.
    + split; [discriminate|]. intros H. exfalso. eapply cases_exclusive; eauto.
    + intros e. split; [discriminate|]. intros [_ H]. exfalso. eapply cases_exclusive; eauto.
    + discriminate.
  - exists (Value None), w'. split; [reflexivity|]. split; [|split; [|split]].
    + intros m'. split; [discriminate|]. intros H. exfalso. eapply cases_exclusive; eauto.
    + split; auto.
    + intros e. split; [discriminate|]. intros [_ H]. destruct (raises_unique _ _ _ _ _ _ _ _ _ B H). discriminate.
    + discriminate.
  - exists (Exception OtherError), w'. split; [reflexivity|]. split; [|split; [|split]].
    + intros m'. split; [discriminate|]. intros H. exfalso. eapply cases_exclusive; eauto.
    + split; [discriminate|]. intros H. destruct (raises_unique _ _ _ _ _ _ _ _ _ B H). discriminate.
    + intros e. split; [intros H; injection H as <-; auto|intros [-> _]; reflexivity].
    + discriminate.
Qed.

(** After any imports, whatever they raised, the next one is done as if it were
    the first. *)
Theorem C76_history : forall (W M : Type) (lib : library W M) d names w,
  exists rs w', imports lib (2 + d) names (false, w) = (rs, (false, w')) /\ length rs = length names
  /\ forall name, imports lib (2 + d) (names ++ [name]) (false, w)
       = (rs ++ [fst (find_spec lib (2 + d) name (false, w'))], snd (find_spec lib (2 + d) name (false, w'))).
Proof.
  intros W M lib d names. change (2 + d) with (S (S d)). induction names as [|n names IH]; intros w.
  - exists [], w. split; [reflexivity|]. split; [reflexivity|]. intros name. cbn [app imports].
    destruct (find_spec lib (S (S d)) name (false, w)) as [r st]. reflexivity.
  - destruct (C76_find_spec W M lib d n w) as (r & w1 & E & _). change (2 + d) with (S (S d)) in E.
    destruct (IH w1) as (rs & w' & E1 & El & En). exists (r :: rs), w'. cbn [imports app]. rewrite E, E1.
    split; [reflexivity|]. split; [cbn [length]; congruence|]. intros name. rewrite (En name). reflexivity.
Qed.

(** *** Example: the world has a source file for each of two modules, the
    extension built last and what was done.  The build of ["motor"] imports
    ["pybind11"], which is not for the hook. *)
Record ex_world : Type := mk_ex_world {
  ew_source : string -> option nat;
  ew_built : option nat;
  ew_log : list string;
  ew_answers : list (option nat)
}.
Definition log (what : string) (w : ex_world) : ex_world :=
  mk_ex_world (ew_source w) (ew_built w) (ew_log w ++ [what]) (ew_answers w).
Definition ex_library (meanwhile : string) : library ex_world nat :=
  mk_library ex_world nat
    (fun name => Looks (fun w => match ew_source w name with Some _ => Returns name | None => Raises ImportError end))
    (fun name path => Returns (path ++ ".so")%string)
    (fun ext w => match ew_built w with Some _ => true | None => false end)
    (fun ext => Does (fun w => log "remove" (mk_ex_world (ew_source w) None (ew_log w) (ew_answers w))) (Returns tt))
    (fun path ext => Imports meanwhile (fun m => Does (fun w =>
       log "build" (mk_ex_world (ew_source w) (ew_source w path) (ew_log w) (ew_answers w ++ [m]))) (Returns tt)))
    (fun name => Looks (fun w => match ew_built w with Some v => Does (log "load") (Returns v) | None => Raises OtherError end)).
Definition ex_world0 : ex_world :=
  mk_ex_world (fun n => if String.eqb n "motor" then Some 5 else if String.eqb n "sensor" then Some 8 else None)
    (Some 4) [] [].

Example C76_example :
  fst (find_spec (ex_library "pybind11") 2 "motor" (false, ex_world0)) = Value (Some 5)
  /\ ew_log (snd (snd (find_spec (ex_library "pybind11") 2 "motor" (false, ex_world0)))) = ["remove"; "build"; "load"]%string
  /\ fst (imports (ex_library "pybind11") 2 ["numpy"; "motor"; "sensor"]%string (false, ex_world0))
     = [Value None; Value (Some 5); Value (Some 8)].
Proof. vm_compute. auto. Qed.

(** Another module which could be imported is not, when the import happens while
    the hook is busy, for instance in another thread. *)
Theorem C76_concurrent_refuted :
  fst (find_spec (ex_library "pybind11") 2 "sensor" (false, ex_world0)) = Value (Some 8)
  /\ fst (find_spec (ex_library "sensor") 2 "motor" (false, ex_world0)) = Value (Some 5)
  /\ ew_answers (snd (snd (find_spec (ex_library "sensor") 2 "motor" (false, ex_world0)))) = [None].
Proof. vm_compute. auto. Qed.

(** ** C77 *)

(** When [ccache] is installed and the interpreter knows its compilers: the
    compilers are those of the environment if both are there, else those of the
    interpreter; [ccache] is put in front of the first; nothing else changes. *)
Theorem C77_environment_partial : forall cc cxx (e : environment),
  exists e', init_package (Some cc) (Some cxx) true e = (e', false)
  /\ e' "CC"%string = Some ("ccache " ++ match e "CC", e "CXX" with Some c, Some _ => c | _, _ => cc end)%string
  /\ e' "CXX"%string = Some (match e "CC"%string, e "CXX"%string with Some _, Some x => x | _, _ => cxx end)
  /\ forall n, n <> "CC"%string -> n <> "CXX"%string -> e' n = e n.
Proof.
  intros cc cxx e. unfold init_package.
  destruct (e "CC"%string) as [c|] eqn:Ec; destruct (e "CXX"%string) as [x|] eqn:Ex; cbn [snd fst];
    rewrite ?Ec; unfold put_env; cbn [String.eqb Ascii.eqb Bool.eqb]; eexists; (split; [reflexivity|]);
    cbn [String.eqb Ascii.eqb Bool.eqb]; rewrite ?Ex; (split; [reflexivity|]); (split; [reflexivity|]);
    intros n H1 H2; apply String.eqb_neq in H1, H2; rewrite ?H1, ?H2; reflexivity.
Qed.

(** Without [ccache] the package cannot be imported. *)
Theorem C77_ccache : forall cc cxx e, snd (init_package cc cxx false e) = true.
Proof.
  intros cc cxx e. unfold init_package.
  destruct (e "CC"%string), (e "CXX"%string), cc, cxx; reflexivity.
Qed.

(** The import raises if and only if [ccache] is not installed, or a compiler is
    missing in the environment and the interpreter does not know both of its own. *)
Theorem C77_raises : forall cc cxx ccache (e : environment),
  snd (init_package cc cxx ccache e) = true
  <-> ccache = false \/ ((e "CC"%string = None \/ e "CXX"%string = None) /\ (cc = None \/ cxx = None)).
Proof.
  intros cc cxx ccache e. unfold init_package, put_env.
  destruct (e "CC"%string) as [c|] eqn:Ec, (e "CXX"%string) as [x|] eqn:Ex, cc as [c'|], cxx as [x'|], ccache;
    cbn [fst snd String.eqb Ascii.eqb Bool.eqb]; rewrite ?Ec; cbn [fst snd]; split; intros H; auto; try discriminate H;
    try (right; split; auto; fail); destruct H as [H|[[H|H] [H'|H']]]; discriminate.
Qed.

(** What an import which raises leaves: the compilers of the interpreter which were
    set before the exception stay in the environment. *)
Theorem C77_failed : forall cc cxx ccache (e e' : environment), init_package cc cxx ccache e = (e', true) ->
  let complete := e "CC"%string <> None /\ e "CXX"%string <> None in
  (complete -> forall n, e' n = e n)
  /\ (~ complete -> cc = None -> forall n, e' n = e n)
  /\ (~ complete -> forall c, cc = Some c -> e' "CC"%string = Some c
        /\ e' "CXX"%string = match cxx with Some x => Some x | None => e "CXX"%string end
        /\ forall n, n <> "CC"%string -> n <> "CXX"%string -> e' n = e n).
Proof.
  intros cc cxx ccache e e' H. cbv zeta.
  destruct (e "CC"%string) as [c|] eqn:Ec, (e "CXX"%string) as [x|] eqn:Ex.
  - unfold init_package in H. rewrite Ec, Ex in H. cbn [fst snd] in H. rewrite Ec in H.
    assert (e' = e) as -> by (destruct ccache; congruence).
    split; [auto|]. split; intros N; exfalso; apply N; split; discriminate.
  - assert (B : ~ (Some c <> None /\ (None : option string) <> None)) by (intros (_ & N); apply N; reflexivity).
    split; [intros K; destruct (B K)|]. 
    unfold init_package in H. rewrite Ec, Ex in H. 
    destruct cc as [c'|]; [|split; [intros _ _ n|discriminate]; cbn [fst snd] in H; congruence].
    split; [discriminate|]. intros _ c0 E0. injection E0 as <-.
    destruct cxx as [x'|]; cbn [fst snd] in H.
    + destruct ccache; [unfold put_env in H; cbn in H; discriminate|].
      assert (e' = put_env "CXX" x' (put_env "CC" c' e)) as -> by congruence. unfold put_env.
      cbn [String.eqb Ascii.eqb Bool.eqb]. do 2 (split; [reflexivity|]).
      intros n H1 H2. apply String.eqb_neq in H1, H2. rewrite H1, H2. reflexivity.
    + assert (e' = put_env "CC" c' e) as -> by congruence. unfold put_env.
      cbn [String.eqb Ascii.eqb Bool.eqb]. do 2 (split; [auto|]).
      intros n H1 H2. apply String.eqb_neq in H1. rewrite H1. reflexivity.
  - assert (B : ~ ((None : option string) <> None /\ Some x <> None)) by (intros (N & _); apply N; reflexivity).
    split; [intros K; destruct (B K)|].
    unfold init_package in H. rewrite Ec, ?Ex in H. 
    destruct cc as [c'|]; [|split; [intros _ _ n|discriminate]; cbn [fst snd] in H; congruence].
    split; [discriminate|]. intros _ c0 E0. injection E0 as <-.
    destruct cxx as [x'|]; cbn [fst snd] in H.
    + destruct ccache; [unfold put_env in H; cbn in H; discriminate|].
      assert (e' = put_env "CXX" x' (put_env "CC" c' e)) as -> by congruence. unfold put_env.
      cbn [String.eqb Ascii.eqb Bool.eqb]. do 2 (split; [reflexivity|]).
      intros n H1 H2. apply String.eqb_neq in H1, H2. rewrite H1, H2. reflexivity.
    + assert (e' = put_env "CC" c' e) as -> by congruence. unfold put_env.
      cbn [String.eqb Ascii.eqb Bool.eqb]. do 2 (split; [auto|]).
      intros n H1 H2. apply String.eqb_neq in H1. rewrite H1. reflexivity.
  - assert (B : ~ ((None : option string) <> None /\ (None : option string) <> None)) by (intros (_ & N); apply N; reflexivity).
    split; [intros K; destruct (B K)|].
    unfold init_package in H. rewrite Ec, ?Ex in H. 
    destruct cc as [c'|]; [|split; [intros _ _ n|discriminate]; cbn [fst snd] in H; congruence].
    split; [discriminate|]. intros _ c0 E0. injection E0 as <-.
    destruct cxx as [x'|]; cbn [fst snd] in H.
    + destruct ccache; [unfold put_env in H; cbn in H; discriminate|].
      assert (e' = put_env "CXX" x' (put_env "CC" c' e)) as -> by congruence. unfold put_env.
      cbn [String.eqb Ascii.eqb Bool.eqb]. do 2 (split; [reflexivity|]).
      intros n H1 H2. apply String.eqb_neq in H1, H2. rewrite H1, H2. reflexivity.
    + assert (e' = put_env "CC" c' e) as -> by congruence. unfold put_env.
      cbn [String.eqb Ascii.eqb Bool.eqb]. do 2 (split; [auto|]).
      intros n H1 H2. apply String.eqb_neq in H1. rewrite H1. reflexivity.
Qed.

(** The C compiler of the interpreter replaces that of the environment although the
    import fails. *)
Example C77_failed_example :
  let (e', raised) := init_package (Some "gcc"%string) None true (put_env "CC" "clang" (fun _ => None)) in
  raised = true /\ e' "CC"%string = Some "gcc"%string.
Proof. split; reflexivity. Qed.

(** A [CC] alone, and an interpreter which does not know its C++ compiler. *)
Example C77_raises_example :
  snd (init_package (Some "cc"%string) None true (put_env "CC" "clang" (fun _ => None))) = true
  /\ snd (init_package None None true (put_env "CXX" "clang++" (put_env "CC" "clang" (fun _ => None)))) = false.
Proof. split; reflexivity. Qed.

Definition no_environment : environment := fun _ => None.
Example C77_example :
  fst (init_package (Some "gcc"%string) (Some "g++"%string) true no_environment) "CC"%string = Some "ccache gcc"%string
  /\ fst (init_package (Some "gcc"%string) (Some "g++"%string) true (put_env "CXX" "clang++" (put_env "CC" "clang" no_environment))) "CC"%string
     = Some "ccache clang"%string.
Proof. split; reflexivity. Qed.

(** A compiler which is given alone is ignored. *)
Theorem C77_one_compiler_refuted : exists e c, e "CC"%string = Some c
  /\ fst (init_package (Some "gcc"%string) (Some "g++"%string) true e) "CC"%string <> Some ("ccache " ++ c)%string.
Proof. exists (put_env "CC" "clang" no_environment), "clang"%string. split; [reflexivity|discriminate]. Qed.

(** A process started by one which imported the package inherits its
    environment: when it imports the package, [ccache] is there twice. *)
Theorem C77_twice_refuted : exists e, let once := fst (init_package (Some "gcc"%string) (Some "g++"%string) true e) in
  fst (init_package (Some "gcc"%string) (Some "g++"%string) true once) "CC"%string = Some "ccache ccache gcc"%string.
Proof. exists no_environment. reflexivity. Qed.

Print Assumptions C76_find_spec.
Print Assumptions C76_history.
Print Assumptions C76_concurrent_refuted.
Print Assumptions C77_environment_partial.
Print Assumptions C77_ccache.
Print Assumptions C77_raises.
Print Assumptions C77_failed.
Print Assumptions C77_one_compiler_refuted.
Print Assumptions C77_twice_refuted.
