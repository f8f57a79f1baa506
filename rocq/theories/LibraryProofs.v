(** The statements of Library.v, run by the interpreter of Templates.v, do what the
    definitions of Serial.v, TupleModel.v and Rpc.v say. *)

From Coq Require Import List ZArith Bool Arith String Lia ZifyBool ZifyNat.
From Verif Require Import Base CInt IntModel Spec Conditions TypeLevel Serial TupleModel Rpc
  MemFacts IntProofs TypeLevelProofs SerialProofs Bounds Templates Library.
From Verif Require Cpp Source PropertiesSource TupleProofs.
Import ListNotations.
Open Scope string_scope.
Open Scope list_scope.
Open Scope nat_scope.

(** A type whose arrays and objects are not larger than what [std::size_t] and its
    signed counterpart can count, on a host with a [std::size_t] of [sz] bytes. *)
Fixpoint countable (sz : nat) (t : ty) : Prop :=
  match t with
  | TArr t' n => countable sz t' /\ (Z.of_nat (n * sizeof t') < space sz)%Z
  | TUser _ fs =>
      fold_right (fun f acc => countable sz f /\ acc) True fs /\ (Z.of_nat (tuple_size fs) < half sz)%Z
  | _ => True
  end.

(** The longest loop run for a type. *)
Fixpoint longest (t : ty) : nat :=
  match t with
  | TArr t' n => Nat.max n (longest t')
  | TUser _ fs => list_max (map longest fs)
  | _ => 8
  end.

Lemma countable_user : forall sz s fs, countable sz (TUser s fs)
  <-> Forall (countable sz) fs /\ (Z.of_nat (tuple_size fs) < half sz)%Z.
Proof.
  intros sz s fs. cbn [countable]. split; intros [H H']; split; auto.
  - induction fs; cbn [fold_right] in H; constructor; try tauto. apply IHfs; [tauto|].
    unfold tuple_size in *. rewrite sum17_list_sum in *. cbn [map list_sum fold_right] in H'.
    unfold list_sum. lia.
  - clear H'. induction H; cbn [fold_right]; auto.
Qed.

Lemma longest_fields : forall fs n, list_max (map longest fs) <= n <-> Forall (fun f => longest f <= n) fs.
Proof.
  intros fs n. rewrite list_max_le, Forall_map. reflexivity.
Qed.

Lemma element_offset_within : forall ts i, i <= List.length ts ->
  exists o, element_offset ts i = Ok o /\ o <= tuple_size ts.
Proof.
  intros ts i Hi. unfold element_offset. rewrite clip17_ok by (rewrite map_length; lia).
  eexists. split; [reflexivity|]. unfold tuple_size. rewrite !sum17_list_sum. cbn [skipn].
  rewrite <- (firstn_skipn i (map serialization_size ts)) at 2. rewrite list_sum_app. lia.
Qed.

(** ** Arrays of bytes *)

Lemma set_region_length : forall mem r bs, List.length (set_region r bs mem) = List.length mem.
Proof. induction mem; intros [|r] bs; cbn [set_region List.length]; auto. Qed.

Lemma set_region_get : forall mem r bs bs', nth_error mem r = Some bs' ->
  nth_error (set_region r bs mem) r = Some bs.
Proof. induction mem; intros [|r] bs bs' H; try discriminate; cbn in *; eauto. Qed.

Lemma set_region_same : forall mem r bs, nth_error mem r = Some bs -> set_region r bs mem = mem.
Proof.
  induction mem; intros [|r] bs H; try discriminate; cbn [set_region nth_error] in *.
  - congruence.
  - rewrite IHmem; auto.
Qed.

Lemma set_region_twice : forall mem r bs bs', set_region r bs (set_region r bs' mem) = set_region r bs mem.
Proof. induction mem; intros [|r] bs bs'; cbn [set_region]; auto. rewrite IHmem. auto. Qed.

Lemma set_region_app : forall mem r bs l, r < List.length mem ->
  set_region r bs (mem ++ l) = set_region r bs mem ++ l.
Proof.
  induction mem; intros [|r] bs l H; cbn [List.length] in H; try lia; cbn [set_region app]; auto.
  rewrite IHmem by lia. auto.
Qed.

Lemma set_region_last : forall mem bs bs', set_region (List.length mem) bs (mem ++ [bs']) = mem ++ [bs].
Proof. induction mem; intros; cbn [set_region List.length app]; auto. rewrite IHmem. auto. Qed.

Lemma last_region : forall (mem : list (list Z)) bs, nth_error (mem ++ [bs]) (List.length mem) = Some bs.
Proof. intros. rewrite nth_error_app2, Nat.sub_diag by lia. reflexivity. Qed.

Lemma region_ok : forall mem r bs, nth_error mem r = Some bs -> region r mem = Ok bs.
Proof. intros mem r bs H. unfold region. rewrite H. reflexivity. Qed.

Lemma bind_assoc : forall (A B C : Type) (a : res A) (f : A -> res B) (g : B -> res C),
  bind (bind a f) g = bind a (fun x => bind (f x) g).
Proof. intros. destruct a; reflexivity. Qed.

Lemma bind_ext : forall (A B : Type) (a : res A) (f g : A -> res B),
  (forall x, a = Ok x -> f x = g x) -> bind a f = bind a g.
Proof. intros A B a f g H. destruct a; cbn [bind]; auto. Qed.

(** ** The interpreter *)

Section Proofs.
  Variable p : platform.
  Variable sz fuel : nat.
  Context {X : Type}.
  Variable src : source X.
  Variable dest : destination X.
  Variable ftor : list val -> X -> X * val.
  Variable e : endianess.
  Variable m : signed_mode.
  Hypothesis Hh : PropertiesSource.host_sizes p sz.

  Notation ev := (eval p sz fuel src dest ftor).
  Notation ex := (exec p sz fuel src dest ftor).

  Lemma size_ok : forall n, (Z.of_nat n < space sz)%Z -> size_value sz (Z.of_nat n) = Size (Z.of_nat n).
  Proof.
    intros n H. unfold size_value. rewrite conv_unsigned, Z.mod_small by lia. reflexivity.
  Qed.

  Lemma half_space : (half sz < space sz)%Z.
  Proof.
    destruct Hh as [_ [H _]]. pose proof (half_pos sz ltac:(lia)). pose proof (space_half sz ltac:(lia)). lia.
  Qed.

  Lemma back_ok : forall (st : state X) l w o,
    back st (Ok (mk_state l (st_memory st) w, o))
    = Ok (mk_state (st_locals st) (st_memory st) w, match o with Next => Nothing | Returned v => v end).
  Proof. intros. unfold back. cbn [bind]. rewrite firstn_all. reflexivity. Qed.

  Lemma state_eta : forall st : state X, mk_state (st_locals st) (st_memory st) (st_world st) = st.
  Proof. intros []. reflexivity. Qed.

  (** ** Equations *)

  Lemma ev_var : forall x st v, Cpp.lookup x (st_locals st) = Some v -> ev (Var x) st = Ok (st, v).
  Proof. intros x st v H. cbn. rewrite H. reflexivity. Qed.

  Lemma ev_constant : forall n st, (Z.of_nat n < space sz)%Z ->
    ev (Constant (Ok n)) st = Ok (st, Size (Z.of_nat n)).
  Proof. intros n st H. cbn. rewrite size_ok by auto. reflexivity. Qed.

  Lemma ev_plus : forall a b st, ev (Plus a b) st
    = ('(st1, v) <- ev a st;; '(st2, w) <- ev b st1;; r <- plus sz v w;; Ok (st2, r)).
  Proof. reflexivity. Qed.
  Lemma ev_times : forall a b st, ev (Times a b) st
    = ('(st1, v) <- ev a st;; '(st2, w) <- ev b st1;;
       match v, w with Size x, Size y => Ok (st2, size_value sz (x * y)) | _, _ => Fault TypeMismatch end).
  Proof. reflexivity. Qed.
  Lemma ev_less : forall a b st, ev (Less a b) st
    = ('(st1, v) <- ev a st;; '(st2, w) <- ev b st1;;
       match v, w with Size x, Size y => Ok (st2, Boolean (x <? y)%Z) | _, _ => Fault TypeMismatch end).
  Proof. reflexivity. Qed.
  Lemma ev_different : forall a b st, ev (Different a b) st
    = ('(st1, v) <- ev a st;; '(st2, w) <- ev b st1;; r <- different v w;; Ok (st2, Boolean r)).
  Proof. reflexivity. Qed.
  Lemma ev_next : forall a b st, ev (NextOf a b) st
    = ('(st1, v) <- ev a st;; '(st2, w) <- ev b st1;; r <- next_of sz v w;; Ok (st2, r)).
  Proof. reflexivity. Qed.
  Lemma ev_deref : forall a st, ev (Deref a) st
    = ('(st1, v) <- ev a st;;
       match v with
       | Address r i => bs <- region r (st_memory st1);; b <- load bs i;; Ok (st1, Byte b)
       | Null => Fault NullDeref
       | _ => Fault TypeMismatch
       end).
  Proof. reflexivity. Qed.
  Lemma ev_member : forall a i st, ev (Member a i) st
    = ('(st1, v) <- ev a st;; o <- to_object v;;
       match o with
       | VList vs => o' <- Cpp.need (nth_error vs i);; Ok (st1, Object o')
       | VInt _ => Fault TypeMismatch
       end).
  Proof. reflexivity. Qed.
  Lemma ev_element : forall n a i st, ev (Element n a i) st
    = ('(st1, v) <- ev a st;; '(st2, w) <- ev i st1;; o <- to_object v;;
       match o, w with
       | VList vs, Size z =>
           if n <=? Z.to_nat z then Fault OutOfBounds
           else o' <- Cpp.need (nth_error vs (Z.to_nat z));; Ok (st2, Object o')
       | _, _ => Fault TypeMismatch
       end).
  Proof. reflexivity. Qed.

  (** The arguments of a call or the elements of a pack. *)
  Fixpoint evs (es : list expr) (st : state X) : res (state X * list val) :=
    match es with
    | [] => Ok (st, [])
    | e :: es' =>
        '(st1, v) <- ev e st;;
        o <- to_object v;;
        '(st2, os) <- evs es' st1;;
        Ok (st2, o :: os)
    end.
  Lemma ev_pack : forall es st, ev (Pack es) st = ('(st1, vs) <- evs es st;; Ok (st1, Object (VList vs))).
  Proof. reflexivity. Qed.
  Lemma ev_functor : forall es st, ev (Functor es) st
    = ('(st1, vs) <- evs es st;; let (x, r) := ftor vs (st_world st1) in Ok (with_world x st1, Object r)).
  Proof. reflexivity. Qed.

  Lemma ev_call1 : forall x a body st st1 v, ev a st = Ok (st1, v) ->
    ev (Call [(x, a)] body) st = back st1 (ex body (mk_state [(x, v)] (st_memory st1) (st_world st1))).
  Proof.
    intros x a body st st1 v H.
    change (ev (Call [(x, a)] body) st)
      with ('(st1, vs) <- ('(st1, v) <- ev a st;; '(st2, vs) <- Ok (st1, @nil (string * value));; Ok (st2, (x, v) :: vs));;
            back st1 (ex body (mk_state vs (st_memory st1) (st_world st1)))).
    rewrite H. reflexivity.
  Qed.
  Lemma ev_call2 : forall x y a b body st st1 st2 v w, ev a st = Ok (st1, v) -> ev b st1 = Ok (st2, w) ->
    ev (Call [(x, a); (y, b)] body) st
    = back st2 (ex body (mk_state [(x, v); (y, w)] (st_memory st2) (st_world st2))).
  Proof.
    intros x y a b body st st1 st2 v w H H'.
    change (ev (Call [(x, a); (y, b)] body) st)
      with ('(st1, vs) <- ('(st1, v) <- ev a st;;
              '(st2, vs) <- ('(st1, v) <- ev b st1;; '(st2, vs) <- Ok (st1, @nil (string * value));; Ok (st2, (y, v) :: vs));;
              Ok (st2, (x, v) :: vs));;
            back st1 (ex body (mk_state vs (st_memory st1) (st_world st1)))).
    rewrite H. cbn [bind]. rewrite H'. reflexivity.
  Qed.
  Lemma ev_call3 : forall x y z a b c body st st1 st2 st3 v w u,
    ev a st = Ok (st1, v) -> ev b st1 = Ok (st2, w) -> ev c st2 = Ok (st3, u) ->
    ev (Call [(x, a); (y, b); (z, c)] body) st
    = back st3 (ex body (mk_state [(x, v); (y, w); (z, u)] (st_memory st3) (st_world st3))).
  Proof.
    intros x y z a b c body st st1 st2 st3 v w u H H' H''.
    change (ev (Call [(x, a); (y, b); (z, c)] body) st)
      with ('(st1, vs) <- ('(st1, v) <- ev a st;;
              '(st2, vs) <- ('(st1, v) <- ev b st1;;
                '(st2, vs) <- ('(st1, v) <- ev c st1;; '(st2, vs) <- Ok (st1, @nil (string * value));; Ok (st2, (z, v) :: vs));;
                Ok (st2, (y, v) :: vs));;
              Ok (st2, (x, v) :: vs));;
            back st1 (ex body (mk_state vs (st_memory st1) (st_world st1)))).
    rewrite H. cbn [bind]. rewrite H'. cbn [bind]. rewrite H''. reflexivity.
  Qed.

  Lemma ex_seq : forall a b st, ex (Seq a b) st
    = ('(st1, o) <- ex a st;; match o with Next => ex b st1 | Returned _ => Ok (st1, o) end).
  Proof. reflexivity. Qed.
  Lemma ex_auto : forall x a st, ex (Auto x a) st
    = ('(st1, v) <- ev a st;; v' <- copied v;; Ok (declare x v' st1, Next)).
  Proof. reflexivity. Qed.
  Lemma ex_assign : forall x a st, ex (Assign x a) st = ('(st1, v) <- ev a st;; Ok (assign x v st1, Next)).
  Proof. reflexivity. Qed.
  Lemma ex_expr : forall a st, ex (Expr a) st = ('(st1, _) <- ev a st;; Ok (st1, Next)).
  Proof. reflexivity. Qed.
  Lemma ex_return : forall a st, ex (Return a) st
    = ('(st1, v) <- ev a st;; v' <- copied v;; Ok (st1, Returned v')).
  Proof. reflexivity. Qed.
  Lemma ex_for : forall cond step body st, ex (For cond step body) st
    = loop fuel (fun st => truth (ev cond st))
        (fun st => '(st1, o) <- ex body st;; match o with Next => ex step st1 | Returned _ => Ok (st1, o) end) st.
  Proof. reflexivity. Qed.
  Lemma ex_element : forall x i a st, ex (AssignElement x i a) st
    = ('(st1, v) <- ev a st;; '(st2, w) <- ev i st1;; o <- to_object v;;
       a <- Cpp.need (Cpp.lookup x (st_locals st2));;
       match a, w with
       | Array l, Size z => l' <- set_element l (Z.to_nat z) o;; Ok (assign x (Array l') st2, Next)
       | _, _ => Fault TypeMismatch
       end).
  Proof. reflexivity. Qed.
  Lemma ex_at : forall ptr a st, ex (AssignAt ptr a) st
    = ('(st1, v) <- ev a st;; '(st2, w) <- ev ptr st1;;
       match v, w with
       | Byte b, Address r i =>
           bs <- region r (st_memory st2);; bs' <- store bs i b;; Ok (with_region r bs' st2, Next)
       | Byte _, Null => Fault NullDeref
       | _, _ => Fault TypeMismatch
       end).
  Proof. reflexivity. Qed.
  Lemma ex_dest : forall a st, ex (CallDest a) st
    = ('(st1, v) <- ev a st;;
       match v with
       | Byte b => x <- dest b (st_world st1);; Ok (with_world x st1, Next)
       | _ => Fault TypeMismatch
       end).
  Proof. reflexivity. Qed.
  Lemma ex_bytes : forall x n st, ex (DeclareBytes x n) st
    = Ok (mk_state ((x, Address (List.length (st_memory st)) 0) :: st_locals st)
            (st_memory st ++ [indet_bytes p n]) (st_world st), Next).
  Proof. reflexivity. Qed.

  (** ** Reading *)

  (** The function [body] called with an iterator [it] reads as [R] says. *)
  Definition reader (it : string) (body : stmt) (R : list Z -> nat -> res val) : Prop :=
    forall st r off bs, nth_error (st_memory st) r = Some bs ->
      back st (ex body (mk_state [(it, Address r off)] (st_memory st) (st_world st)))
      = (v <- R bs off;; Ok (st, Object v)).

  (** A call of such a function. *)
  Lemma ev_reader : forall it body R a st r off bs, reader it body R ->
    ev a st = Ok (st, Address r off) -> nth_error (st_memory st) r = Some bs ->
    ev (Call [(it, a)] body) st = (v <- R bs off;; Ok (st, Object v)).
  Proof. intros it body R a st r off bs H Ha Hr. rewrite (ev_call1 _ _ _ _ _ _ Ha). apply H; auto. Qed.

  (** A function which only returns what it gets. *)
  Lemma back_return : forall (st : state X) a l w (r : res val),
    ev a (mk_state l (st_memory st) w) = (v <- r;; Ok (mk_state l (st_memory st) w, Object v)) ->
    back st (ex (Return a) (mk_state l (st_memory st) w))
    = (v <- r;; Ok (mk_state (st_locals st) (st_memory st) w, Object v)).
  Proof.
    intros st a l w r H. rewrite ex_return, H. destruct r as [v|f]; [|reflexivity].
    cbn [bind copied]. apply back_ok.
  Qed.

  Lemma next_ok : forall r off n, (Z.of_nat n < half sz)%Z ->
    next_of sz (Address r off) (Size (Z.of_nat n)) = Ok (Address r (off + n)).
  Proof.
    intros r off n H. unfold next_of. rewrite conv_signed_range.
    - destruct (Z.ltb_spec (Z.of_nat off + Z.of_nat n) 0); [lia|]. do 2 f_equal. lia.
    - destruct Hh. lia.
    - destruct Hh. pose proof (half_pos sz ltac:(lia)). lia.
  Qed.

  Lemma get_reader : forall o it body R, reader it body R -> (Z.of_nat o < half sz)%Z ->
    reader "src" (get_src (Ok o) it body) (fun bs off => R bs (off + o)).
  Proof.
    intros o it body R H Ho st r off bs Hr. unfold get_src. pose proof half_space.
    etransitivity; [apply (back_return st _ _ _ (R bs (off + o)))|rewrite state_eta; reflexivity].
    erewrite ev_call2; [|apply ev_var; reflexivity|apply ev_constant; lia].
    cbn [st_memory st_world].
    match goal with |- back ?s _ = _ => set (st' := s) end.
    transitivity (v <- R bs (off + o);; Ok (mk_state (st_locals st') (st_memory st') (st_world st'), Object v));
      [|reflexivity].
    apply (back_return st'). eapply ev_reader; [exact H| |exact Hr].
    rewrite ev_next. erewrite ev_var by reflexivity. cbn [bind]. erewrite ev_var by reflexivity. cbn [bind].
    rewrite next_ok by auto. reflexivity.
  Qed.

  Lemma integer_reader : forall t, PropertiesSource.integer_ty t -> 8 <= fuel ->
    reader "sequence" (Return (ReadInteger e m t (Var "sequence"))) (read_as p e m t).
  Proof.
    intros t Ht Hf st r off bs Hr.
    etransitivity; [apply (back_return st _ _ _ (read_as p e m t bs off))|rewrite state_eta; reflexivity].
    change (ev (ReadInteger e m t (Var "sequence")) (mk_state [("sequence", Address r off)] (st_memory st) (st_world st)))
      with (let s := mk_state [("sequence", Address r off)] (st_memory st) (st_world st) in
            bs <- region r (st_memory s);;
            z <- Source.run_read p sz fuel (read_integer p e m t) bs off;; Ok (s, Object (VInt z))).
    cbv zeta. cbn [st_memory]. rewrite (region_ok _ _ _ Hr). cbn [bind].
    rewrite (PropertiesSource.C97_read p sz fuel) by auto.
    change (read_integer p e m t) with (PropertiesSource.read_src p e m t).
    destruct (Source.run_read _ _ _ _ _ _); reflexivity.
  Qed.

  (** The state after [i] elements. *)
  Definition reading (r off : nat) (l : list (option val)) (i : nat) (mem : list (list Z)) (w : X) : state X :=
    mk_state [("i", Size (Z.of_nat i)); ("retval", Array l); ("sequence", Address r off)] mem w.

  Lemma set_element_next : forall vs l v, set_element (map Some vs ++ None :: l) (List.length vs) v
    = Ok (map Some (vs ++ [v]) ++ l).
  Proof.
    induction vs as [|a vs IH]; intros l v; cbn [map List.length set_element app]; auto.
    rewrite IH. reflexivity.
  Qed.

  Lemma complete_all : forall vs, complete (map Some vs) = Ok vs.
  Proof. induction vs; cbn [map complete]; auto. rewrite IHvs. reflexivity. Qed.

  Lemma array_reader : forall t n, reader "sequence" (read_as_src e m t) (read_as p e m t) ->
    1 <= n -> 1 <= sizeof t -> (Z.of_nat (n * sizeof t) < space sz)%Z -> n <= fuel ->
    reader "sequence" (read_as_src e m (TArr t n)) (read_as p e m (TArr t n)).
  Proof.
    intros t n Ht Hn Hs Hsz Hf st r off bs Hr.
    assert (Hn1 : n <= n * sizeof t) by nia.
    assert (Ht1 : sizeof t <= n * sizeof t) by nia.
    rewrite read_as_arr.
    cbn [read_as_src]. rewrite !ex_seq.
    match goal with |- context [ex (DeclareArray "retval" n) ?s] =>
      change (ex (DeclareArray "retval" n) s) with (Ok (declare "retval" (Array (repeat None n)) s, Next)) end.
    cbn [bind]. rewrite ex_seq, ex_auto, ev_constant by (cbn; lia). cbn [bind copied]. rewrite ex_seq.
    match goal with |- context [ex (For ?c ?i ?b) ?s] =>
      change s with (reading r off (repeat None n) 0 (st_memory st) (st_world st)); set (cond := c); set (step := i); set (body := b) end.
    assert (L : forall k f i vs, k <= f -> i = List.length vs -> i + k = n ->
      loop f (fun st => truth (ev cond st))
        (fun st => '(st1, o) <- ex body st;; match o with Next => ex step st1 | Returned _ => Ok (st1, o) end)
        (reading r off (map Some vs ++ repeat None k) i (st_memory st) (st_world st))
      = (ws <- read_loop p e m t bs off k i;;
         Ok (reading r off (map Some (vs ++ ws)) n (st_memory st) (st_world st), Next))).
    { induction k as [|k IH]; intros f i vs Hkf Hi Hik.
      - assert (Hc : truth (ev cond (reading r off (map Some vs ++ repeat None 0) i (st_memory st) (st_world st)))
          = Ok (reading r off (map Some vs ++ repeat None 0) i (st_memory st) (st_world st), false)).
        { unfold cond. rewrite ev_less, (ev_var "i" _ (Size (Z.of_nat i))) by reflexivity. cbn [bind].
          rewrite ev_constant by lia. cbn [bind truth].
          destruct (Z.ltb_spec (Z.of_nat i) (Z.of_nat n)); [lia|reflexivity]. }
        destruct f; cbn [loop]; rewrite Hc; cbn [bind read_loop repeat];
          rewrite !app_nil_r; replace i with n by lia; reflexivity.
      - destruct f as [|f]; [lia|]. cbn [loop].
        set (s := reading r off (map Some vs ++ repeat None (S k)) i (st_memory st) (st_world st)).
        assert (Hc : truth (ev cond s) = Ok (s, true)).
        { unfold cond. rewrite ev_less, (ev_var "i" _ (Size (Z.of_nat i))) by reflexivity. cbn [bind].
          rewrite ev_constant by lia. cbn [bind truth].
          destruct (Z.ltb_spec (Z.of_nat i) (Z.of_nat n)); [reflexivity|lia]. }
        rewrite Hc. cbn [bind]. unfold body at 1. rewrite ex_element.
        erewrite (ev_reader "sequence" _ _ _ s r (off + i * sizeof t) bs Ht); [| |exact Hr].
        2:{ rewrite ev_plus, (ev_var "sequence" _ (Address r off)) by reflexivity. cbn [bind].
            rewrite ev_times, (ev_var "i" _ (Size (Z.of_nat i))) by reflexivity. cbn [bind].
            rewrite ev_constant by lia. cbn [bind].
            rewrite <- Nat2Z.inj_mul, size_ok by nia. cbn [bind plus]. rewrite Nat2Z.id. reflexivity. }
        change (read_loop p e m t bs off (S k) i)
          with (v <- read_as p e m t bs (off + i * sizeof t);; vs <- read_loop p e m t bs off k (S i);; Ok (v :: vs)).
        destruct (read_as p e m t bs (off + i * sizeof t)) as [v|fl]; cbn [bind]; [|reflexivity].
        rewrite (ev_var "i" _ (Size (Z.of_nat i))) by reflexivity. cbn [bind to_object].
        change (Cpp.lookup "retval" (st_locals s)) with (Some (Array (map Some vs ++ None :: repeat None k))).
        cbn [Cpp.need bind]. rewrite Nat2Z.id, Hi, set_element_next. cbn [bind].
        unfold step at 1. rewrite ex_expr.
        match goal with |- context [ev (PostIncrement "i") ?s1] =>
          change (ev (PostIncrement "i") s1)
            with (Ok (assign "i" (size_value sz (Z.of_nat i + 1)) s1, Size (Z.of_nat i))) end.
        replace (Z.of_nat i + 1)%Z with (Z.of_nat (S i)) by lia. rewrite size_ok by lia. cbn [bind].
        match goal with |- loop f _ _ ?s1 = _ =>
          change s1 with (reading r off (map Some (vs ++ [v]) ++ repeat None k) (S i) (st_memory st) (st_world st)) end.
        rewrite IH; try (rewrite ?app_length; cbn [List.length]; lia).
        rewrite <- Hi, bind_assoc. apply bind_ext. intros ws _. cbn [bind]. rewrite <- app_assoc. reflexivity. }
    rewrite ex_for. specialize (L n fuel 0 [] ltac:(lia) eq_refl ltac:(lia)). cbn [map app] in L. rewrite L.
    destruct (read_loop p e m t bs off n 0) as [ws|fl]; cbn [bind]; [|reflexivity].
    rewrite ex_return, (ev_var "retval" _ (Array (map Some ws))) by reflexivity.
    cbn [bind copied]. rewrite complete_all. cbn [bind].
    unfold reading. rewrite back_ok, state_eta. reflexivity.
  Qed.

  (** The elements [l] of the view, from [i] on. *)
  Definition field_calls (fs : list ty) : list ty -> nat -> list expr :=
    fix gets (l : list ty) (i : nat) : list expr :=
      match l with
      | [] => []
      | f :: l' =>
          Call [("src", Var "src")] (get_src (element_offset fs i) "sequence" (read_as_src e m f)) :: gets l' (S i)
      end.

  Lemma field_calls_ok : forall fs (s : state X) r off bs,
    (Z.of_nat (tuple_size fs) < half sz)%Z ->
    Cpp.lookup "src" (st_locals s) = Some (Address r off) -> nth_error (st_memory s) r = Some bs ->
    forall l i, i + List.length l = List.length fs ->
    Forall (fun f => reader "sequence" (read_as_src e m f) (read_as p e m f)) l ->
    evs (field_calls fs l i) s = (vs <- read_fields p e m fs bs off l i;; Ok (s, vs)).
  Proof.
    intros fs s r off bs Hfs Hsrc Hr. induction l as [|f l IH]; intros i Hi Hl; [reflexivity|].
    cbn [List.length] in Hi. inversion Hl as [|? ? Hf Hl']; subst.
    change (field_calls fs (f :: l) i) with
      (Call [("src", Var "src")] (get_src (element_offset fs i) "sequence" (read_as_src e m f)) :: field_calls fs l (S i)).
    change (read_fields p e m fs bs off (f :: l) i) with
      (o <- element_offset fs i;; v <- read_as p e m f bs (off + o);;
       vs <- read_fields p e m fs bs off l (S i);; Ok (v :: vs)).
    destruct (element_offset_within fs i ltac:(lia)) as (o & Ho & Hle). rewrite Ho. cbn [bind evs].
    erewrite (ev_reader "src" _ _ _ s r off bs (get_reader o _ _ _ Hf ltac:(lia))); [|apply ev_var; auto|auto].
    destruct (read_as p e m f bs (off + o)) as [v|fl]; cbn [bind to_object]; [|reflexivity].
    rewrite IH by (auto; lia). destruct (read_fields _ _ _ _ _ _ _ _); reflexivity.
  Qed.

  Lemma view_ok : forall it size (s : state X) r off,
    (Z.of_nat size < half sz)%Z -> ev it s = Ok (s, Address r off) ->
    ev it (declare "m_begin" (Address r off) s) = Ok (declare "m_begin" (Address r off) s, Address r off) ->
    ex (view_src it size) s
    = Ok (declare "m_end" (Address r (off + size)) (declare "m_begin" (Address r off) s), Next).
  Proof.
    intros it size s r off Hs H1 H2. unfold view_src. pose proof half_space.
    rewrite ex_seq, ex_auto, H1. cbn [bind copied]. rewrite ex_seq, ex_auto, H2. cbn [bind copied].
    rewrite ex_assign, ev_next, (ev_var "m_end" _ (Address r off)) by reflexivity. cbn [bind].
    rewrite ev_constant by lia. cbn [bind]. rewrite next_ok by auto. cbn [bind]. reflexivity.
  Qed.

  Lemma user_reader : forall s fs,
    Forall (fun f => reader "sequence" (read_as_src e m f) (read_as p e m f)) fs ->
    (Z.of_nat (tuple_size fs) < half sz)%Z ->
    reader "sequence" (read_as_src e m (TUser s fs)) (read_as p e m (TUser s fs)).
  Proof.
    intros s fs Hfs Hsz st r off bs Hr. rewrite read_as_user. cbn [read_as_src].
    fold (field_calls fs). rewrite ex_seq.
    erewrite view_ok; [|auto|apply ev_var; reflexivity|apply ev_var; reflexivity]. cbn [bind].
    match goal with |- back st (ex _ ?s) = _ => set (s1 := s) end.
    rewrite bind_assoc.
    change s1 with (mk_state (st_locals s1) (st_memory st) (st_world st)).
    etransitivity; [apply (back_return st _ _ _ (vs <- read_fields p e m fs bs off fs 0;; Ok (VList vs)))|].
    2:{ rewrite state_eta, bind_assoc. reflexivity. }
    change (mk_state (st_locals s1) (st_memory st) (st_world st)) with s1.
    rewrite (ev_call1 _ _ _ _ _ _ (ev_var "m_begin" s1 (Address r off) eq_refl)).
    change (mk_state [("src", Address r off)] (st_memory s1) (st_world s1))
      with (mk_state [("src", Address r off)] (st_memory s1) (st_world s1)).
    rewrite (back_return s1 _ _ _ (vs <- read_fields p e m fs bs off fs 0;; Ok (VList vs))).
    { rewrite state_eta. reflexivity. }
    rewrite ev_pack.
    rewrite (field_calls_ok fs (mk_state [("src", Address r off)] (st_memory s1) (st_world s1)) r off bs); auto.
    rewrite !bind_assoc. reflexivity.
  Qed.

  (** serialization.hpp 59-86 *)
  Theorem read_as_reader : forall t, wf_ty t -> countable sz t -> longest t <= fuel -> 8 <= fuel ->
    reader "sequence" (read_as_src e m t) (read_as p e m t).
  Proof.
    induction t using ty_ind_nested; intros Hw Hc Hl Hf.
    - apply integer_reader; cbn; auto.
    - apply integer_reader; cbn; auto.
    - apply integer_reader; cbn; auto.
    - cbn [wf_ty countable longest] in *. apply array_reader; try tauto; [|lia]. apply IHt; try tauto. lia.
    - apply countable_user in Hc. destruct Hc as [Hc Hsz]. apply (wf_ty_user s) in Hw. cbn [longest] in Hl.
      apply longest_fields in Hl. apply user_reader; auto. rewrite Forall_forall in *. auto.
  Qed.

  (** ** Writing *)

  Definition writer (t : ty) (x it : string) (body : stmt) (W : val -> list Z -> nat -> res (list Z)) : Prop :=
    forall st v r off bs, nth_error (st_memory st) r = Some bs -> has_type t v ->
      back st (ex body (mk_state [(x, Object v); (it, Address r off)] (st_memory st) (st_world st)))
      = (bs' <- W v bs off;; Ok (with_region r bs' st, Nothing)).

  Lemma ev_writer : forall t x it body W a b st v r off bs, writer t x it body W ->
    ev a st = Ok (st, Object v) -> ev b st = Ok (st, Address r off) ->
    nth_error (st_memory st) r = Some bs -> has_type t v ->
    ev (Call [(x, a); (it, b)] body) st = (bs' <- W v bs off;; Ok (with_region r bs' st, Nothing)).
  Proof.
    intros t x it body W a b st v r off bs H Ha Hb Hr Hv. rewrite (ev_call2 _ _ _ _ _ _ _ _ _ _ Ha Hb).
    apply H; auto.
  Qed.

  Lemma back_region : forall (st : state X) l r bs w o,
    back st (Ok (mk_state l (set_region r bs (st_memory st)) w, o))
    = Ok (mk_state (st_locals st) (set_region r bs (st_memory st)) w, match o with Next => Nothing | Returned v => v end).
  Proof.
    intros. unfold back. cbn [bind st_memory]. rewrite firstn_all2 by (rewrite set_region_length; lia). reflexivity.
  Qed.

  Lemma back_expr : forall (st : state X) a l w r (b : res (list Z)) v,
    ev a (mk_state l (st_memory st) w) = (bs <- b;; Ok (with_region r bs (mk_state l (st_memory st) w), v)) ->
    back st (ex (Expr a) (mk_state l (st_memory st) w))
    = (bs <- b;; Ok (mk_state (st_locals st) (set_region r bs (st_memory st)) w, Nothing)).
  Proof.
    intros st a l w r b v H. rewrite ex_expr, H. destruct b as [bs|f]; [|reflexivity].
    cbn [bind]. apply (back_region st).
  Qed.

  Lemma set_setter : forall t o x it body W, writer t x it body W -> (Z.of_nat o < half sz)%Z ->
    forall st v r off bs, nth_error (st_memory st) r = Some bs -> has_type t v ->
    back st (ex (set_src (Ok o) x it body)
               (mk_state [("src", Address r off); ("value", Object v)] (st_memory st) (st_world st)))
    = (bs' <- W v bs (off + o);; Ok (with_region r bs' st, Nothing)).
  Proof.
    intros t o x it body W H Ho st v r off bs Hr Hv. unfold set_src. pose proof half_space.
    apply (back_expr st _ _ _ r (W v bs (off + o)) Nothing).
    erewrite ev_call3; [|apply ev_var; reflexivity|apply ev_var; reflexivity|apply ev_constant; lia].
    cbn [st_memory st_world].
    match goal with |- back ?s _ = _ => set (st' := s) end.
    apply (back_expr st' _ _ _ r (W v bs (off + o)) Nothing).
    eapply ev_writer; [exact H|apply ev_var; reflexivity| |exact Hr|auto].
    rewrite ev_next. erewrite ev_var by reflexivity. cbn [bind]. erewrite ev_var by reflexivity. cbn [bind].
    rewrite next_ok by auto. reflexivity.
  Qed.

  (** The call of [set] for the element at [o]. *)
  Lemma ev_set : forall t o x it body W a b st v r off bs,
    writer t x it body W -> (Z.of_nat o < half sz)%Z ->
    ev a st = Ok (st, Address r off) -> ev b st = Ok (st, Object v) ->
    nth_error (st_memory st) r = Some bs -> has_type t v ->
    ev (Call [("src", a); ("value", b)] (set_src (Ok o) x it body)) st
    = (bs' <- W v bs (off + o);; Ok (with_region r bs' st, Nothing)).
  Proof.
    intros t o x it body W a b st v r off bs H Ho Ha Hb Hr Hv. rewrite (ev_call2 _ _ _ _ _ _ _ _ _ _ Ha Hb).
    apply (set_setter t); auto.
  Qed.

  Lemma integer_writer : forall t, PropertiesSource.integer_ty t -> 8 <= fuel ->
    writer t "x" "sequence" (WriteInteger e m t (Var "x") (Var "sequence")) (write_as p e m t).
  Proof.
    intros t Ht Hf st v r off bs Hr Hv.
    assert (exists z, v = VInt z) as [z ->].
    { destruct t, v; cbn in Ht, Hv; try contradiction; eauto. }
    set (s := mk_state [("x", Object (VInt z)); ("sequence", Address r off)] (st_memory st) (st_world st)).
    change (ex (WriteInteger e m t (Var "x") (Var "sequence")) s)
      with (bs <- region r (st_memory s);;
            bs' <- Source.run_write p sz fuel (write_integer p e m t) (integer_type t) z bs off;;
            Ok (with_region r bs' s, Next)).
    cbn [st_memory s]. rewrite (region_ok _ _ _ Hr). cbn [bind].
    rewrite (PropertiesSource.C97_write p sz fuel) by auto.
    change (write_integer p e m t) with (PropertiesSource.write_src p e m t).
    change (integer_type t) with (PropertiesSource.integer_cty t).
    destruct (Source.run_write _ _ _ _ _ _ _ _) as [bs'|f]; [|reflexivity].
    cbn [bind]. apply (back_region st [("x", Object (VInt z)); ("sequence", Address r off)]).
  Qed.

  (** The state after [i] elements. *)
  Definition writing (vs : list val) (r off i : nat) (mem : list (list Z)) (w : X) : state X :=
    mk_state [("i", Size (Z.of_nat i)); ("x", Object (VList vs)); ("sequence", Address r off)] mem w.

  Lemma array_writer : forall t n, writer t "x" "sequence" (write_as_src e m t) (write_as p e m t) ->
    1 <= n -> 1 <= sizeof t -> (Z.of_nat (n * sizeof t) < space sz)%Z -> n <= fuel ->
    writer (TArr t n) "x" "sequence" (write_as_src e m (TArr t n)) (write_as p e m (TArr t n)).
  Proof.
    intros t n Ht Hn Hs Hsz Hf st v r off bs Hr Hv.
    assert (Hn1 : n <= n * sizeof t) by nia.
    assert (Ht1 : sizeof t <= n * sizeof t) by nia.
    destruct v as [|vs]; [contradiction|]. destruct Hv as [Hlen Hvs].
    rewrite write_as_arr by auto.
    change (write_as_src e m (TArr t n)) with
      (Auto "i" (Constant (Ok 0));;;
       For (Less (Var "i") (Constant (Ok (sizeof (TArr t n) / sizeof t)))) (Expr (PostIncrement "i"))
          (Expr (Call [("x", Element n (Var "x") (Var "i"));
                       ("sequence", Plus (Var "sequence") (Times (Var "i") (Constant (Ok (sizeof t)))))]
                   (write_as_src e m t)))).
    rewrite arr_iterations by auto.
    rewrite !ex_seq, ex_auto, ev_constant by (cbn; lia). cbn [bind copied].
    match goal with |- context [ex (For ?c ?i ?b) ?s] =>
      change s with (writing vs r off 0 (st_memory st) (st_world st)); set (cond := c); set (step := i); set (body := b) end.
    assert (L : forall k f i mem bs, k <= f -> i + k = n -> nth_error mem r = Some bs ->
      loop f (fun st => truth (ev cond st))
        (fun st => '(st1, o) <- ex body st;; match o with Next => ex step st1 | Returned _ => Ok (st1, o) end)
        (writing vs r off i mem (st_world st))
      = (bs' <- write_loop p e m t vs off k i bs;;
         Ok (writing vs r off n (set_region r bs' mem) (st_world st), Next))).
    { induction k as [|k IH]; intros f i mem bs1 Hkf Hik Hr1.
      - assert (Hc : truth (ev cond (writing vs r off i mem (st_world st)))
          = Ok (writing vs r off i mem (st_world st), false)).
        { unfold cond. rewrite ev_less, (ev_var "i" _ (Size (Z.of_nat i))) by reflexivity. cbn [bind].
          rewrite ev_constant by lia. cbn [bind truth].
          destruct (Z.ltb_spec (Z.of_nat i) (Z.of_nat n)); [lia|reflexivity]. }
        destruct f; cbn [loop]; rewrite Hc; cbn [bind write_loop];
          rewrite set_region_same by auto; replace i with n by lia; reflexivity.
      - destruct f as [|f]; [lia|]. cbn [loop].
        set (s := writing vs r off i mem (st_world st)).
        assert (Hc : truth (ev cond s) = Ok (s, true)).
        { unfold cond. rewrite ev_less, (ev_var "i" _ (Size (Z.of_nat i))) by reflexivity. cbn [bind].
          rewrite ev_constant by lia. cbn [bind truth].
          destruct (Z.ltb_spec (Z.of_nat i) (Z.of_nat n)); [reflexivity|lia]. }
        rewrite Hc. cbn [bind]. unfold body at 1. rewrite ex_expr.
        assert (Hi : i < List.length vs) by lia.
        destruct (nth_error vs i) as [v|] eqn:Ev; [|apply nth_error_None in Ev; lia].
        assert (Hv : has_type t v).
        { rewrite Forall_forall in Hvs. apply Hvs. eapply nth_error_In; eauto. }
        erewrite (ev_writer t "x" "sequence" _ _ _ _ s v r (off + i * sizeof t) bs1 Ht); [| | |exact Hr1|exact Hv].
        2:{ rewrite ev_element, (ev_var "x" _ (Object (VList vs))) by reflexivity. cbn [bind].
            rewrite (ev_var "i" _ (Size (Z.of_nat i))) by reflexivity. cbn [bind to_object].
            rewrite Nat2Z.id, Ev. destruct (Nat.leb_spec n i); [lia|]. reflexivity. }
        2:{ rewrite ev_plus, (ev_var "sequence" _ (Address r off)) by reflexivity. cbn [bind].
            rewrite ev_times, (ev_var "i" _ (Size (Z.of_nat i))) by reflexivity. cbn [bind].
            rewrite ev_constant by lia. cbn [bind].
            rewrite <- Nat2Z.inj_mul, size_ok by nia. cbn [bind plus]. rewrite Nat2Z.id. reflexivity. }
        change (write_loop p e m t vs off (S k) i bs1) with
          (match nth_error vs i with
           | None => Fault TypeMismatch
           | Some v => mem' <- write_as p e m t v bs1 (off + i * sizeof t);; write_loop p e m t vs off k (S i) mem'
           end).
        rewrite Ev.
        destruct (write_as p e m t v bs1 (off + i * sizeof t)) as [bs2|fl]; cbn [bind]; [|reflexivity].
        unfold step at 1. rewrite ex_expr.
        match goal with |- context [ev (PostIncrement "i") ?s1] =>
          change (ev (PostIncrement "i") s1)
            with (Ok (assign "i" (size_value sz (Z.of_nat i + 1)) s1, Size (Z.of_nat i))) end.
        replace (Z.of_nat i + 1)%Z with (Z.of_nat (S i)) by lia. rewrite size_ok by lia. cbn [bind].
        match goal with |- loop f _ _ ?s1 = _ =>
          change s1 with (writing vs r off (S i) (set_region r bs2 mem) (st_world st)) end.
        rewrite (IH f (S i) _ bs2); [|lia|lia|eapply set_region_get; eauto].
        apply bind_ext. intros ws _. rewrite set_region_twice. reflexivity. }
    rewrite ex_for, (L n fuel 0 _ bs) by (auto; lia).
    destruct (write_loop p e m t vs off n 0 bs) as [ws|fl]; cbn [bind]; [|reflexivity].
    unfold writing. apply back_region.
  Qed.

  (** The fields [l] of an object, from [i] on. *)
  Definition field_sets (fs : list ty) : list ty -> nat -> stmt :=
    fix sets (l : list ty) (i : nat) : stmt :=
      match l with
      | [] => Skip
      | f :: l' =>
          Expr (Call [("src", Var "m_begin"); ("value", Member (Var "x") i)]
                  (set_src (element_offset fs i) "x" "sequence" (write_as_src e m f)));;;
          sets l' (S i)
      end.

  Lemma field_sets_ok : forall fs vs r off,
    (Z.of_nat (tuple_size fs) < half sz)%Z -> Forall2 has_type fs vs ->
    forall l i (s : state X) bs, skipn i fs = l ->
    Cpp.lookup "m_begin" (st_locals s) = Some (Address r off) ->
    Cpp.lookup "x" (st_locals s) = Some (Object (VList vs)) ->
    nth_error (st_memory s) r = Some bs ->
    Forall (fun f => writer f "x" "sequence" (write_as_src e m f) (write_as p e m f)) l ->
    ex (field_sets fs l i) s
    = (bs' <- write_fields p e m fs vs off l i bs;; Ok (with_region r bs' s, Next)).
  Proof.
    intros fs vs r off Hfs Hvs. induction l as [|f l IH]; intros i s bs Hsk Hb Hx Hr Hl.
    - cbn [field_sets write_fields bind]. unfold with_region. rewrite set_region_same by auto.
      rewrite state_eta. reflexivity.
    - inversion Hl as [|? ? Hf Hl']; subst. destruct (skipn_cons_nth _ _ _ _ _ Hsk) as [Hi Hsk'].
      destruct (Forall2_nth _ _ _ _ _ _ _ Hvs Hi) as (v & Hv & Hty).
      assert (Hlt : i < List.length fs) by (apply nth_error_Some; congruence).
      destruct (element_offset_within fs i ltac:(lia)) as (o & Ho & Hle).
      change (field_sets fs (f :: l) i) with
        (Expr (Call [("src", Var "m_begin"); ("value", Member (Var "x") i)]
                  (set_src (element_offset fs i) "x" "sequence" (write_as_src e m f)));;; field_sets fs l (S i)).
      change (write_fields p e m fs vs off (f :: l) i bs) with
        (match nth_error vs i with
         | None => Fault TypeMismatch
         | Some v => o <- element_offset fs i;; mem' <- write_as p e m f v bs (off + o);;
                     write_fields p e m fs vs off l (S i) mem'
         end).
      rewrite Hv, Ho. cbn [bind]. rewrite ex_seq, ex_expr.
      erewrite (ev_set f o "x" "sequence" _ _ _ _ s v r off bs Hf ltac:(lia)); [|apply ev_var; auto| |auto|auto].
      2:{ rewrite ev_member, (ev_var "x" _ (Object (VList vs))) by auto. cbn [bind to_object].
          rewrite Hv. reflexivity. }
      destruct (write_as p e m f v bs (off + o)) as [bs2|fl]; cbn [bind]; [|reflexivity].
      rewrite (IH (S i) (with_region r bs2 s) bs2); auto.
      + apply bind_ext. intros bs3 _. unfold with_region. cbn [st_memory st_locals st_world].
        rewrite set_region_twice. reflexivity.
      + cbn [with_region st_memory]. eapply set_region_get; eauto.
  Qed.

  Lemma user_writer : forall s fs,
    Forall (fun f => writer f "x" "sequence" (write_as_src e m f) (write_as p e m f)) fs ->
    (Z.of_nat (tuple_size fs) < half sz)%Z ->
    writer (TUser s fs) "x" "sequence" (write_as_src e m (TUser s fs)) (write_as p e m (TUser s fs)).
  Proof.
    intros s fs Hfs Hsz st v r off bs Hr Hv. destruct v as [|vs]; [contradiction|].
    apply has_type_user in Hv. rewrite write_as_user. cbn [write_as_src].
    fold (field_sets fs). rewrite ex_seq.
    erewrite view_ok; [|auto|apply ev_var; reflexivity|apply ev_var; reflexivity]. cbn [bind].
    rewrite (field_sets_ok fs vs r off Hsz Hv fs 0 _ bs) by auto.
    destruct (write_fields p e m fs vs off fs 0 bs) as [bs'|f]; cbn [bind]; [|reflexivity].
    unfold with_region, declare. cbn [st_memory st_locals st_world]. apply back_region.
  Qed.

  (** serialization.hpp 127-149 *)
  Theorem write_as_writer : forall t, wf_ty t -> countable sz t -> longest t <= fuel -> 8 <= fuel ->
    writer t "x" "sequence" (write_as_src e m t) (write_as p e m t).
  Proof.
    induction t using ty_ind_nested; intros Hw Hc Hl Hf.
    - apply integer_writer; cbn; auto.
    - apply integer_writer; cbn; auto.
    - apply integer_writer; cbn; auto.
    - cbn [wf_ty countable longest] in *. apply array_writer; try tauto; [|lia]. apply IHt; try tauto. lia.
    - apply countable_user in Hc. destruct Hc as [Hc Hsz]. apply (wf_ty_user s) in Hw. cbn [longest] in Hl.
      apply longest_fields in Hl. apply user_writer; auto. rewrite Forall_forall in *. auto.
  Qed.

  (** ** Loops over bytes *)

  (** [F j] for [j] = [j], [j + 1], ... *)
  Fixpoint iterate {A : Type} (F : nat -> A -> res A) (k j : nat) (a : A) : res A :=
    match k with
    | 0 => Ok a
    | S k' => a' <- F j a;; iterate F k' (S j) a'
    end.

  Section Range.
    Variable A : Type.
    Variable b n : nat.
    Variable L : A -> list (string * value).
    Variable M : A -> list (list Z).
    Variable W : A -> X.
    Variable body : stmt.
    Variable F : nat -> A -> res A.

    Definition in_range (j : nat) (a : A) : state X :=
      mk_state (("__end", Address b n) :: ("__begin", Address b j) :: L a) (M a) (W a).

    Hypothesis Hbody : forall j a, j < n -> ex body (in_range j a) = (a' <- F j a;; Ok (in_range j a', Next)).

    Lemma range_loop : forall k f j a, k <= f -> j + k = n ->
      loop f (fun st => truth (ev (Different (Var "__begin") (Var "__end")) st))
        (fun st => '(st1, o) <- ex body st;;
                   match o with Next => ex (Expr (PostIncrement "__begin")) st1 | Returned _ => Ok (st1, o) end)
        (in_range j a)
      = (a' <- iterate F k j a;; Ok (in_range n a', Next)).
    Proof.
      induction k as [|k IH]; intros f j a Hf Hj.
      - assert (Hc : truth (ev (Different (Var "__begin") (Var "__end")) (in_range j a)) = Ok (in_range j a, false)).
        { rewrite ev_different, (ev_var "__begin" _ (Address b j)) by reflexivity. cbn [bind].
          rewrite (ev_var "__end" _ (Address b n)) by reflexivity. cbn [bind different].
          replace j with n by lia. rewrite !Nat.eqb_refl. reflexivity. }
        destruct f; cbn [loop]; rewrite Hc; cbn [bind iterate]; replace j with n by lia; reflexivity.
      - destruct f as [|f]; [lia|]. cbn [loop].
        assert (Hc : truth (ev (Different (Var "__begin") (Var "__end")) (in_range j a)) = Ok (in_range j a, true)).
        { rewrite ev_different, (ev_var "__begin" _ (Address b j)) by reflexivity. cbn [bind].
          rewrite (ev_var "__end" _ (Address b n)) by reflexivity. cbn [bind different].
          rewrite Nat.eqb_refl. destruct (Nat.eqb_spec j n); [lia|]. reflexivity. }
        rewrite Hc. cbn [bind iterate]. rewrite Hbody by lia.
        destruct (F j a) as [a'|fl]; cbn [bind]; [|reflexivity].
        rewrite ex_expr.
        change (ev (PostIncrement "__begin") (in_range j a')) with (Ok (in_range (S j) a', Address b j)).
        cbn [bind]. apply IH; lia.
    Qed.

    Lemma range_for_ok : forall first last (s : state X) a, n <= fuel ->
      s = mk_state (L a) (M a) (W a) ->
      ev first s = Ok (s, Address b 0) ->
      ev last (declare "__begin" (Address b 0) s) = Ok (declare "__begin" (Address b 0) s, Address b n) ->
      ex (range_for first last body) s = (a' <- iterate F n 0 a;; Ok (in_range n a', Next)).
    Proof.
      intros first last s a Hn -> H1 H2. unfold range_for.
      rewrite ex_seq, ex_auto, H1. cbn [bind copied]. rewrite ex_seq, ex_auto, H2. cbn [bind copied].
      rewrite ex_for. apply (range_loop n fuel 0 a); lia.
    Qed.
  End Range.

  Lemma end_ok : forall x s b n, Cpp.lookup x (st_locals s) = Some (Address b 0) -> (Z.of_nat n < space sz)%Z ->
    ev (Plus (Var x) (Constant (Ok n))) s = Ok (s, Address b n).
  Proof.
    intros x s b n H Hn. rewrite ev_plus, (ev_var x _ _ H). cbn [bind]. rewrite ev_constant by auto.
    cbn [bind plus]. rewrite Nat2Z.id. reflexivity.
  Qed.

  Lemma store_middle : forall done x rest v, store (done ++ x :: rest) (List.length done) v = Ok (done ++ v :: rest).
  Proof.
    induction done as [|a done IH]; intros x rest v; cbn [app List.length store]; auto.
    rewrite IH. reflexivity.
  Qed.

  Lemma load_middle : forall done x rest, load (done ++ x :: rest) (List.length done) = Ok x.
  Proof. intros. unfold load. rewrite nth_error_app2, Nat.sub_diag by lia. reflexivity. Qed.

  (** serialization.hpp 87-93 *)
  Lemma copy_in : forall bs k rest pos done, List.length rest = k ->
    iterate (fun j a => byte <- load bs (fst a);; buf <- store (snd a) j byte;; Ok (S (fst a), buf))
      k (List.length done) (pos, done ++ rest)
    = (l <- load_range bs pos k;; Ok (pos + k, done ++ l)).
  Proof.
    intros bs. induction k as [|k IH]; intros rest pos done Hl.
    - destruct rest; [|discriminate]. cbn [iterate load_range bind]. rewrite Nat.add_0_r. reflexivity.
    - destruct rest as [|x rest]; [discriminate|]. cbn [List.length] in Hl. cbn [iterate load_range fst snd].
      destruct (load bs pos) as [v|]; cbn [bind]; [|reflexivity].
      rewrite store_middle. cbn [bind].
      replace (S (List.length done)) with (List.length (done ++ [v])) by (rewrite app_length; cbn; lia).
      replace (done ++ v :: rest) with ((done ++ [v]) ++ rest) by (rewrite <- app_assoc; reflexivity).
      rewrite IH by lia. rewrite !bind_assoc. apply bind_ext. intros l _. cbn [bind].
      rewrite <- app_assoc. cbn [app]. replace (S pos + k) with (pos + S k) by lia. reflexivity.
  Qed.

  Lemma copy_out : forall bytes buf bs pos done, buf = done ++ bytes ->
    iterate (fun j a => byte <- load buf j;; bs' <- store (snd a) (fst a) byte;; Ok (S (fst a), bs'))
      (List.length bytes) (List.length done) (pos, bs)
    = (bs' <- store_range bs pos bytes;; Ok (pos + List.length bytes, bs')).
  Proof.
    induction bytes as [|v bytes IH]; intros buf bs pos done ->.
    - cbn [List.length iterate store_range bind]. rewrite Nat.add_0_r. reflexivity.
    - cbn [List.length iterate store_range fst snd]. rewrite load_middle. cbn [bind].
      destruct (store bs pos v) as [bs1|]; cbn [bind]; [|reflexivity].
      replace (S (List.length done)) with (List.length (done ++ [v])) by (rewrite app_length; cbn; lia).
      rewrite IH by (rewrite <- app_assoc; reflexivity). apply bind_ext. intros bs2 _.
      replace (S pos + List.length bytes) with (pos + S (List.length bytes)) by lia. reflexivity.
  Qed.

  Lemma copy_fill : forall k j x bs,
    iterate (fun j (a : X * list Z) => '(x, byte) <- src (fst a);; bs <- store (snd a) j byte;; Ok (x, bs)) k j (x, bs)
    = fill src k j x bs.
  Proof.
    induction k as [|k IH]; intros j x bs; cbn [iterate fill fst snd]; auto.
    destruct (src x) as [[x1 v]|]; cbn [bind]; [|reflexivity].
    destruct (store bs j v) as [bs1|]; cbn [bind]; [|reflexivity]. apply IH.
  Qed.

  Lemma copy_put : forall bytes buf x done, buf = done ++ bytes ->
    iterate (fun j x => byte <- load buf j;; dest byte x) (List.length bytes) (List.length done) x
    = put_each dest bytes x.
  Proof.
    induction bytes as [|v bytes IH]; intros buf x done ->; [reflexivity|].
    cbn [List.length iterate put_each]. rewrite load_middle. cbn [bind].
    destruct (dest v x) as [x1|]; cbn [bind]; [|reflexivity].
    replace (S (List.length done)) with (List.length (done ++ [v])) by (rewrite app_length; cbn; lia).
    apply IH. rewrite <- app_assoc. reflexivity.
  Qed.

  Lemma copy_in0 : forall bs k rest pos, List.length rest = k ->
    iterate (fun j a => byte <- load bs (fst a);; buf <- store (snd a) j byte;; Ok (S (fst a), buf)) k 0 (pos, rest)
    = (l <- load_range bs pos k;; Ok (pos + k, l)).
  Proof. intros bs k rest pos H. exact (copy_in bs k rest pos [] H). Qed.

  Lemma copy_out0 : forall bytes bs pos,
    iterate (fun j a => byte <- load bytes j;; bs' <- store (snd a) (fst a) byte;; Ok (S (fst a), bs'))
      (List.length bytes) 0 (pos, bs)
    = (bs' <- store_range bs pos bytes;; Ok (pos + List.length bytes, bs')).
  Proof. intros. exact (copy_out bytes bytes bs pos [] eq_refl). Qed.

  Lemma copy_put0 : forall bytes x,
    iterate (fun j x => byte <- load bytes j;; dest byte x) (List.length bytes) 0 x = put_each dest bytes x.
  Proof. intros. exact (copy_put bytes bytes x [] eq_refl). Qed.

  (** What a type must satisfy. *)
  Definition fits (t : ty) : Prop :=
    wf_ty t /\ countable sz t /\ longest t <= fuel /\ sizeof t <= fuel /\ (Z.of_nat (sizeof t) < space sz)%Z.

  Lemma back_more : forall (st : state X) l w more o,
    back st (Ok (mk_state l (st_memory st ++ more) w, o))
    = Ok (mk_state (st_locals st) (st_memory st) w, match o with Next => Nothing | Returned v => v end).
  Proof.
    intros. unfold back. cbn [bind st_memory]. rewrite firstn_app, Nat.sub_diag, firstn_all. cbn [firstn].
    rewrite app_nil_r. reflexivity.
  Qed.

  Lemma indet_length : forall n, List.length (indet_bytes p n) = n.
  Proof. intros. unfold indet_bytes. rewrite map_length, seq_length. reflexivity. Qed.

  Lemma nth_lt : forall (A : Type) (l : list A) i a, nth_error l i = Some a -> i < List.length l.
  Proof. intros A l i a H. apply nth_error_Some. congruence. Qed.

  Theorem it_reader : forall k t, fits t -> 8 <= fuel ->
    reader (fst (read_it e m k t)) (snd (read_it e m k t)) (fun bs off => read_at p e m k t bs off).
  Proof.
    intros k t (Hw & Hc & Hl & Hs & Hz) Hf. pose proof (read_as_reader t Hw Hc Hl Hf) as R.
    destruct k; cbn [read_it fst snd read_at]; [exact R|].
    intros st r off bs Hr. pose proof (nth_lt _ _ _ _ Hr) as Hlt.
    rewrite ex_seq, ex_bytes. cbn [bind]. rewrite ex_seq.
    erewrite (range_for_ok (nat * list Z) (List.length (st_memory st)) (sizeof t)
      (fun a => [("buf", Address (List.length (st_memory st)) 0); ("it", Address r (fst a))])
      (fun a => st_memory st ++ [snd a]) (fun _ => st_world st) _
      (fun j a => byte <- load bs (fst a);; buf <- store (snd a) j byte;; Ok (S (fst a), buf))
      ) with (a := (off, indet_bytes p (sizeof t))).
    - rewrite copy_in0 by apply indet_length.
      rewrite !bind_assoc. destruct (load_range bs off (sizeof t)) as [l|f]; cbn [bind]; [|reflexivity].
      cbn [app fst snd]. unfold in_range. cbn [fst snd].
      rewrite ex_return.
      erewrite (ev_reader "sequence" _ _ _ _ (List.length (st_memory st)) 0 l R);
        [|apply ev_var; reflexivity|apply last_region].
      rewrite !bind_assoc. destruct (read_as p e m t l 0) as [v|f]; cbn [bind copied]; [|reflexivity].
      rewrite back_more, state_eta. reflexivity.
    - intros j a Hj. rewrite ex_at, ev_deref. unfold in_range.
      match goal with |- context [ev (PostIncrement "it") ?s] =>
        change (ev (PostIncrement "it") s) with (Ok (assign "it" (Address r (S (fst a))) s, Address r (fst a))) end.
      unfold assign; cbn [bind st_memory st_locals st_world Cpp.update String.eqb Ascii.eqb Bool.eqb]. rewrite (region_ok (st_memory st ++ [snd a]) r bs) by (rewrite nth_error_app1; auto).
      cbn [bind]. destruct (load bs (fst a)) as [byte|f]; cbn [bind]; [|reflexivity].
      erewrite ev_var by reflexivity. cbn [bind st_memory]. rewrite (region_ok _ _ _ (last_region _ _)). cbn [bind].
      destruct (store (snd a) j byte) as [buf|f]; cbn [bind]; [|reflexivity].
      unfold with_region. cbn [st_memory st_locals st_world]. rewrite set_region_last. reflexivity.
    - auto.
    - reflexivity.
    - apply ev_var. reflexivity.
    - apply end_ok; auto.
  Qed.

  Lemma write_as_length : forall t, wf_ty t -> forall v mem off mem',
    write_as p e m t v mem off = Ok mem' -> List.length mem' = List.length mem.
  Proof.
    induction t using ty_ind_nested; intros Hw v mem off mem' H0.
    - destruct v as [z|]; [|discriminate]. cbn [write_as] in H0. apply to_endianess_inv in H0; cbn; lia.
    - destruct v as [z|]; [|discriminate]. cbn [write_as wf_ty] in *. apply to_endianess_inv in H0; cbn [sizeof]; lia.
    - destruct v as [z|]; [|discriminate]. cbn [write_as wf_ty] in *.
      apply bind_ok in H0. destruct H0 as (u & _ & H0). apply to_endianess_inv in H0; cbn [sizeof]; lia.
    - destruct v as [|vs]; [discriminate|]. cbn [wf_ty] in Hw. destruct Hw as (Hn & Hs & Hw).
      rewrite write_as_arr in H0 by auto. clear Hn. revert H0. generalize 0 as i.
      revert mem. induction n as [|n IHn]; intros mem i H0.
      + cbn in H0. congruence.
      + change (write_loop p e m t vs off (S n) i mem) with
          (match nth_error vs i with
           | None => Fault TypeMismatch
           | Some v => mem' <- write_as p e m t v mem (off + i * sizeof t);; write_loop p e m t vs off n (S i) mem'
           end) in H0.
        destruct (nth_error vs i); [|discriminate]. apply bind_ok in H0. destruct H0 as (m1 & H1 & H2).
        apply IHn in H2. apply IHt in H1; auto. lia.
    - destruct v as [|vs]; [discriminate|]. apply (wf_ty_user s) in Hw. rewrite write_as_user in H0.
      revert H0. generalize 0 as i. assert (G : forall l, Forall wf_ty l ->
        Forall (fun t => wf_ty t -> forall v mem off mem', write_as p e m t v mem off = Ok mem' ->
                  List.length mem' = List.length mem) l ->
        forall i mem, write_fields p e m fs vs off l i mem = Ok mem' -> List.length mem' = List.length mem).
      { induction l as [|f l IH]; intros Hwl Hl i mem0 H0.
        - cbn in H0. congruence.
        - change (write_fields p e m fs vs off (f :: l) i mem0) with
            (match nth_error vs i with
             | None => Fault TypeMismatch
             | Some v => o <- element_offset fs i;; mem' <- write_as p e m f v mem0 (off + o);;
                         write_fields p e m fs vs off l (S i) mem'
             end) in H0.
          inversion Hwl; inversion Hl; subst.
          destruct (nth_error vs i); [|discriminate]. apply bind_ok in H0. destruct H0 as (o & _ & H0).
          apply bind_ok in H0. destruct H0 as (m1 & H1 & H2). apply IH in H2; auto.
          rewrite H2. eauto. }
      intros i H0. eapply G; eauto.
  Qed.

  Theorem it_writer : forall k t, fits t -> 8 <= fuel ->
    writer t (fst (fst (write_it e m k t))) (snd (fst (write_it e m k t))) (snd (write_it e m k t))
      (fun v bs off => write_at p e m k t v bs off).
  Proof.
    intros k t (Hw & Hc & Hl & Hs & Hz) Hf. pose proof (write_as_writer t Hw Hc Hl Hf) as R.
    destruct k; cbn [write_it fst snd write_at]; [exact R|].
    intros st v r off bs Hr Hv. pose proof (nth_lt _ _ _ _ Hr) as Hlt.
    rewrite ex_seq, ex_bytes. cbn [bind]. rewrite ex_seq, ex_expr.
    erewrite (ev_writer t "x" "sequence" _ _ _ _ _ v (List.length (st_memory st)) 0 (indet_bytes p (sizeof t)) R);
      [|apply ev_var; reflexivity|apply ev_var; reflexivity|apply last_region|auto].
    rewrite !bind_assoc. destruct (write_as p e m t v (indet_bytes p (sizeof t)) 0) as [buf|f] eqn:E; cbn [bind]; [|reflexivity].
    apply write_as_length in E; auto. rewrite indet_length in E.
    unfold with_region at 1. cbn [st_memory st_locals st_world]. rewrite set_region_last.
    erewrite (range_for_ok (nat * list Z) (List.length (st_memory st)) (sizeof t)
      (fun a => [("buf", Address (List.length (st_memory st)) 0); ("value", Object v); ("it", Address r (fst a))])
      (fun a => set_region r (snd a) (st_memory st) ++ [buf]) (fun _ => st_world st) _
      (fun j a => byte <- load buf j;; bs' <- store (snd a) (fst a) byte;; Ok (S (fst a), bs'))
      ) with (a := (off, bs)).
    - rewrite <- E at 1. rewrite copy_out0.
      rewrite !bind_assoc. destruct (store_range bs off buf) as [bs'|f]; cbn [bind]; [|reflexivity].
      unfold in_range. cbn [fst snd]. unfold back. cbn [bind st_memory st_world].
      rewrite firstn_app, set_region_length, Nat.sub_diag. cbn [firstn]. rewrite app_nil_r.
      rewrite firstn_all2 by (rewrite set_region_length; lia). reflexivity.
    - intros j [pos b1] Hj. cbn [fst snd]. rewrite ex_at, ev_deref. unfold in_range. cbn [fst snd].
      erewrite ev_var by reflexivity. cbn [bind st_memory].
      rewrite (region_ok _ (List.length (st_memory st)) buf).
      2:{ rewrite nth_error_app2, set_region_length, Nat.sub_diag by (rewrite set_region_length; lia). reflexivity. }
      cbn [bind]. destruct (load buf j) as [byte|f]; cbn [bind]; [|reflexivity].
      match goal with |- context [ev (PostIncrement "it") ?s] =>
        change (ev (PostIncrement "it") s) with (Ok (assign "it" (Address r (S pos)) s, Address r pos)) end.
      unfold assign; cbn [bind st_memory st_locals st_world Cpp.update String.eqb Ascii.eqb Bool.eqb].
      rewrite (region_ok _ r b1).
      2:{ rewrite nth_error_app1 by (rewrite set_region_length; auto). eapply set_region_get; eauto. }
      cbn [bind]. destruct (store b1 pos byte) as [b2|f]; cbn [bind]; [|reflexivity].
      unfold with_region. cbn [st_memory st_locals st_world].
      rewrite set_region_app by (rewrite set_region_length; auto). rewrite set_region_twice. reflexivity.
    - auto.
    - cbn [fst snd]. rewrite set_region_same by auto. reflexivity.
    - apply ev_var. reflexivity.
    - apply end_ok; auto.
  Qed.

  (** ** Tuples *)

  (** What a list of types must satisfy. *)
  Definition all_fit (ts : list ty) : Prop :=
    Forall fits ts /\ tuple_size ts <= fuel /\ (Z.of_nat (tuple_size ts) < half sz)%Z.

  Lemma fit_nth : forall ts i t, Forall fits ts -> nth_error ts i = Some t -> fits t.
  Proof. intros ts i t H Hi. rewrite Forall_forall in H. apply H. eapply nth_error_In; eauto. Qed.

  (** tuple.hpp 131-138 *)
  Theorem tuple_get_reader : forall k ts i t, Forall fits ts -> (Z.of_nat (tuple_size ts) < half sz)%Z ->
    8 <= fuel -> nth_error ts i = Some t ->
    reader "src" (tuple_get_src e m k ts i t) (fun bs off => get p (mk_view k e m ts off) i bs).
  Proof.
    intros k ts i t Hts Hz Hf Hi st r off bs Hr. pose proof (nth_lt _ _ _ _ Hi) as Hlt.
    destruct (element_offset_within ts i ltac:(lia)) as (o & Ho & Hle).
    unfold get. cbn [v_types v_begin v_e v_m v_kind]. rewrite at17_nth_error, Hi, Ho. cbn [bind].
    unfold tuple_get_src. pose proof (it_reader k t (fit_nth _ _ _ Hts Hi) Hf) as R.
    destruct (read_it e m k t) as [it read]. cbn [fst snd] in R. rewrite Ho.
    apply (get_reader o it read _ R); auto. lia.
  Qed.

  (** tuple.hpp 144-151 *)
  Theorem tuple_set_setter : forall k ts i t, Forall fits ts -> (Z.of_nat (tuple_size ts) < half sz)%Z ->
    8 <= fuel -> nth_error ts i = Some t ->
    forall st v r off bs, nth_error (st_memory st) r = Some bs -> has_type t v ->
    back st (ex (tuple_set_src e m k ts i t)
               (mk_state [("src", Address r off); ("value", Object v)] (st_memory st) (st_world st)))
    = (bs' <- set p (mk_view k e m ts off) i v bs;; Ok (with_region r bs' st, Nothing)).
  Proof.
    intros k ts i t Hts Hz Hf Hi st v r off bs Hr Hv. pose proof (nth_lt _ _ _ _ Hi) as Hlt.
    destruct (element_offset_within ts i ltac:(lia)) as (o & Ho & Hle).
    unfold set. cbn [v_types v_begin v_e v_m v_kind]. rewrite at17_nth_error, Hi, Ho. cbn [bind].
    unfold tuple_set_src. pose proof (it_writer k t (fit_nth _ _ _ Hts Hi) Hf) as R.
    destruct (write_it e m k t) as [[x it] write]. cbn [fst snd] in R. rewrite Ho.
    apply (set_setter t o x it write _ R); auto. lia.
  Qed.

  Lemma gets_ok : forall k ts (s : state X) it r off bs, Forall fits ts -> (Z.of_nat (tuple_size ts) < half sz)%Z ->
    8 <= fuel -> ev it s = Ok (s, Address r off) -> nth_error (st_memory s) r = Some bs ->
    forall l i, skipn i ts = l ->
    evs (gets_src e m k ts l i it) s
    = (vs <- get_each p (mk_view k e m ts off) (seq i (List.length l)) bs;; Ok (s, vs)).
  Proof.
    intros k ts s it r off bs Hts Hz Hf Hit Hr. induction l as [|t l IH]; intros i Hsk; [reflexivity|].
    destruct (skipn_cons_nth _ _ _ _ _ Hsk) as [Hi Hsk'].
    cbn [gets_src evs List.length seq get_each].
    erewrite (ev_reader "src" _ _ _ s r off bs (tuple_get_reader k ts i t Hts Hz Hf Hi)); [|auto|auto].
    destruct (get p (mk_view k e m ts off) i bs) as [v|f]; cbn [bind to_object]; [|reflexivity].
    rewrite IH by auto. destruct (get_each _ _ _ _); reflexivity.
  Qed.

  (** tuple.hpp 160-163, 182-185.  A tuple without elements has no bytes. *)
  Theorem invoke_ok : forall k ts a (st : state X) w r off bs,
    Forall fits ts -> (Z.of_nat (tuple_size ts) < half sz)%Z -> 8 <= fuel ->
    ev a st = Ok (st, w) ->
    (ts = [] \/ w = Address r off /\ nth_error (st_memory st) r = Some bs) ->
    ev (Call [("src", a)] (invoke_src e m k ts)) st
    = ('(x, v) <- invoke p (mk_view k e m ts off) ftor bs (st_world st);; Ok (with_world x st, Object v)).
  Proof.
    intros k ts a st w r off bs Hts Hz Hf Ha Hr. rewrite (ev_call1 _ _ _ _ _ _ Ha).
    unfold invoke_src, invoke, make_index_sequence14. cbn [v_types]. rewrite ex_return, ev_functor.
    assert (E : evs (gets_src e m k ts ts 0 (Var "src")) (mk_state [("src", w)] (st_memory st) (st_world st))
      = (vs <- get_each p (mk_view k e m ts off) (seq 0 (List.length ts)) bs;;
         Ok (mk_state [("src", w)] (st_memory st) (st_world st), vs))).
    { destruct Hr as [->|[-> Hr]]; [reflexivity|]. apply (gets_ok k ts _ _ r off bs); auto. }
    rewrite E. destruct (get_each _ _ _ _) as [vs|f]; cbn [bind]; [|reflexivity].
    cbn [st_world]. destruct (ftor vs (st_world st)) as [x v]. cbn [bind copied].
    unfold with_world. cbn [st_memory st_locals]. apply back_ok.
  Qed.

  Lemma sets_ok : forall k ts vs r off, Forall fits ts -> (Z.of_nat (tuple_size ts) < half sz)%Z ->
    8 <= fuel -> Forall2 has_type ts vs ->
    forall l i (s : state X) bs, skipn i ts = l ->
    Cpp.lookup "src" (st_locals s) = Some (Address r off) ->
    Cpp.lookup "args" (st_locals s) = Some (Object (VList vs)) ->
    nth_error (st_memory s) r = Some bs ->
    ex (sets_src e m k ts l i) s
    = (bs' <- lay p (mk_view k e m ts off) (seq i (List.length l)) (skipn i vs) bs;; Ok (with_region r bs' s, Next)).
  Proof.
    intros k ts vs r off Hts Hz Hf Hvs. induction l as [|t l IH]; intros i s bs Hsk Hsrc Hargs Hr.
    - assert (H : skipn i vs = []).
      { apply skipn_all2. rewrite <- (Forall2_length Hvs). pose proof (f_equal (@List.length ty) Hsk) as H.
        rewrite skipn_length in H. cbn [List.length] in H. lia. }
      rewrite H. cbn [sets_src List.length seq lay bind]. unfold with_region. rewrite set_region_same by auto.
      rewrite state_eta. reflexivity.
    - destruct (skipn_cons_nth _ _ _ _ _ Hsk) as [Hi Hsk'].
      destruct (Forall2_nth _ _ _ _ _ _ _ Hvs Hi) as (v & Hv & Hty).
      rewrite (TupleProofs.skipn_nth_cons _ _ _ _ Hv). cbn [List.length seq lay sets_src].
      rewrite ex_seq, ex_expr.
      erewrite ev_call2; [|apply ev_var; eauto|].
      2:{ rewrite ev_member, (ev_var "args" _ (Object (VList vs))) by auto. cbn [bind to_object].
          rewrite Hv. reflexivity. }
      rewrite (tuple_set_setter k ts i t Hts Hz Hf Hi s v r off bs) by auto.
      destruct (set p (mk_view k e m ts off) i v bs) as [bs2|f]; cbn [bind]; [|reflexivity].
      rewrite (IH (S i) (with_region r bs2 s) bs2); auto.
      + apply bind_ext. intros bs3 _. unfold with_region. cbn [st_memory st_locals st_world].
        rewrite set_region_twice. reflexivity.
      + cbn [with_region st_memory]. eapply set_region_get; eauto.
  Qed.

  (** tuple.hpp 168-172 *)
  Theorem lay_ok : forall k ts vs a b (st : state X) r off bs,
    Forall fits ts -> (Z.of_nat (tuple_size ts) < half sz)%Z -> 8 <= fuel -> Forall2 has_type ts vs ->
    ev a st = Ok (st, Address r off) -> ev b st = Ok (st, Object (VList vs)) ->
    nth_error (st_memory st) r = Some bs ->
    ev (Call [("src", a); ("args", b)] (lay_src e m k ts)) st
    = (bs' <- lay p (mk_view k e m ts off) (make_index_sequence14 (List.length ts)) vs bs;;
       Ok (with_region r bs' st, Nothing)).
  Proof.
    intros k ts vs a b st r off bs Hts Hz Hf Hvs Ha Hb Hr. rewrite (ev_call2 _ _ _ _ _ _ _ _ _ _ Ha Hb).
    unfold lay_src, make_index_sequence14.
    rewrite (sets_ok k ts vs r off Hts Hz Hf Hvs ts 0 _ bs) by auto. cbn [skipn].
    destruct (lay _ _ _ _ _) as [bs'|f]; cbn [bind]; [|reflexivity].
    unfold with_region. cbn [st_memory st_locals st_world]. apply back_region.
  Qed.

  (** tuple.hpp 317 *)
  Lemma construct_ok : forall ts vs a b (st : state X) r bs, all_fit ts -> 8 <= fuel -> Forall2 has_type ts vs ->
    ev a st = Ok (st, Address r 0) -> ev b st = Ok (st, Object (VList vs)) ->
    nth_error (st_memory st) r = Some bs ->
    ev (Call [("m_storage", a); ("args", b)] (construct_src e m ts)) st
    = (bs' <- construct p e m ts vs bs;; Ok (with_region r bs' st, Nothing)).
  Proof.
    intros ts vs a b st r bs (Hts & _ & Hz) Hf Hvs Ha Hb Hr. rewrite (ev_call2 _ _ _ _ _ _ _ _ _ _ Ha Hb).
    unfold construct_src, construct, tuple_at.
    apply (back_expr st _ _ _ r (lay p (mk_view Pointer e m ts 0) (make_index_sequence14 (List.length ts)) vs bs) Nothing).
    apply lay_ok; auto.
  Qed.

  Lemma has_type_default : forall t, wf_ty t -> has_type t (default_val t).
  Proof.
    induction t using ty_ind_nested; intros Hw.
    - left. reflexivity.
    - cbn. pose proof (space_pos w). lia.
    - cbn in *. pose proof (half_pos w ltac:(lia)). lia.
    - cbn [default_val has_type wf_ty] in *. rewrite repeat_length. split; auto.
      apply Forall_forall. intros v Hv. apply repeat_spec in Hv. subst. apply IHt. tauto.
    - apply (wf_ty_user s) in Hw. cbn [default_val]. apply has_type_user.
      induction H; cbn [map]; constructor; inversion Hw; auto.
  Qed.

  Lemma evs_literals : forall vs (s : state X), evs (map Literal vs) s = Ok (s, vs).
  Proof.
    induction vs as [|v vs IH]; intros s; [reflexivity|]. cbn [map evs].
    change (ev (Literal v) s) with (Ok (s, Object v)). cbn [bind to_object]. rewrite IH. reflexivity.
  Qed.

  (** tuple.hpp 313 *)
  Lemma default_construct_ok : forall ts a (st : state X) r bs, all_fit ts -> 8 <= fuel ->
    ev a st = Ok (st, Address r 0) -> nth_error (st_memory st) r = Some bs ->
    ev (Call [("m_storage", a)] (default_construct_src e m ts)) st
    = (bs' <- default_construct p e m ts bs;; Ok (with_region r bs' st, Nothing)).
  Proof.
    intros ts a st r bs Hts Hf Ha Hr. rewrite (ev_call1 _ _ _ _ _ _ Ha).
    unfold default_construct_src, default_construct.
    apply (back_expr st _ _ _ r (construct p e m ts (map default_val ts) bs) Nothing).
    apply construct_ok; auto.
    - destruct Hts as [Hts _]. induction Hts as [|t ts Ht Hts IH]; cbn [map]; constructor; auto.
      apply has_type_default. apply Ht.
    - rewrite ev_pack, <- map_map, evs_literals. reflexivity.
  Qed.

  (** The storage of a tuple declared as [x]: none without elements. *)
  Definition stored (ts : list ty) (bs : list Z) (mem : list (list Z)) : list (list Z) :=
    match ts with [] => mem | _ => mem ++ [bs] end.
  (** Its name. *)
  Definition named (x : string) (ts : list ty) (r : nat) (l : list (string * value)) : list (string * value) :=
    match ts with [] => l | _ => (x, Address r 0) :: l end.
  (** After a loop over its bytes. *)
  Definition ranged (ts : list ty) (r : nat) (l : list (string * value)) : list (string * value) :=
    match ts with
    | [] => ("__end", Null) :: ("__begin", Null) :: l
    | _ => ("__end", Address r (tuple_size ts)) :: ("__begin", Address r (tuple_size ts)) :: l
    end.

  Lemma tuple_some : forall x ts es vs l mem w, all_fit ts -> 8 <= fuel -> Forall2 has_type ts vs ->
    (forall bs, let s := mk_state (named x ts (List.length mem) l) (stored ts bs mem) w in evs es s = Ok (s, vs)) ->
    ex (tuple_src e m x ts (Some es)) (mk_state l mem w)
    = (bs <- construct p e m ts vs (indet_bytes p (tuple_size ts));;
       Ok (mk_state (named x ts (List.length mem) l) (stored ts bs mem) w, Next)).
  Proof.
    intros x ts es vs l mem w Hts Hf Hvs Hes. destruct ts as [|t ts].
    - inversion Hvs; subst. reflexivity.
    - unfold tuple_src. rewrite ex_seq, ex_bytes. cbn [bind st_memory st_locals st_world].
      rewrite ex_expr.
      erewrite (construct_ok (t :: ts) vs _ _ _ (List.length mem) (indet_bytes p (tuple_size (t :: ts)))); auto.
      + rewrite !bind_assoc. apply bind_ext. intros bs _. cbn [bind]. unfold with_region.
        cbn [st_memory st_locals st_world]. rewrite set_region_last. reflexivity.
      + apply ev_var. cbn [st_locals Cpp.lookup]. rewrite String.eqb_refl. reflexivity.
      + rewrite ev_pack. specialize (Hes (indet_bytes p (tuple_size (t :: ts)))). cbv zeta in Hes.
        cbn [named stored] in Hes. rewrite Hes. reflexivity.
      + apply last_region.
  Qed.

  Lemma tuple_none : forall x ts l mem w, all_fit ts -> 8 <= fuel ->
    ex (tuple_src e m x ts None) (mk_state l mem w)
    = (bs <- default_construct p e m ts (indet_bytes p (tuple_size ts));;
       Ok (mk_state (named x ts (List.length mem) l) (stored ts bs mem) w, Next)).
  Proof.
    intros x ts l mem w Hts Hf. destruct ts as [|t ts]; [reflexivity|].
    unfold tuple_src. rewrite ex_seq, ex_bytes. cbn [bind st_memory st_locals st_world].
    rewrite ex_expr.
    erewrite (default_construct_ok (t :: ts) _ _ (List.length mem) (indet_bytes p (tuple_size (t :: ts)))); auto.
    + rewrite !bind_assoc. apply bind_ext. intros bs _. cbn [bind]. unfold with_region.
      cbn [st_memory st_locals st_world]. rewrite set_region_last. reflexivity.
    + apply ev_var. cbn [st_locals Cpp.lookup]. rewrite String.eqb_refl. reflexivity.
    + apply last_region.
  Qed.

  (** [for (auto &byte : x) byte = src();] *)
  Lemma read_loop_ok : forall x ts l mem w bs, all_fit ts -> String.eqb x "__begin" = false ->
    ex (read_loop_src x ts) (mk_state (named x ts (List.length mem) l) (stored ts bs mem) w)
    = ('(w1, bs1) <- fill src (tuple_size ts) 0 w bs;;
       Ok (mk_state (ranged ts (List.length mem) (named x ts (List.length mem) l)) (stored ts bs1 mem) w1, Next)).
  Proof.
    intros x ts l mem w bs (Hts & Hn & Hz) Hx. pose proof half_space. unfold read_loop_src.
    destruct ts as [|t ts].
    - cbn [tuple_size map sum17 fill bind begin_src end_src]. unfold range_for.
      rewrite ex_seq. cbn [named stored].
      change (ex (Auto "__begin" Nullptr) (mk_state l mem w)) with (Ok (mk_state (("__begin", Null) :: l) mem w, Next)).
      cbn [bind]. rewrite ex_seq.
      change (ex (Auto "__end" Nullptr) (mk_state (("__begin", Null) :: l) mem w))
        with (Ok (mk_state (("__end", Null) :: ("__begin", Null) :: l) mem w, Next)).
      cbn [bind]. rewrite ex_for.
      assert (Hc : truth (ev (Different (Var "__begin") (Var "__end")) (mk_state (("__end", Null) :: ("__begin", Null) :: l) mem w))
        = Ok (mk_state (("__end", Null) :: ("__begin", Null) :: l) mem w, false)) by reflexivity.
      destruct fuel; cbn [loop]; rewrite Hc; reflexivity.
    - cbn [begin_src end_src named stored ranged].
      erewrite (range_for_ok (X * list Z) (List.length mem) (tuple_size (t :: ts))
        (fun _ => (x, Address (List.length mem) 0) :: l) (fun a => mem ++ [snd a]) fst _
        (fun j a => '(x, byte) <- src (fst a);; bs <- store (snd a) j byte;; Ok (x, bs))) with (a := (w, bs)).
      + rewrite copy_fill. apply bind_ext. intros [w1 bs1] _. reflexivity.
      + intros j [w1 bs1] Hj. rewrite ex_at. cbn [fst snd].
        change (ev CallSrc (in_range (X * list Z) (List.length mem) (tuple_size (t :: ts))
          (fun _ => (x, Address (List.length mem) 0) :: l) (fun a => mem ++ [snd a]) fst j (w1, bs1)))
          with ('(x0, b) <- src w1;;
                Ok (in_range (X * list Z) (List.length mem) (tuple_size (t :: ts))
                      (fun _ => (x, Address (List.length mem) 0) :: l) (fun a => mem ++ [snd a]) fst j (x0, bs1), Byte b)).
        destruct (src w1) as [[w2 b]|f]; cbn [bind]; [|reflexivity].
        erewrite ev_var by reflexivity. unfold in_range. cbn [bind st_memory fst snd].
        rewrite (region_ok _ _ _ (last_region _ _)). cbn [bind].
        destruct (store bs1 j b) as [bs2|f]; cbn [bind]; [|reflexivity].
        unfold with_region. cbn [st_memory st_locals st_world snd fst]. rewrite set_region_last. reflexivity.
      + auto.
      + reflexivity.
      + apply ev_var. cbn [st_locals Cpp.lookup]. rewrite String.eqb_refl. reflexivity.
      + apply end_ok; [|lia]. cbn [declare st_locals Cpp.lookup]. rewrite Hx, String.eqb_refl. reflexivity.
  Qed.

  (** [for (auto byte : x) dest(byte);] *)
  Lemma write_loop_ok : forall x ts l mem w bs, all_fit ts -> String.eqb x "__begin" = false ->
    List.length bs = tuple_size ts ->
    ex (write_loop_src x ts) (mk_state (named x ts (List.length mem) l) (stored ts bs mem) w)
    = (w1 <- put_each dest bs w;;
       Ok (mk_state (ranged ts (List.length mem) (named x ts (List.length mem) l)) (stored ts bs mem) w1, Next)).
  Proof.
    intros x ts l mem w bs (Hts & Hn & Hz) Hx Hlen. pose proof half_space. unfold write_loop_src.
    destruct ts as [|t ts].
    - destruct bs; [|discriminate]. cbn [put_each bind begin_src end_src]. unfold range_for.
      rewrite ex_seq. cbn [named stored].
      change (ex (Auto "__begin" Nullptr) (mk_state l mem w)) with (Ok (mk_state (("__begin", Null) :: l) mem w, Next)).
      cbn [bind]. rewrite ex_seq.
      change (ex (Auto "__end" Nullptr) (mk_state (("__begin", Null) :: l) mem w))
        with (Ok (mk_state (("__end", Null) :: ("__begin", Null) :: l) mem w, Next)).
      cbn [bind]. rewrite ex_for.
      assert (Hc : truth (ev (Different (Var "__begin") (Var "__end")) (mk_state (("__end", Null) :: ("__begin", Null) :: l) mem w))
        = Ok (mk_state (("__end", Null) :: ("__begin", Null) :: l) mem w, false)) by reflexivity.
      destruct fuel; cbn [loop]; rewrite Hc; reflexivity.
    - cbn [begin_src end_src named stored ranged].
      erewrite (range_for_ok X (List.length mem) (tuple_size (t :: ts))
        (fun _ => (x, Address (List.length mem) 0) :: l) (fun _ => mem ++ [bs]) (fun w => w) _
        (fun j x => byte <- load bs j;; dest byte x)) with (a := w).
      + rewrite <- Hlen at 1. rewrite copy_put0. apply bind_ext. intros w1 _. reflexivity.
      + intros j w1 Hj. rewrite ex_dest, ev_deref. erewrite ev_var by reflexivity. unfold in_range.
        cbn [bind st_memory fst snd].
        rewrite (region_ok _ _ _ (last_region _ _)). cbn [bind].
        destruct (load bs j) as [b|f]; cbn [bind]; [|reflexivity]. cbn [st_world].
        destruct (dest b w1) as [w2|f]; cbn [bind]; reflexivity.
      + auto.
      + reflexivity.
      + apply ev_var. cbn [st_locals Cpp.lookup]. rewrite String.eqb_refl. reflexivity.
      + apply end_ok; [|lia]. cbn [declare st_locals Cpp.lookup]. rewrite Hx, String.eqb_refl. reflexivity.
  Qed.

  Lemma lay_length : forall ts, Forall fits ts -> forall off is vs bs bs',
    lay p (mk_view Pointer e m ts off) is vs bs = Ok bs' -> List.length bs' = List.length bs.
  Proof.
    intros ts Hts off. induction is as [|i is IH]; intros [|v vs] bs bs' H; try discriminate; cbn [lay] in H.
    - congruence.
    - apply bind_ok in H. destruct H as (bs1 & H1 & H2). apply IH in H2. rewrite H2.
      unfold set in H1. cbn [v_types v_begin v_e v_m v_kind] in H1. rewrite at17_nth_error in H1.
      destruct (nth_error ts i) as [t|] eqn:Hi; [|discriminate].
      apply bind_ok in H1. destruct H1 as (o & _ & H1). cbn [write_at] in H1.
      eapply write_as_length; eauto. apply (fit_nth _ _ _ Hts Hi).
  Qed.

  Lemma load_all : forall bs, load_range bs 0 (List.length bs) = Ok bs.
  Proof.
    intros bs. assert (G : forall done, load_range (done ++ bs) (List.length done) (List.length bs) = Ok bs).
    { induction bs as [|b bs IH]; intros done; [reflexivity|]. cbn [List.length load_range].
      rewrite load_middle. cbn [bind].
      replace (S (List.length done)) with (List.length (done ++ [b])) by (rewrite app_length; cbn; lia).
      replace (done ++ b :: bs) with ((done ++ [b]) ++ bs) by (rewrite <- app_assoc; reflexivity).
      rewrite IH. reflexivity. }
    apply (G []).
  Qed.

  (** ** Declaring a tuple and reading or writing all of its bytes *)

  Lemma read_tuple_then : forall x ts rest l mem w, all_fit ts -> 8 <= fuel -> String.eqb x "__begin" = false ->
    ex (tuple_src e m x ts None;;; (read_loop_src x ts;;; rest)) (mk_state l mem w)
    = ('(w1, bs) <- read_tuple p e m ts src w;;
       ex rest (mk_state (ranged ts (List.length mem) (named x ts (List.length mem) l)) (stored ts bs mem) w1)).
  Proof.
    intros x ts rest l mem w Hts Hf Hx. rewrite ex_seq, tuple_none by auto. unfold read_tuple.
    rewrite !bind_assoc. apply bind_ext. intros st _. cbn [bind]. rewrite ex_seq, read_loop_ok by auto.
    unfold fill_tuple, v_end, tuple_at. cbn [v_begin v_types Nat.add]. rewrite Nat.sub_0_r.
    rewrite bind_assoc. apply bind_ext. intros [w1 bs] _. reflexivity.
  Qed.

  Lemma write_tuple_then : forall x ts es vs l mem w, all_fit ts -> 8 <= fuel ->
    String.eqb x "__begin" = false -> Forall2 has_type ts vs ->
    (forall bs, let s := mk_state (named x ts (List.length mem) l) (stored ts bs mem) w in evs es s = Ok (s, vs)) ->
    forall (st : state X) more, mem = st_memory st ++ more ->
    back st (ex (tuple_src e m x ts (Some es);;; write_loop_src x ts) (mk_state l mem w))
    = (w1 <- write_tuple p e m ts vs dest w;; Ok (mk_state (st_locals st) (st_memory st) w1, Nothing)).
  Proof.
    intros x ts es vs l mem w Hts Hf Hx Hvs Hes st more Hmem.
    rewrite ex_seq, (tuple_some x ts es vs) by auto. unfold write_tuple.
    destruct (construct p e m ts vs (indet_bytes p (tuple_size ts))) as [bs|f] eqn:E; cbn [bind]; [|reflexivity].
    assert (Hlen : List.length bs = tuple_size ts).
    { unfold construct, tuple_at in E. apply lay_length in E; [|apply Hts]. rewrite E. apply indet_length. }
    rewrite write_loop_ok by auto.
    unfold content, v_end, tuple_at. cbn [v_begin v_types Nat.add]. rewrite Nat.sub_0_r, <- Hlen, load_all. cbn [bind].
    destruct (put_each dest bs w) as [w1|f]; cbn [bind]; [|reflexivity].
    rewrite Hmem. destruct ts as [|t ts]; cbn [stored]; rewrite <- ?app_assoc; apply back_more.
  Qed.

  (** action.hpp 34-41 *)
  Lemma insert_ok : forall t v (st : state X) more w, all_fit [t] -> 8 <= fuel -> has_type t v ->
    back st (ex (insert_src e m t) (mk_state [("value", Object v)] (st_memory st ++ more) w))
    = (w1 <- insert p e m dest t v w;; Ok (mk_state (st_locals st) (st_memory st) w1, Nothing)).
  Proof.
    intros t v st more w Ht Hf Hv. unfold insert_src, insert.
    eapply write_tuple_then; eauto.
  Qed.

  (** The callback of a signature, called on the bytes read. *)
  Lemma invoke_named : forall x ts l mem w bs, all_fit ts -> 8 <= fuel ->
    String.eqb x "__begin" = false -> String.eqb x "__end" = false ->
    let s := mk_state (ranged ts (List.length mem) (named x ts (List.length mem) l)) (stored ts bs mem) w in
    ev (Call [("src", begin_src x ts)] (invoke_src e m Pointer ts)) s
    = ('(w1, v) <- invoke p (tuple_at e m ts 0) ftor bs w;; Ok (with_world w1 s, Object v)).
  Proof.
    intros x ts l mem w bs (Hts & Hn & Hz) Hf Hx1 Hx2 s.
    destruct ts as [|t ts].
    - exact (invoke_ok Pointer [] Nullptr s Null 0 0 bs Hts Hz Hf eq_refl (or_introl eq_refl)).
    - apply (invoke_ok Pointer (t :: ts) (Var x) s (Address (List.length mem) 0) (List.length mem) 0 bs); auto.
      + apply ev_var. cbn [s st_locals ranged named Cpp.lookup]. rewrite Hx1, Hx2, String.eqb_refl. reflexivity.
      + right. split; auto. cbn [s st_memory stored]. apply last_region.
  Qed.

  (** What a signature must satisfy. *)
  Definition sig_fits (s : signature) : Prop :=
    all_fit (sig_params s)
    /\ match sig_ret s with
       | None => True
       | Some t => all_fit [t] /\ forall args x, has_type t (snd (ftor args x))
       end.

  Lemma back_stored : forall ts bs (st : state X) l w o,
    back st (Ok (mk_state l (stored ts bs (st_memory st)) w, o))
    = Ok (mk_state (st_locals st) (st_memory st) w, match o with Next => Nothing | Returned v => v end).
  Proof. intros [|t ts] bs st l w o; cbn [stored]; [apply back_ok|apply back_more]. Qed.

  Lemma stored_more : forall ts bs (mem : list (list Z)), exists more, stored ts bs mem = mem ++ more.
  Proof. intros [|t ts] bs mem; [exists []; symmetry; apply app_nil_r|exists [bs]; reflexivity]. Qed.

  Lemma back_trans : forall (st st1 : state X) c, st_memory st = firstn (List.length (st_memory st)) (st_memory st1) ->
    List.length (st_memory st) <= List.length (st_memory st1) ->
    back st ('(st2, v) <- back st1 c;; Ok (st2, Next))
    = ('(st2, v) <- back st c;; Ok (st2, Nothing)).
  Proof.
    intros st st1 [[st2 o]|f] H Hl; [|reflexivity]. unfold back. cbn [bind st_memory st_world].
    rewrite firstn_firstn, Nat.min_l by lia. reflexivity.
  Qed.

  (** action.hpp 53-69 *)
  Theorem call_ok : forall s (st : state X) w, sig_fits s -> 8 <= fuel ->
    back st (ex (call_src e m s) (mk_state [] (st_memory st) w))
    = (w1 <- call p e m (mk_func s ftor) src dest w;; Ok (mk_state (st_locals st) (st_memory st) w1, Nothing)).
  Proof.
    intros s st w (Hps & Hret) Hf. unfold call_src, call. cbn [f_sig f_call].
    rewrite read_tuple_then by auto.
    destruct (sig_ret s) as [t|].
    - destruct Hret as [Ht Hret]. rewrite !bind_assoc.
      destruct (read_tuple p e m (sig_params s) src w) as [[w1 bs]|f]; cbn [bind]; [|reflexivity].
      set (s1 := mk_state (ranged (sig_params s) (List.length (st_memory st))
                   (named "input_args" (sig_params s) (List.length (st_memory st)) []))
                   (stored (sig_params s) bs (st_memory st)) w1).
      pose proof (invoke_named "input_args" (sig_params s) [] (st_memory st) w1 bs Hps Hf eq_refl eq_refl) as I.
      cbv zeta in I. fold s1 in I. rewrite ex_expr.
      unfold invoke in I |- *. rewrite bind_assoc in I |- *.
      destruct (get_each p (tuple_at e m (sig_params s) 0) (make_index_sequence14 (List.length (v_types (tuple_at e m (sig_params s) 0)))) bs) as [vs|f].
      2:{ change (ev (Call [("value", Call [("src", begin_src "input_args" (sig_params s))] (invoke_src e m Pointer (sig_params s)))] (insert_src e m t)) s1)
            with ('(st1, vs) <- ('(st1, v) <- ev (Call [("src", begin_src "input_args" (sig_params s))] (invoke_src e m Pointer (sig_params s))) s1;;
                    '(st2, vs) <- Ok (st1, @nil (string * value));; Ok (st2, ("value", v) :: vs));;
                  back st1 (ex (insert_src e m t) (mk_state vs (st_memory st1) (st_world st1)))).
          rewrite I. reflexivity. }
      cbn [bind] in I |- *. specialize (Hret vs w1). destruct (ftor vs w1) as [w2 v]. cbn [bind snd] in I, Hret |- *.
      rewrite (ev_call1 _ _ _ _ _ _ I). cbn [with_world st_memory st_world].
      destruct (stored_more (sig_params s) bs (st_memory st)) as [more Hm].
      rewrite back_trans.
      + cbn [s1 st_memory]. rewrite Hm, (insert_ok t v st more w2) by auto.
        destruct (insert p e m dest t v w2); reflexivity.
      + cbn [with_world s1 st_memory]. rewrite Hm, firstn_app, Nat.sub_diag, firstn_all. cbn [firstn].
        rewrite app_nil_r. reflexivity.
      + cbn [with_world s1 st_memory]. rewrite Hm, app_length. lia.
    - rewrite bind_assoc. destruct (read_tuple p e m (sig_params s) src w) as [[w1 bs]|f]; cbn [bind]; [|reflexivity].
      rewrite ex_expr, invoke_named by auto. rewrite !bind_assoc.
      destruct (invoke p (tuple_at e m (sig_params s) 0) ftor bs w1) as [[w2 v]|f]; cbn [bind]; [|reflexivity].
      unfold with_world. cbn [st_memory st_locals]. apply back_stored.
  Qed.

  (** action.hpp 122-141 *)
  Theorem static_wrapper_ok : forall s (st : state X) w, sig_fits s -> 8 <= fuel ->
    back st (ex (static_wrapper_src e m s) (mk_state [] (st_memory st) w))
    = (w1 <- static_wrapper p e m (mk_func s ftor) src dest w;; Ok (mk_state (st_locals st) (st_memory st) w1, Nothing)).
  Proof.
    intros s st w (Hps & Hret) Hf. unfold static_wrapper_src, static_wrapper. cbn [f_sig f_call].
    rewrite read_tuple_then by auto.
    destruct (sig_ret s) as [t|].
    - destruct Hret as [Ht Hret]. rewrite !bind_assoc.
      destruct (read_tuple p e m (sig_params s) src w) as [[w1 bs]|f]; cbn [bind]; [|reflexivity].
      rewrite ex_seq, ex_auto, invoke_named by auto.
      unfold invoke. rewrite !bind_assoc.
      destruct (get_each p (tuple_at e m (sig_params s) 0) (make_index_sequence14 (List.length (v_types (tuple_at e m (sig_params s) 0)))) bs) as [vs|f]; cbn [bind]; [|reflexivity].
      specialize (Hret vs w1). destruct (ftor vs w1) as [w2 v]. cbn [bind snd copied] in Hret |- *.
      destruct (stored_more (sig_params s) bs (st_memory st)) as [more Hm].
      unfold declare, with_world. cbn [st_memory st_locals st_world].
      rewrite (write_tuple_then "return_tuple" [t] [Var "result"] [v] _ _ w2 Ht Hf eq_refl) with (more := more).
      + reflexivity.
      + repeat constructor; auto.
      + intros bs' s'. subst s'. cbn [evs named]. erewrite ev_var by reflexivity. reflexivity.
      + exact Hm.
    - rewrite bind_assoc. destruct (read_tuple p e m (sig_params s) src w) as [[w1 bs]|f]; cbn [bind]; [|reflexivity].
      rewrite ex_expr, invoke_named by auto. rewrite !bind_assoc.
      destruct (invoke p (tuple_at e m (sig_params s) 0) ftor bs w1) as [[w2 v]|f]; cbn [bind]; [|reflexivity].
      unfold with_world. cbn [st_memory st_locals]. apply back_stored.
  Qed.

  (** One element, read then returned (key.hpp 121-131, dispatcher.hpp 141-149). *)
  Lemma read_one : forall x t (st : state X) l w, all_fit [t] -> 8 <= fuel ->
    String.eqb x "__begin" = false -> String.eqb x "__end" = false ->
    back st (ex (tuple_src e m x [t] None;;; read_loop_src x [t];;;
                 Return (Call [("src", begin_src x [t])] (tuple_get_src e m Pointer [t] 0 t)))
               (mk_state l (st_memory st) w))
    = ('(w1, bs) <- read_tuple p e m [t] src w;;
       v <- get p (tuple_at e m [t] 0) 0 bs;;
       Ok (mk_state (st_locals st) (st_memory st) w1, Object v)).
  Proof.
    intros x t st l w Ht Hf Hx1 Hx2. rewrite read_tuple_then by auto.
    destruct (read_tuple p e m [t] src w) as [[w1 bs]|f]; cbn [bind]; [|reflexivity].
    destruct Ht as (Hts & Hn & Hz). rewrite ex_return.
    erewrite (ev_reader "src" _ _ _ _ (List.length (st_memory st)) 0 bs
               (tuple_get_reader Pointer [t] 0 t Hts Hz Hf eq_refl)).
    - unfold tuple_at. rewrite bind_assoc. destruct (get p (mk_view Pointer e m [t] 0) 0 bs) as [v|f]; cbn [bind copied]; [|reflexivity].
      apply back_stored.
    - cbn [begin_src]. apply ev_var. cbn [st_locals ranged named Cpp.lookup].
      rewrite Hx1, Hx2, String.eqb_refl. reflexivity.
    - cbn [st_memory stored]. apply last_region.
  Qed.

  (** key.hpp 121-131 *)
  Theorem key_read_ok : forall k (st : state X) l w, e = k_e k -> m = k_m k -> 8 <= fuel ->
    match sig_ret (k_sig k) with None => True | Some t => all_fit [t] end ->
    back st (ex (key_read_src e m (sig_ret (k_sig k))) (mk_state l (st_memory st) w))
    = ('(w1, v) <- key_read p k src w;;
       Ok (mk_state (st_locals st) (st_memory st) w1, match v with None => Nothing | Some v => Object v end)).
  Proof.
    intros k st l w He Hm Hf Ht. unfold key_read_src, key_read. rewrite <- He, <- Hm.
    destruct (sig_ret (k_sig k)) as [t|].
    - rewrite read_one by auto. rewrite bind_assoc. apply bind_ext. intros [w1 bs] _.
      rewrite bind_assoc. reflexivity.
    - apply back_ok.
  Qed.

  Lemma evs_members : forall vs (s : state X), Cpp.lookup "args" (st_locals s) = Some (Object (VList vs)) ->
    forall k i, i + k = List.length vs ->
    evs (map (fun i => Member (Var "args") i) (seq i k)) s = Ok (s, skipn i vs).
  Proof.
    intros vs s Hs. induction k as [|k IH]; intros i Hi.
    - rewrite skipn_all2 by lia. reflexivity.
    - destruct (nth_error vs i) as [v|] eqn:Hv; [|apply nth_error_None in Hv; lia].
      rewrite (TupleProofs.skipn_nth_cons _ _ _ _ Hv). cbn [seq map evs].
      rewrite ev_member, (ev_var _ _ _ Hs). cbn [bind to_object]. rewrite Hv. cbn [Cpp.need bind to_object].
      rewrite IH by lia. reflexivity.
  Qed.

  (** key.hpp 108-111, serialized_message.hpp 31-36 *)
  Theorem key_write_ok : forall k args (st : state X) w, e = k_e k -> m = k_m k -> 8 <= fuel ->
    all_fit (TUns (k_index_size k) :: sig_params (k_sig k)) ->
    (Z.of_nat (k_index k) < space (k_index_size k))%Z -> Forall2 has_type (sig_params (k_sig k)) args ->
    back st (ex (key_write_src e m (k_index_size k) (k_index k) (sig_params (k_sig k)))
               (mk_state [("args", Object (VList args))] (st_memory st) w))
    = (w1 <- key_write p k args dest w;; Ok (mk_state (st_locals st) (st_memory st) w1, Nothing)).
  Proof.
    intros k args st w He Hm Hf Hts Hi Hargs. unfold key_write_src, key_write. rewrite <- He, <- Hm.
    apply write_tuple_then with (more := []); auto.
    - constructor; auto. cbn. lia.
    - intros bs s. cbn [evs].
      change (ev (Literal (VInt (Z.of_nat (k_index k)))) s) with (Ok (s, Object (VInt (Z.of_nat (k_index k))))).
      cbn [bind to_object]. rewrite (evs_members args); [reflexivity|reflexivity|].
      rewrite (Forall2_length Hargs). reflexivity.
    - symmetry. apply app_nil_r.
  Qed.

  (** dispatcher.hpp 141-149 *)
  Theorem get_index_ok : forall d (st : state X) l w, e = kr_e (d_keyring d) -> m = kr_m (d_keyring d) -> 8 <= fuel ->
    all_fit [TUns (kr_index_size (d_keyring d))] ->
    '(s1, v) <- back st (ex (get_index_src e m (kr_index_size (d_keyring d))) (mk_state l (st_memory st) w));;
    match v with Object (VInt z) => Ok (s1, Z.to_nat z) | _ => Fault TypeMismatch end
    = ('(w1, i) <- get_index p d src w;; Ok (mk_state (st_locals st) (st_memory st) w1, i)).
  Proof.
    intros d st l w He Hm Hf Ht. unfold get_index_src, get_index. rewrite <- He, <- Hm.
    rewrite read_one by auto. rewrite !bind_assoc. apply bind_ext. intros [w1 bs] _.
    rewrite !bind_assoc. apply bind_ext. intros [z|vs] _; reflexivity.
  Qed.
End Proofs.
