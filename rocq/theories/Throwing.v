(** The interpreter of Classes.v when byte getters, byte putters and callbacks may
    throw: the state when the exception leaves the member function is kept.  No
    proofs in this file.

    There is no handler in /repo/include, so that an exception met anywhere in an
    expression or in a statement leaves the function at once; what has been done
    before it stays.  The local variables of the functions which are left are
    destroyed: they are not looked at afterwards.  Serialization itself does not throw
    (Exceptions.v). *)

From Coq Require Import List ZArith Bool Arith String.
From Verif Require Import Base CInt TypeLevel Serial TupleModel Rpc Buffered SpecBuffered Counters Classes Methods.
From Verif Require Exceptions.
Import ListNotations.
Open Scope string_scope.
Open Scope list_scope.
Open Scope Z_scope.

(** What is run so far has ended normally: the state and a value
    (buffered_dispatcher.hpp 109-203). *)
Definition ended {W A : Type} (w : W) (a : A) : res (W * Exceptions.outcome A) := Ok (w, Exceptions.Returned a).

(** What follows is run unless an exception has been thrown
    (buffered_dispatcher.hpp 109-203, 260-272: no handler). *)
Definition then_ {W A B : Type} (r : res (W * Exceptions.outcome A)) (k : W -> A -> res (W * Exceptions.outcome B))
    : res (W * Exceptions.outcome B) :=
  '(w, o) <- r;;
  match o with
  | Exceptions.Returned a => k w a
  | Exceptions.Thrown => Ok (w, Exceptions.Thrown)
  end.

Notation "'both' w a '<~' r ';;' k" := (then_ r (fun w a => k))
  (at level 61, w name, a name, r at next level, right associativity).

(** ** Tuples and actions *)

Section Library.
  Variable p : platform.
  Context {W : Type}.

  (** [for (auto &byte : t) byte = src();] (action.hpp 55-56, 64-65, 125, 136;
      dispatcher.hpp 146): the getter may throw. *)
  Fixpoint fill_x (src : Exceptions.esource W) (k pos : nat) (w : W) (mem : list Z)
      : res (W * Exceptions.outcome (list Z)) :=
    match k with
    | O => ended w mem
    | S k' =>
        both w1 byte <~ src w;;
        mem' <- store mem pos byte;;
        fill_x src k' (S pos) w1 mem'
    end.

  (** action.hpp 55-56, 64-65; dispatcher.hpp 145-146 *)
  Definition read_tuple_x (e : endianess) (m : signed_mode) (ts : list ty) (src : Exceptions.esource W) (w : W)
      : res (W * Exceptions.outcome (list Z)) :=
    st <- default_construct p e m ts (indet_bytes p (tuple_size ts));;
    let v := tuple_at e m ts 0 in
    fill_x src (v_end v - v_begin v) (v_begin v) w st.

  (** dispatcher.hpp 142-149 *)
  Definition get_index_x (d : dispatcher W) (src : Exceptions.esource W) (w : W) : res (W * Exceptions.outcome nat) :=
    let e := kr_e (d_keyring d) in
    let m := kr_m (d_keyring d) in
    let t := TUns (kr_index_size (d_keyring d)) in
    both w1 st <~ read_tuple_x e m [t] src w;;
    v <- get p (tuple_at e m [t] 0) 0 st;;
    match v with
    | VInt z => ended w1 (Z.to_nat z)
    | VList _ => Fault TypeMismatch
    end.

  (** [for (auto byte : t) dest(byte);] (action.hpp 39-40, 139-140): the putter may
      throw. *)
  Fixpoint put_each_x (dest : Exceptions.edestination W) (bs : list Z) (w : W) : res (W * Exceptions.outcome unit) :=
    match bs with
    | [] => ended w tt
    | b :: bs' =>
        both w1 u <~ dest b w;;
        put_each_x dest bs' w1
    end.

  (** The call of the [i]-th action (action.hpp 53-69, 122-141, 174-179, 221-223).
      [throws]: whether the callback throws, and what it leaves. *)
  Definition run_x (throws : nat -> list val -> W -> option W) (i : nat) (a : action W) (src : Exceptions.esource W)
      (dest : Exceptions.edestination W) (w : W) : res (W * Exceptions.outcome unit) :=
    match (match a with Storage o => o | NoStorage c => Some c end) with
    | None => ended w tt
    | Some c =>
        let ts := sig_params (f_sig (m_func c)) in
        let v := tuple_at (m_e c) (m_m c) ts 0 in
        both w1 st <~ read_tuple_x (m_e c) (m_m c) ts src w;;
        args <- get_each p v (make_index_sequence14 (List.length ts)) st;;
        match throws i args w1 with
        | Some w2 => Ok (w2, Exceptions.Thrown)
        | None =>
            let (w2, r) := f_call (m_func c) args w1 in
            match sig_ret (f_sig (m_func c)) with
            | None => ended w2 tt
            | Some t =>
                rt <- construct p (m_e c) (m_m c) [t] [r] (indet_bytes p (tuple_size [t]));;
                bs <- content (tuple_at (m_e c) (m_m c) [t] 0) rt;;
                put_each_x dest bs w2
            end
        end
    end.
End Library.

(** ** The interpreter *)

Section Interpreter.
  Variable p : platform.
  (** [sizeof(std::size_t)] *)
  Variable sz : nat.
  (** The greatest number of turns of a loop. *)
  Variable fuel : nat.
  Context {X : Type}.
  Variable throws : Exceptions.throwing X.
  Variable src : Exceptions.esource X.
  Variable dest : Exceptions.edestination X.

  (** A callback which throws has acted on the world only (tuple.hpp 184, called
      through buffered_dispatcher.hpp 266). *)
  Definition throws_within (i : nat) (args : list val) (st : state X) : option (state X) :=
    option_map (mk_state (st_object st) (st_locals st)) (throws i args (st_world st)).

  (** As [Classes.eval] (buffered_dispatcher.hpp 97, 109-117, 130-158, 165-169, 179,
      197-203, 236-237, 260-272; dispatcher.hpp 119-127), an exception leaving at
      once. *)
  Fixpoint eval_x (e : expr) (st : state X) {struct e} : res (state X * Exceptions.outcome value) :=
    match e with
    | Read l => v <- read sz l st;; ended st v
    | IntLit z => ended st (Number (CInt (p_int_size p) true) z)
    | BoolLit b => ended st (bool_value b)
    | StatusLit s => ended st (Status s)
    | ByteInit => ended st (Number (CInt 1 false) 0)
    | SizeofIndex => ended st (Number (CInt sz false) (Z.of_nat (index_length (s_dispatcher (st_object st)))))
    | DispatcherSize =>
        let d := s_dispatcher (st_object st) in
        ended st (Number (CInt (index_length d) false) (Z.of_nat (d_size d)))
    | IbufBegin => ended st (Address InputBuffer 0)
    | ObufBegin => ended st (Address OutputBuffer 0)
    | Not a =>
        both st1 v <~ eval_x a st;;
        b <- truth v;;
        ended st1 (bool_value (negb b))
    | And a c =>
        both st1 v <~ eval_x a st;;
        b <- truth v;;
        if b then
          both st2 w <~ eval_x c st1;;
          b' <- truth w;;
          ended st2 (bool_value b')
        else ended st1 (bool_value false)
    | Cond c a a' =>
        both st1 v <~ eval_x c st;;
        b <- truth v;;
        if b then eval_x a st1 else eval_x a' st1
    | Compare o a c =>
        both st1 v <~ eval_x a st;;
        both st2 w <~ eval_x c st1;;
        r <- compare p o v w;;
        ended st2 r
    | PostIncrement l =>
        v <- read sz l st;;
        w <- moved p true v;;
        st1 <- write p sz l w st;;
        ended st1 v
    | PreDecrement l =>
        v <- read sz l st;;
        w <- moved p false v;;
        st1 <- write p sz l w st;;
        v' <- read sz l st1;;
        ended st1 v'
    | Deref a =>
        both st1 v <~ eval_x a st;;
        b <- load_at v 0 st1;;
        ended st1 b
    | At a i =>
        both st1 v <~ eval_x a st;;
        both st2 w <~ eval_x i st1;;
        n <- number w;;
        b <- load_at v n st2;;
        ended st2 b
    | CallSrc =>
        '(x, o) <- src (st_world st);;
        Ok (mk_state (st_object st) (st_locals st) x,
            match o with
            | Exceptions.Returned byte => Exceptions.Returned (Number (CInt 1 false) byte)
            | Exceptions.Thrown => Exceptions.Thrown
            end)
    | GetIndex lambda =>
        let d := s_dispatcher (st_object st) in
        both st1 index <~ get_index_x p (within_dispatcher d)
          (fun st => both st1 v <~ eval_x lambda st;; z <- number v;; ended st1 z) st;;
        ended st1 (Number (CInt (index_length d) false) (Z.of_nat index))
    | InputSize a =>
        both st1 v <~ eval_x a st;;
        i <- number v;;
        a <- action_at (s_dispatcher (st_object st1)) (Z.to_nat i);;
        n <- input_size_w sz a;;
        ended st1 (Number (CInt sz false) n)
    | Method returns body =>
        both st1 o <~ exec_x body (mk_state (st_object st) [] (st_world st));;
        v <- into p sz (st_object st1) returns (returned o);;
        ended (mk_state (st_object st1) (st_locals st) (st_world st1)) v
    | Method1 returns T x body arg =>
        both st0 w <~ eval_x arg st;;
        w' <- into p sz (st_object st0) T w;;
        both st1 o <~ exec_x body (mk_state (st_object st0) [(x, w')] (st_world st0));;
        v <- into p sz (st_object st1) returns (returned o);;
        ended (mk_state (st_object st1) (st_locals st0) (st_world st1)) v
    end
  with exec_x (s : stmt) (st : state X) {struct s} : res (state X * Exceptions.outcome outcome) :=
    match s with
    | Skip => ended st Next
    | Seq a c =>
        both st1 o <~ exec_x a st;;
        match o with
        | Next => exec_x c st1
        | Returned v => ended st1 (Returned v)
        end
    | Expr e => both st1 v <~ eval_x e st;; ended st1 Next
    | Assign l e =>
        both st1 v <~ eval_x e st;;
        st2 <- write p sz l v st1;;
        ended st2 Next
    | AssignAt a i e =>
        both st1 v <~ eval_x e st;;
        both st2 ptr <~ eval_x a st1;;
        both st3 w <~ eval_x i st2;;
        n <- number w;;
        st4 <- store_at ptr n v st3;;
        ended st4 Next
    | Define T x e =>
        both st1 v <~ eval_x e st;;
        v' <- into p sz (st_object st1) T v;;
        ended (declare x v' st1) Next
    | Auto x e =>
        both st1 v <~ eval_x e st;;
        ended (declare x v st1) Next
    | If c a a' =>
        both st1 v <~ eval_x c st;;
        b <- truth v;;
        if b then exec_x a st1 else exec_x a' st1
    | While c body =>
        (fix loop (n : nat) (st : state X) : res (state X * Exceptions.outcome outcome) :=
           both st1 v <~ eval_x c st;;
           b <- truth v;;
           if b then
             match n with
             | O => Fault OutOfFuel
             | S n' =>
                 both st2 o <~ exec_x body st1;;
                 match o with
                 | Next => loop n' st2
                 | Returned v => ended st2 (Returned v)
                 end
             end
           else ended st1 Next) fuel st
    | Return e => both st1 v <~ eval_x e st;; ended st1 (Returned v)
    | CallDest e =>
        both st1 v <~ eval_x e st;;
        byte <- number v;;
        '(x, o) <- dest byte (st_world st1);;
        Ok (mk_state (st_object st1) (st_locals st1) x,
            match o with
            | Exceptions.Returned _ => Exceptions.Returned Next
            | Exceptions.Thrown => Exceptions.Thrown
            end)
    | RunAction index getter x putter =>
        both st1 v <~ eval_x index st;;
        i <- number v;;
        a <- action_at (within_dispatcher (s_dispatcher (st_object st1))) (Z.to_nat i);;
        both st2 u <~ run_x p throws_within (Z.to_nat i) a
          (fun st => both st1 v <~ eval_x getter st;; z <- number v;; ended st1 z)
          (fun byte st =>
             both st1 o <~ exec_x putter (declare x (Number (CInt 1 false) byte) st);;
             ended (leave (st_locals st) st1) tt) st1;;
        ended st2 Next
    end.

  (** A call of a member function (buffered_dispatcher.hpp 97, 109-203): the object
      and the world when it is left. *)
  Definition run_method_x (returns : typename) (body : stmt) (args : list (string * value)) (b : members X) (x : X)
      : res (members X * X * Exceptions.outcome value) :=
    '(st, o) <- exec_x body (mk_state b args x);;
    match o with
    | Exceptions.Returned o =>
        v <- into p sz (st_object st) returns (returned o);;
        Ok (st_object st, st_world st, Exceptions.Returned v)
    | Exceptions.Thrown => Ok (st_object st, st_world st, Exceptions.Thrown)
    end.
End Interpreter.

(** ** Histories *)

(** What is done with the object: [put], [get], [is_loaded], [read_from], [write_to],
    [operator()] (buffered_dispatcher.hpp 97-203), [replace] (182-185, 208-217), a
    change of the world. *)
Inductive xop (X : Type) : Type :=
| XPut (byte : Z)
| XGet
| XIsLoaded
| XReadFrom (src : Exceptions.esource X)
| XWriteTo (dest : Exceptions.edestination X)
| XProcess (src : Exceptions.esource X) (dest : Exceptions.edestination X)
| XReplace (i : nat) (r : replacement X)
| XOutside (g : X -> X).
Arguments XPut {X} byte.
Arguments XGet {X}.
Arguments XIsLoaded {X}.
Arguments XReadFrom {X} src.
Arguments XWriteTo {X} dest.
Arguments XProcess {X} src dest.
Arguments XReplace {X} i r.
Arguments XOutside {X} g.

Section Histories.
  Variable p : platform.
  Variable sz : nat.
  Variable fuel : nat.
  Context {X : Type}.
  Variable throws : Exceptions.throwing X.

  (** A function which is not given a getter does not call any (130, 165, 179). *)
  Definition no_src_x : Exceptions.esource X := fun _ => Fault TypeMismatch.
  (** The same for putters (109, 130, 179). *)
  Definition no_dest_x : Exceptions.edestination X := fun _ _ => Fault TypeMismatch.

  (** A member function is called: what is seen of it (buffered_dispatcher.hpp
      97-203). *)
  Definition seen_x (r : res (members X * X * Exceptions.outcome value)) : res (members X * X * Exceptions.outcome obs) :=
    '(b, x, o) <- r;;
    match o with
    | Exceptions.Returned v => w <- observed v;; Ok (b, x, Exceptions.Returned w)
    | Exceptions.Thrown => Ok (b, x, Exceptions.Thrown)
    end.

  (** One operation, run by its statements (buffered_dispatcher.hpp 97, 109-117,
      130-158, 165-169, 179, 197-203). *)
  Definition step_x (o : xop X) (b : members X) (x : X) : res (members X * X * Exceptions.outcome obs) :=
    match o with
    | XPut byte =>
        seen_x (run_method_x p sz fuel throws no_src_x no_dest_x TStatus put_body
                  [("byte", Number (CInt 1 false) byte)] b x)
    | XGet => seen_x (run_method_x p sz fuel throws no_src_x no_dest_x TByte get_body [] b x)
    | XIsLoaded => seen_x (run_method_x p sz fuel throws no_src_x no_dest_x TBool is_loaded_body [] b x)
    | XReadFrom src => seen_x (run_method_x p sz fuel throws src no_dest_x TStatus read_from_body [] b x)
    | XWriteTo dest => seen_x (run_method_x p sz fuel throws no_src_x dest TVoid write_to_body [] b x)
    | XProcess src dest => seen_x (run_method_x p sz fuel throws src dest TStatus process_body [] b x)
    | XReplace i r =>
        '(b', x', v) <- step_w p sz (Replace i r) b x;;
        Ok (b', x', Exceptions.Returned v)
    | XOutside g => Ok (b, g x, Exceptions.Returned ONone)
    end.

  (** A sequence of operations (buffered_dispatcher.hpp 97-203): what is returned
      or thrown by each of them. *)
  Fixpoint steps_x (ops : list (xop X)) (b : members X) (x : X)
      : res (members X * X * list (Exceptions.outcome obs)) :=
    match ops with
    | [] => Ok (b, x, [])
    | o :: ops' =>
        '(b1, x1, v) <- step_x o b x;;
        '(b2, x2, vs) <- steps_x ops' b1 x1;;
        Ok (b2, x2, v :: vs)
    end.

  (** *** With the functions of Exceptions.v *)

  (** The greatest [std::size_t]. *)
  Variable size_max : nat.

  (** buffered_dispatcher.hpp 197-203: [write_to] is not called when [read_from]
      throws. *)
  Definition process_e (src : Exceptions.esource X) (dest : Exceptions.edestination X) (b : buffered X) (x : X)
      : res (buffered X * X * Exceptions.outcome packet_status) :=
    '(b1, x1, o) <- Exceptions.read_from_e p size_max throws src b x;;
    match o with
    | Exceptions.Returned RESOLVED_PACKET =>
        '(b2, x2, o') <- Exceptions.write_to_e dest b1 x1;;
        Ok (b2, x2, match o' with
                    | Exceptions.Returned _ => Exceptions.Returned RESOLVED_PACKET
                    | Exceptions.Thrown => Exceptions.Thrown
                    end)
    | o => Ok (b1, x1, o)
    end.

  (** What is returned, seen as an observation (109, 130, 165, 197). *)
  Definition map_outcome {A B : Type} (f : A -> B) (o : Exceptions.outcome A) : Exceptions.outcome B :=
    match o with
    | Exceptions.Returned a => Exceptions.Returned (f a)
    | Exceptions.Thrown => Exceptions.Thrown
    end.

  (** One operation, with the functions of Exceptions.v (buffered_dispatcher.hpp
      97-203). *)
  Definition step_e (o : xop X) (b : buffered X) (x : X) : res (buffered X * X * Exceptions.outcome obs) :=
    match o with
    | XPut byte => '(b', x', o) <- Exceptions.put_e p size_max throws byte b x;; Ok (b', x', map_outcome OStatus o)
    | XGet => '(b', byte) <- get_byte b;; Ok (b', x, Exceptions.Returned (OByte byte))
    | XIsLoaded => Ok (b, x, Exceptions.Returned (OBool (is_loaded b)))
    | XReadFrom src =>
        '(b', x', o) <- Exceptions.read_from_e p size_max throws src b x;;
        Ok (b', x', map_outcome OStatus o)
    | XWriteTo dest =>
        '(b', x', o) <- Exceptions.write_to_e dest b x;;
        Ok (b', x', map_outcome (fun _ => ONone) o)
    | XProcess src dest =>
        '(b', x', o) <- process_e src dest b x;;
        Ok (b', x', map_outcome OStatus o)
    | XReplace i r =>
        match replace_buffered b i r with
        | Some o => b' <- o;; Ok (b', x, Exceptions.Returned ONone)
        | None => Fault TypeMismatch
        end
    | XOutside g => Ok (b, g x, Exceptions.Returned ONone)
    end.

  (** A sequence of operations (buffered_dispatcher.hpp 97-203). *)
  Fixpoint steps_e (ops : list (xop X)) (b : buffered X) (x : X)
      : res (buffered X * X * list (Exceptions.outcome obs)) :=
    match ops with
    | [] => Ok (b, x, [])
    | o :: ops' =>
        '(b1, x1, v) <- step_e o b x;;
        '(b2, x2, vs) <- steps_e ops' b1 x1;;
        Ok (b2, x2, v :: vs)
    end.
End Histories.
