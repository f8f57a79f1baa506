(** An interpreter for the fragment of C++ in which the overloads of
    serialization.hpp 69-93, 137-157, the tuples (tuple.hpp), the actions
    (action.hpp 34-69, 122-141), the keys (key.hpp 108-131), serialized_message.hpp and
    [dispatcher::get_index] (dispatcher.hpp 141-149) are written: objects, arrays of
    bytes with automatic storage duration, pointers to them, arithmetic in
    [std::size_t], loops and calls.  No proofs in this file.

    The functions are templates: what is interpreted is the body of one
    instantiation, where [sizeof], the sizes and the offsets are constants and the
    packs are expanded (Library.v).  Reading and writing an integer runs the
    statements of Source.v.

    Simplifications: forming a pointer is not checked, using it is; the arguments of a
    call are evaluated from left to right; an object returned by a function is built
    in the variable it initialises. *)

From Coq Require Import List ZArith Bool Arith String.
From Verif Require Import Base CInt TypeLevel Rpc.
From Verif Require Cpp Source.
Import ListNotations.
Open Scope string_scope.
Open Scope list_scope.
Open Scope Z_scope.

(** Values.  [Address r i] is a pointer to, or another iterator on, byte [i] of the
    array of bytes [r].  [Array] is a [std::array] whose elements may not have a value
    yet (serialization.hpp 71). *)
Inductive value : Type :=
| Nothing
| Boolean (b : bool)
| Size (z : Z)
| Byte (z : Z)
| Object (v : val)
| Array (l : list (option val))
| Address (r i : nat)
| Null.

(** Expressions and statements of serialization.hpp 69-93, 137-157, tuple.hpp 131-185,
    action.hpp 34-69, 122-141, key.hpp 108-131.  A function which is called
    is given by its parameters, their values and its body. *)
Inductive expr : Type :=
| Var (x : string)
| Constant (n : res nat)                       (* of type std::size_t *)
| Literal (v : val)                            (* T{}, Index *)
| Nullptr
| Plus (a b : expr)
| Times (a b : expr)
| Less (a b : expr)
| Different (a b : expr)                       (* a != b, pointers *)
| PostIncrement (x : string)                   (* x++ *)
| Deref (e : expr)
| NextOf (it n : expr)                         (* std::next(it, n) *)
| CallSrc                                      (* src() *)
| Element (n : nat) (e i : expr)               (* e[i], array of n elements *)
| Member (e : expr) (i : nat)                  (* e.field_i, i-th value of a pack *)
| ReadInteger (e : endianess) (m : signed_mode) (t : ty) (ptr : expr)
| Pack (es : list expr)                        (* es..., unserialize(es...) *)
| Functor (es : list expr)                     (* ftor(es...) *)
| Call (args : list (string * expr)) (body : stmt)
with stmt : Type :=
| Skip
| Seq (a b : stmt)
| Auto (x : string) (e : expr)                 (* T x = e; *)
| DeclareArray (x : string) (n : nat)          (* std::array<T, n> x; *)
| DeclareBytes (x : string) (n : nat)          (* byte_t x[n]; *)
| Assign (x : string) (e : expr)               (* x = e; *)
| AssignElement (x : string) (i e : expr)      (* x[i] = e; *)
| AssignAt (ptr e : expr)                      (* *ptr = e; *)
| Expr (e : expr)
| For (cond : expr) (step body : stmt)
| WriteInteger (e : endianess) (m : signed_mode) (t : ty) (x ptr : expr)
| CallDest (e : expr)                          (* dest(e); *)
| Return (e : expr).

Notation "a ;;; b" := (Seq a b) (at level 62, right associativity).

(** The overload called for an integer (serialization.hpp 59-68), as transcribed in
    Source.v. *)
Definition read_integer (p : platform) (e : endianess) (m : signed_mode) (t : ty) : Cpp.stmt :=
  match t with
  | TSig w => Source.read_signed_src p (CInt w true) e m
  | TUns w => Source.read_unsigned_src p (CInt w false) e
  | _ => Source.read_unsigned_src p CBool e
  end.
(** The same for 127-136. *)
Definition write_integer (p : platform) (e : endianess) (m : signed_mode) (t : ty) : Cpp.stmt :=
  match t with
  | TSig w => Source.write_signed_src p (CInt w true) e m
  | TUns w => Source.write_unsigned_src p (CInt w false) e
  | _ => Source.write_unsigned_src p CBool e
  end.
(** The type of that integer (serialization.hpp 59-68, 127-136). *)
Definition integer_type (t : ty) : cty :=
  match t with TSig w => CInt w true | TUns w => CInt w false | _ => CBool end.

(** The local variables of the function being run, the arrays of bytes which exist
    (the oldest first; serialization.hpp 89, 152, tuple.hpp 398) and the world. *)
Record state (X : Type) : Type := mk_state {
  st_locals : list (string * value);
  st_memory : list (list Z);
  st_world : X
}.
Arguments mk_state {X} st_locals st_memory st_world.
Arguments st_locals {X} s.
Arguments st_memory {X} s.
Arguments st_world {X} s.

(** Whether the function goes on after a statement ([return] of serialization.hpp
    79, 85, 92, tuple.hpp 137, key.hpp 126). *)
Inductive outcome : Type := Next | Returned (v : value).

(** An array of bytes takes another content (serialization.hpp 91, 156). *)
Fixpoint set_region (r : nat) (bs : list Z) (mem : list (list Z)) : list (list Z) :=
  match mem, r with
  | [], _ => []
  | _ :: mem', O => bs :: mem'
  | a :: mem', S r' => a :: set_region r' bs mem'
  end.

(** An object all the elements of which have a value (the [retval] of
    serialization.hpp 71-79). *)
Fixpoint complete (l : list (option val)) : res (list val) :=
  match l with
  | [] => Ok []
  | None :: _ => Fault TrapRepr
  | Some v :: l' => vs <- complete l';; Ok (v :: vs)
  end.

(** The object denoted by a value (serialization.hpp 79, tuple.hpp 177, 184). *)
Definition to_object (v : value) : res val :=
  match v with
  | Object v => Ok v
  | Array l => vs <- complete l;; Ok (VList vs)
  | _ => Fault TypeMismatch
  end.

(** What is returned (serialization.hpp 79): a copy of an object is complete. *)
Definition copied (v : value) : res value :=
  match v with
  | Array l => vs <- complete l;; Ok (Object (VList vs))
  | _ => Ok v
  end.

(** [x[i] = v] (serialization.hpp 77) *)
Fixpoint set_element (l : list (option val)) (i : nat) (v : val) : res (list (option val)) :=
  match l, i with
  | [], _ => Fault OutOfBounds
  | _ :: l', O => Ok (Some v :: l')
  | a :: l', S i' => l'' <- set_element l' i' v;; Ok (a :: l'')
  end.

(** A loop (serialization.hpp 76, 90, 141, 155): [test] then [round] until [test] is
    false. *)
Fixpoint loop {S : Type} (n : nat) (test : S -> res (S * bool)) (round : S -> res (S * outcome)) (s : S)
    : res (S * outcome) :=
  '(s1, b) <- test s;;
  if b then
    match n with
    | O => Fault OutOfFuel
    | Datatypes.S n' =>
        '(s2, o) <- round s1;;
        match o with
        | Next => loop n' test round s2
        | Returned _ => Ok (s2, o)
        end
    end
  else Ok (s1, Next).

Section Interpreter.
  Variable p : platform.
  (** [sizeof(std::size_t)] *)
  Variable sz : nat.
  (** The greatest number of turns of a loop. *)
  Variable fuel : nat.
  Context {X : Type}.
  Variable src : source X.
  Variable dest : destination X.
  Variable ftor : list val -> X -> X * val.

  (** A value of type [std::size_t] (serialization.hpp 76, 141). *)
  Definition size_value (z : Z) : value := Size (conv (CInt sz false) z).

  (** [a + b] on sizes, or a pointer and a size (serialization.hpp 77, 142; tuple.hpp
      334). *)
  Definition plus (v w : value) : res value :=
    match v, w with
    | Size a, Size b => Ok (size_value (a + b))
    | Address r i, Size b => Ok (Address r (i + Z.to_nat b))
    | _, _ => Fault TypeMismatch
    end.

  (** [std::next(it, n)] (serialization.hpp 113, 178; tuple.hpp 235): [n] is converted to the signed type of differences. *)
  Definition next_of (v w : value) : res value :=
    match v, w with
    | Address r i, Size b =>
        let d := conv (CInt sz true) b in
        if Z.of_nat i + d <? 0 then Fault OutOfBounds else Ok (Address r (Z.to_nat (Z.of_nat i + d)))
    | _, _ => Fault TypeMismatch
    end.

  (** [v != w] on pointers, in range-based loops (action.hpp 39, 55). *)
  Definition different (v w : value) : res bool :=
    match v, w with
    | Address r i, Address r' i' => Ok (negb ((r =? r')%nat && (i =? i')%nat))
    | Address _ _, Null | Null, Address _ _ => Ok true
    | Null, Null => Ok false
    | _, _ => Fault TypeMismatch
    end.

  (** The array of bytes a pointer points to (serialization.hpp 89, tuple.hpp 398);
      there is none when it has been
      destroyed. *)
  Definition region (r : nat) (mem : list (list Z)) : res (list Z) :=
    match nth_error mem r with Some bs => Ok bs | None => Fault OutOfBounds end.

  (** A local variable more (action.hpp 54, 134). *)
  Definition declare (x : string) (v : value) (st : state X) : state X :=
    mk_state ((x, v) :: st_locals st) (st_memory st) (st_world st).
  (** Another value for the last one of that name (tuple.hpp 235). *)
  Definition assign (x : string) (v : value) (st : state X) : state X :=
    mk_state (Cpp.update x v (st_locals st)) (st_memory st) (st_world st).
  (** Other bytes (action.hpp 56). *)
  Definition with_region (r : nat) (bs : list Z) (st : state X) : state X :=
    mk_state (st_locals st) (set_region r bs (st_memory st)) (st_world st).
  (** Another world (action.hpp 40, 56; tuple.hpp 184). *)
  Definition with_world (x : X) (st : state X) : state X :=
    mk_state (st_locals st) (st_memory st) x.

  (** The end of a function (action.hpp 59, 69; serialization.hpp 93): its local variables and its arrays are destroyed. *)
  Definition back (st : state X) (r : res (state X * outcome)) : res (state X * value) :=
    '(st', o) <- r;;
    Ok (mk_state (st_locals st) (firstn (List.length (st_memory st)) (st_memory st')) (st_world st'),
        match o with Next => Nothing | Returned v => v end).

  (** The condition of a loop (serialization.hpp 76, 141). *)
  Definition truth (r : res (state X * value)) : res (state X * bool) :=
    '(st, v) <- r;;
    match v with Boolean b => Ok (st, b) | _ => Fault TypeMismatch end.

  (** The value of an expression and its effects; the effects of a statement.
      serialization.hpp 69-93, 137-157; tuple.hpp 131-185; action.hpp 34-69,
      122-141. *)
  Fixpoint eval (e : expr) (st : state X) {struct e} : res (state X * value) :=
    match e with
    | Var x => v <- Cpp.need (Cpp.lookup x (st_locals st));; Ok (st, v)
    | Constant n => k <- n;; Ok (st, size_value (Z.of_nat k))
    | Literal v => Ok (st, Object v)
    | Nullptr => Ok (st, Null)
    | Plus a b =>
        '(st1, v) <- eval a st;;
        '(st2, w) <- eval b st1;;
        r <- plus v w;;
        Ok (st2, r)
    | Times a b =>
        '(st1, v) <- eval a st;;
        '(st2, w) <- eval b st1;;
        match v, w with
        | Size x, Size y => Ok (st2, size_value (x * y))
        | _, _ => Fault TypeMismatch
        end
    | Less a b =>
        '(st1, v) <- eval a st;;
        '(st2, w) <- eval b st1;;
        match v, w with
        | Size x, Size y => Ok (st2, Boolean (x <? y))
        | _, _ => Fault TypeMismatch
        end
    | Different a b =>
        '(st1, v) <- eval a st;;
        '(st2, w) <- eval b st1;;
        r <- different v w;;
        Ok (st2, Boolean r)
    | PostIncrement x =>
        v <- Cpp.need (Cpp.lookup x (st_locals st));;
        match v with
        | Size z => Ok (assign x (size_value (z + 1)) st, v)
        | Address r i => Ok (assign x (Address r (S i)) st, v)
        | _ => Fault TypeMismatch
        end
    | Deref a =>
        '(st1, v) <- eval a st;;
        match v with
        | Address r i =>
            bs <- region r (st_memory st1);;
            b <- load bs i;;
            Ok (st1, Byte b)
        | Null => Fault NullDeref
        | _ => Fault TypeMismatch
        end
    | NextOf a b =>
        '(st1, v) <- eval a st;;
        '(st2, w) <- eval b st1;;
        r <- next_of v w;;
        Ok (st2, r)
    | CallSrc =>
        '(x, b) <- src (st_world st);;
        Ok (with_world x st, Byte b)
    | Element n a i =>
        '(st1, v) <- eval a st;;
        '(st2, w) <- eval i st1;;
        o <- to_object v;;
        match o, w with
        | VList vs, Size z =>
            if (n <=? Z.to_nat z)%nat then Fault OutOfBounds
            else o' <- Cpp.need (nth_error vs (Z.to_nat z));; Ok (st2, Object o')
        | _, _ => Fault TypeMismatch
        end
    | Member a i =>
        '(st1, v) <- eval a st;;
        o <- to_object v;;
        match o with
        | VList vs => o' <- Cpp.need (nth_error vs i);; Ok (st1, Object o')
        | VInt _ => Fault TypeMismatch
        end
    | ReadInteger e m t a =>
        '(st1, v) <- eval a st;;
        match v with
        | Address r i =>
            bs <- region r (st_memory st1);;
            z <- Source.run_read p sz fuel (read_integer p e m t) bs i;;
            Ok (st1, Object (VInt z))
        | Null => Fault NullDeref
        | _ => Fault TypeMismatch
        end
    | Pack es =>
        '(st1, vs) <- (fix go (es : list expr) (st : state X) : res (state X * list val) :=
                         match es with
                         | [] => Ok (st, [])
                         | e :: es' =>
                             '(st1, v) <- eval e st;;
                             o <- to_object v;;
                             '(st2, os) <- go es' st1;;
                             Ok (st2, o :: os)
                         end) es st;;
        Ok (st1, Object (VList vs))
    | Functor es =>
        '(st1, vs) <- (fix go (es : list expr) (st : state X) : res (state X * list val) :=
                         match es with
                         | [] => Ok (st, [])
                         | e :: es' =>
                             '(st1, v) <- eval e st;;
                             o <- to_object v;;
                             '(st2, os) <- go es' st1;;
                             Ok (st2, o :: os)
                         end) es st;;
        let (x, r) := ftor vs (st_world st1) in
        Ok (with_world x st1, Object r)
    | Call args body =>
        '(st1, vs) <- (fix go (es : list (string * expr)) (st : state X) : res (state X * list (string * value)) :=
                         match es with
                         | [] => Ok (st, [])
                         | (x, e) :: es' =>
                             '(st1, v) <- eval e st;;
                             '(st2, vs) <- go es' st1;;
                             Ok (st2, (x, v) :: vs)
                         end) args st;;
        back st1 (exec body (mk_state vs (st_memory st1) (st_world st1)))
    end
  with exec (c : stmt) (st : state X) {struct c} : res (state X * outcome) :=
    match c with
    | Skip => Ok (st, Next)
    | Seq a b =>
        '(st1, o) <- exec a st;;
        match o with
        | Next => exec b st1
        | Returned _ => Ok (st1, o)
        end
    | Auto x e =>
        '(st1, v) <- eval e st;;
        v' <- copied v;;
        Ok (declare x v' st1, Next)
    | DeclareArray x n => Ok (declare x (Array (repeat None n)) st, Next)
    | DeclareBytes x n =>
        Ok (mk_state ((x, Address (List.length (st_memory st)) 0) :: st_locals st)
              (st_memory st ++ [indet_bytes p n]) (st_world st), Next)
    | Assign x e =>
        '(st1, v) <- eval e st;;
        Ok (assign x v st1, Next)
    | AssignElement x i e =>
        '(st1, v) <- eval e st;;
        '(st2, w) <- eval i st1;;
        o <- to_object v;;
        a <- Cpp.need (Cpp.lookup x (st_locals st2));;
        match a, w with
        | Array l, Size z =>
            l' <- set_element l (Z.to_nat z) o;;
            Ok (assign x (Array l') st2, Next)
        | _, _ => Fault TypeMismatch
        end
    | AssignAt ptr e =>
        '(st1, v) <- eval e st;;
        '(st2, w) <- eval ptr st1;;
        match v, w with
        | Byte b, Address r i =>
            bs <- region r (st_memory st2);;
            bs' <- store bs i b;;
            Ok (with_region r bs' st2, Next)
        | Byte _, Null => Fault NullDeref
        | _, _ => Fault TypeMismatch
        end
    | Expr e =>
        '(st1, _) <- eval e st;;
        Ok (st1, Next)
    | For cond step body =>
        loop fuel (fun st => truth (eval cond st))
          (fun st =>
             '(st1, o) <- exec body st;;
             match o with
             | Next => exec step st1
             | Returned _ => Ok (st1, o)
             end) st
    | WriteInteger e m t a ptr =>
        '(st1, v) <- eval a st;;
        '(st2, w) <- eval ptr st1;;
        o <- to_object v;;
        match o, w with
        | VInt z, Address r i =>
            bs <- region r (st_memory st2);;
            bs' <- Source.run_write p sz fuel (write_integer p e m t) (integer_type t) z bs i;;
            Ok (with_region r bs' st2, Next)
        | VInt _, Null => Fault NullDeref
        | _, _ => Fault TypeMismatch
        end
    | CallDest e =>
        '(st1, v) <- eval e st;;
        match v with
        | Byte b => x <- dest b (st_world st1);; Ok (with_world x st1, Next)
        | _ => Fault TypeMismatch
        end
    | Return e =>
        '(st1, v) <- eval e st;;
        v' <- copied v;;
        Ok (st1, Returned v')
    end.
End Interpreter.
