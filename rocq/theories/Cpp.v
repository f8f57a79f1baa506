(** An interpreter for the fragment of C++ in which detail/endianess.hpp,
    detail/signed_representation.hpp and serialization.hpp 59-68, 127-136 are written:
    integer expressions with their conversions, local variables made of bytes,
    [for], [memcpy], pointers to bytes and calls.  No proofs in this file.

    Unlike in CInt.v and IntModel.v, the conversions are not applied by hand: the type
    of an expression is computed from those of its operands. *)

From Coq Require Import List ZArith Bool Arith Ascii String.
From Verif Require Import Base CInt.
Import ListNotations.
Open Scope string_scope.
Open Scope list_scope.
Open Scope Z_scope.

(** Types as they are written.  [Param] is a template parameter.
    endianess.hpp 17-72, signed_representation.hpp 13-78. *)
Inductive tyname : Type :=
| Byte             (* byte_t *)
| Int
| Unsigned         (* unsigned int *)
| Size             (* std::size_t *)
| UnsignedLongLong
| Param (T : cty).

(** The operators used there. *)
Inductive binop : Type := Add | Sub | Mul | BitAnd | BitOr | BitXor | Shl | Shr | Lt | Ge.
(** The same for one operand. *)
Inductive unop : Type := Neg | BitNot.

(** Expressions of endianess.hpp 19-36, 42-60 and signed_representation.hpp
    15-32, 50-64. *)
Inductive expr : Type :=
| Var (x : string)
| Lit (T : tyname) (z : Z)
| SizeofType (T : tyname)
| SizeofVar (x : string)
| Cast (T : tyname) (e : expr)        (* T(e), static_cast<T>(e) *)
| Un (o : unop) (e : expr)
| Bin (o : binop) (a b : expr)
| Cond (c a b : expr)                 (* c ? a : b *)
| At (ptr : string) (e : expr).       (* ptr[e] *)

(** What is given to a parameter: a pointer as it is, or a value. *)
Inductive arg : Type :=
| Pointer (ptr : string)
| Value (e : expr).

(** A parameter: a pointer to bytes, or a value (or a reference to a constant
    object, which cannot be distinguished from a copy here). *)
Inductive param : Type :=
| ToBytes (ptr : string)
| Object (T : tyname) (x : string).

(** Statements of the same files.  In [For] the initialisation is before the
    statement.  A called function is given by its parameters, its body and the type
    it returns. *)
Inductive stmt : Type :=
| Skip
| Seq (a b : stmt)
| Declare (T : tyname) (x : string)             (* T x; *)
| Define (T : tyname) (x : string) (e : expr)   (* T x = e; *)
| Auto (x : string) (e : expr)                  (* auto x = e; *)
| Assign (x : string) (e : expr)                (* x = e; *)
| AssignAt (ptr : string) (i e : expr)          (* ptr[i] = e; *)
| For (cond : expr) (step body : stmt)
| CopyFrom (x ptr : string) (n : expr)          (* memcpy(&x, ptr, n); *)
| CopyTo (ptr x : string) (n : expr)            (* memcpy(ptr, &x, n); *)
| Copy (x y : string) (n : expr)                (* memcpy(&x, &y, n); *)
| Return (e : expr)
| Call (result : option string) (returns : option tyname) (ps : list param) (body : stmt) (args : list arg)
| ReturnCall (returns : tyname) (ps : list param) (body : stmt) (args : list arg).

Notation "a ;;; b" := (Seq a b) (at level 62, right associativity).

(** Local variables (their type and bytes), pointers (the offset they point to in
    [bytes]) and the bytes pointed to.  The bytes written by the caller of
    endianess.hpp 17-72. *)
Record state : Type := mk_state {
  locals : list (string * (cty * list Z));
  pointers : list (string * nat);
  bytes : list Z
}.

(** The first entry of that name.  Same lines. *)
Fixpoint lookup {A : Type} (x : string) (l : list (string * A)) : option A :=
  match l with
  | [] => None
  | (y, a) :: l' => if String.eqb x y then Some a else lookup x l'
  end.

(** Replaces the first entry of that name.  Same lines. *)
Fixpoint update {A : Type} (x : string) (a : A) (l : list (string * A)) : list (string * A) :=
  match l with
  | [] => []
  | (y, b) :: l' => if String.eqb x y then (y, a) :: l' else (y, b) :: update x a l'
  end.

(** A value which must be there: code which compiles. *)
Definition need {A : Type} (o : option A) : res A :=
  match o with Some a => Ok a | None => Fault TypeMismatch end.

Section Interpreter.
  Variable p : platform.
  (** [sizeof(std::size_t)] *)
  Variable size_size : nat.

  (** The type on this host.  type.hpp; [<cstddef>]. *)
  Definition named (T : tyname) : cty :=
    match T with
    | Byte => CInt 1 false
    | Int => CInt (p_int_size p) true
    | Unsigned => CInt (p_int_size p) false
    | Size => CInt size_size false
    | UnsignedLongLong => CInt 8 false
    | Param T => T
    end.

  (** Usual arithmetic conversions: of two promoted types the wider one, or the
      unsigned one when they are as wide. *)
  Definition common (a b : cty) : cty :=
    match promote p a, promote p b with
    | CInt w s, CInt w' s' =>
        if (w =? w')%nat then CInt w (s && s') else if (w <? w')%nat then CInt w' s' else CInt w s
    | _, _ => CBool
    end.

  (** Type of the result of an operator. *)
  Definition type_of_bin (o : binop) (a b : cty) : cty :=
    match o with
    | Add | Sub | Mul | BitAnd | BitOr | BitXor => common a b
    | Shl | Shr => promote p a
    | Lt | Ge => CBool
    end.

  (** Type of a conditional expression: no conversion between operands of the same
      type. *)
  Definition same_type (a b : cty) : bool :=
    match a, b with
    | CBool, CBool => true
    | CInt w s, CInt w' s' => (w =? w')%nat && Bool.eqb s s'
    | _, _ => false
    end.
  Definition type_of_cond (a b : cty) : cty := if same_type a b then a else common a b.

  (** Type of an expression. *)
  Fixpoint type_of (vs : list (string * (cty * list Z))) (e : expr) : option cty :=
    match e with
    | Var x => option_map fst (lookup x vs)
    | Lit T _ | Cast T _ => Some (named T)
    | SizeofType _ | SizeofVar _ => Some (named Size)
    | Un _ e => option_map (promote p) (type_of vs e)
    | Bin o a b =>
        match type_of vs a, type_of vs b with
        | Some ta, Some tb => Some (type_of_bin o ta tb)
        | _, _ => None
        end
    | Cond _ a b =>
        match type_of vs a, type_of vs b with
        | Some ta, Some tb => Some (type_of_cond ta tb)
        | _, _ => None
        end
    | At _ _ => Some (named Byte)
    end.

  (** [a o b]: both operands are promoted; then, but for shifts, converted to their
      common type. *)
  Definition apply_bin (o : binop) (ta : cty) (a : Z) (tb : cty) (b : Z) : res Z :=
    let t := common ta tb in
    match o with
    | Add => arith t (conv t a + conv t b)
    | Sub => arith t (conv t a - conv t b)
    | Mul => arith t (conv t a * conv t b)
    | BitAnd => Ok (conv t (Z.land (conv t a) (conv t b)))
    | BitOr => Ok (conv t (Z.lor (conv t a) (conv t b)))
    | BitXor => Ok (conv t (Z.lxor (conv t a) (conv t b)))
    | Shl => if conv (promote p tb) b <? 0 then Fault BadShift
             else c_shl (promote p ta) (conv (promote p ta) a) (conv (promote p tb) b)
    | Shr => if conv (promote p tb) b <? 0 then Fault BadShift
             else c_shr (promote p ta) (conv (promote p ta) a) (conv (promote p tb) b)
    | Lt => Ok (if conv t a <? conv t b then 1 else 0)
    | Ge => Ok (if conv t b <=? conv t a then 1 else 0)
    end.

  (** [o a] *)
  Definition apply_un (o : unop) (ta : cty) (a : Z) : res Z :=
    let t := promote p ta in
    match o with
    | Neg => arith t (- conv t a)
    | BitNot => Ok (conv t (Z.lnot (conv t a)))
    end.

  (** The byte at a pointer and an index, which may be out of bounds. *)
  Definition position (s : state) (ptr : string) (i : Z) : res nat :=
    base <- need (lookup ptr (pointers s));;
    if i <? 0 then Fault OutOfBounds else Ok (base + Z.to_nat i)%nat.

  (** The value of an expression, of the type given by [type_of]. *)
  Fixpoint eval (s : state) (e : expr) : res Z :=
    match e with
    | Var x => '(t, bs) <- need (lookup x (locals s));; obj_value p t bs
    | Lit T z => Ok (conv (named T) z)
    | SizeofType T => Ok (conv (named Size) (Z.of_nat (csizeof (named T))))
    | SizeofVar x => '(t, _) <- need (lookup x (locals s));; Ok (conv (named Size) (Z.of_nat (csizeof t)))
    | Cast T e => v <- eval s e;; Ok (conv (named T) v)
    | Un o e =>
        t <- need (type_of (locals s) e);;
        v <- eval s e;;
        apply_un o t v
    | Bin o a b =>
        ta <- need (type_of (locals s) a);;
        tb <- need (type_of (locals s) b);;
        va <- eval s a;;
        vb <- eval s b;;
        apply_bin o ta va tb vb
    | Cond c a b =>
        ta <- need (type_of (locals s) a);;
        tb <- need (type_of (locals s) b);;
        v <- eval s c;;
        r <- (if v =? 0 then eval s b else eval s a);;
        Ok (conv (type_of_cond ta tb) r)
    | At ptr e =>
        i <- eval s e;;
        n <- position s ptr i;;
        load (bytes s) n
    end.

  (** An object of that type and value as bytes. *)
  Definition object (t : cty) (v : Z) : cty * list Z := (t, obj_bytes p t (conv t v)).

  (** [T x = v]: in front of the other variables. *)
  Definition define (x : string) (o : cty * list Z) (s : state) : state :=
    mk_state ((x, o) :: locals s) (pointers s) (bytes s).

  (** The variables of a function which is called. *)
  Fixpoint bind_params (s : state) (ps : list param) (args : list arg) (callee : state) : res state :=
    match ps, args with
    | [], [] => Ok callee
    | ToBytes x :: ps', Pointer y :: args' =>
        base <- need (lookup y (pointers s));;
        bind_params s ps' args' (mk_state (locals callee) ((x, base) :: pointers callee) (bytes callee))
    | Object T x :: ps', Value e :: args' =>
        v <- eval s e;;
        bind_params s ps' args' (define x (object (named T) v) callee)
    | _, _ => Fault TypeMismatch
    end.

  (** After a statement: the next one is run, or the function returns. *)
  Inductive flow : Type :=
  | Next (s : state)
  | Returned (s : state) (v : Z).

  (** [memcpy] of [n] bytes from an object, or to an object. *)
  Definition first_bytes (n : nat) (bs : list Z) : res (list Z) :=
    if (List.length bs <? n)%nat then Fault OutOfBounds else Ok (firstn n bs).
  Definition put_bytes (bs src : list Z) : res (list Z) :=
    if (List.length bs <? List.length src)%nat then Fault OutOfBounds else Ok (overwrite bs src).

  (** Statements.  [fuel] bounds the iterations of each loop. *)
  Fixpoint exec (fuel : nat) (c : stmt) (s : state) : res flow :=
    match c with
    | Skip => Ok (Next s)
    | Seq a b =>
        r <- exec fuel a s;;
        match r with Next s' => exec fuel b s' | Returned _ _ => Ok r end
    | Declare T x =>
        Ok (Next (define x (named T, indet_bytes p (csizeof (named T))) s))
    | Define T x e => v <- eval s e;; Ok (Next (define x (object (named T) v) s))
    | Auto x e =>
        t <- need (type_of (locals s) e);;
        v <- eval s e;;
        Ok (Next (define x (object t v) s))
    | Assign x e =>
        '(t, _) <- need (lookup x (locals s));;
        v <- eval s e;;
        Ok (Next (mk_state (update x (object t v) (locals s)) (pointers s) (bytes s)))
    | AssignAt ptr i e =>
        v <- eval s e;;
        k <- eval s i;;
        n <- position s ptr k;;
        m <- store (bytes s) n (conv (named Byte) v);;
        Ok (Next (mk_state (locals s) (pointers s) m))
    | For cond step body =>
        (fix loop (n : nat) (s : state) : res flow :=
           v <- eval s cond;;
           if v =? 0 then Ok (Next s)
           else match n with
                | O => Fault OutOfFuel
                | S n' =>
                    r <- exec fuel body s;;
                    match r with
                    | Next s1 =>
                        r1 <- exec fuel step s1;;
                        match r1 with Next s2 => loop n' s2 | Returned _ _ => Ok r1 end
                    | Returned _ _ => Ok r
                    end
                end) fuel s
    | CopyFrom x ptr n =>
        '(t, bs) <- need (lookup x (locals s));;
        k <- eval s n;;
        from <- position s ptr 0;;
        src <- load_range (bytes s) from (Z.to_nat k);;
        bs' <- put_bytes bs src;;
        Ok (Next (mk_state (update x (t, bs') (locals s)) (pointers s) (bytes s)))
    | CopyTo ptr x n =>
        '(_, bs) <- need (lookup x (locals s));;
        k <- eval s n;;
        to <- position s ptr 0;;
        src <- first_bytes (Z.to_nat k) bs;;
        m <- store_range (bytes s) to src;;
        Ok (Next (mk_state (locals s) (pointers s) m))
    | Copy x y n =>
        '(t, bs) <- need (lookup x (locals s));;
        '(_, bs1) <- need (lookup y (locals s));;
        k <- eval s n;;
        src <- first_bytes (Z.to_nat k) bs1;;
        bs' <- put_bytes bs src;;
        Ok (Next (mk_state (update x (t, bs') (locals s)) (pointers s) (bytes s)))
    | Return e => v <- eval s e;; Ok (Returned s v)
    | Call result returns ps body args =>
        s0 <- bind_params s ps args (mk_state [] [] (bytes s));;
        r <- exec fuel body s0;;
        match r, result, returns with
        | Next s1, None, None => Ok (Next (mk_state (locals s) (pointers s) (bytes s1)))
        | Returned s1 v, Some x, Some T =>
            Ok (Next (define x (object (named T) v) (mk_state (locals s) (pointers s) (bytes s1))))
        | _, _, _ => Fault TypeMismatch
        end
    | ReturnCall T ps body args =>
        s0 <- bind_params s ps args (mk_state [] [] (bytes s));;
        r <- exec fuel body s0;;
        match r with
        | Returned s1 v => Ok (Returned (mk_state (locals s) (pointers s) (bytes s1)) (conv (named T) v))
        | Next _ => Fault TypeMismatch
        end
    end.
End Interpreter.
