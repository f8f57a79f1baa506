(** An interpreter for the fragment of C++ in which the member functions of
    [buffered_dispatcher] and [dispatcher::operator()] are written: expressions with
    side effects, members and local variables with their types, [while], [if], calls
    of member functions and lambdas which capture by reference.  No proofs in this
    file.

    What is not in these functions is a parameter of the interpreter or is taken from
    the other files: reading an index (dispatcher.hpp 142-149) and calling an action
    (action.hpp 174-179, 221-223) are given by a [linkage], either the definitions of
    Rpc.v ([modelled]) or the statements of Library.v (Program.v); the size of the
    parameters is [Counters.input_size_w]. *)

From Coq Require Import List ZArith Bool Arith String.
From Verif Require Import Base CInt TypeLevel Serial TupleModel Rpc Buffered SpecBuffered Counters.
From Verif Require Cpp.
Import ListNotations.
Open Scope string_scope.
Open Scope list_scope.
Open Scope Z_scope.

(** The types of the members, of the local variables and of what is returned
    (buffered_dispatcher.hpp 97, 110, 130, 179, 275, 281-282). *)
Inductive typename : Type := TVoid | TBool | TByte | TInt | TSize | TIndex | TStatus.

(** [ibuf_begin()] and [obuf_begin()] (299-300, 357-358) point to these.  In a
    [single_buffered_dispatcher] they are the same bytes. *)
Inductive memory : Type := InputBuffer | OutputBuffer.

(** Values, with their types.  [Address] is a pointer to the [i]-th byte. *)
Inductive value : Type :=
| Nothing
| Number (t : cty) (z : Z)
| Status (s : packet_status)
| Address (m : memory) (i : nat).

(** The members (281-282). *)
Inductive member : Type := m_is_index_loaded | m_load_count | m_ibuf_next | m_obuf_next | m_obuf_bottom.

(** What can be assigned to and incremented. *)
Inductive lvalue : Type := Member (m : member) | Local (x : string).

(** The comparisons of 97, 112, 133, 146, 150, 200, 236; dispatcher.hpp 123. *)
Inductive comparison : Type := Less | LessEqual | Greater | Equal | NotEqual.

(** Expressions and statements of buffered_dispatcher.hpp 97, 109-117, 130-158,
    165-169, 179, 197-203, 236-237, 260-272 and dispatcher.hpp 119-127.  A lambda without
    parameters is the expression it returns.  A member function which is called is
    given by the type it returns, its parameter and its body. *)
Inductive expr : Type :=
| Read (l : lvalue)
| IntLit (z : Z)
| BoolLit (b : bool)
| StatusLit (s : packet_status)
| ByteInit                                       (* byte_t{} *)
| SizeofIndex                                    (* sizeof(index_t) *)
| DispatcherSize                                 (* m_dispatcher.size *)
| IbufBegin                                      (* derived().ibuf_begin() *)
| ObufBegin                                      (* derived().obuf_begin() *)
| Not (e : expr)
| And (a b : expr)
| Cond (c a b : expr)                            (* c ? a : b, of the same type *)
| Compare (o : comparison) (a b : expr)
| PostIncrement (l : lvalue)
| PreDecrement (l : lvalue)
| Deref (e : expr)
| At (e i : expr)                                (* e[i] *)
| CallSrc                                        (* src() *)
| GetIndex (lambda : expr)                       (* get_index([&]() { return lambda; }) *)
| InputSize (e : expr)                           (* m_dispatcher[e].input_size() *)
| Method (returns : typename) (body : stmt)
| Method1 (returns : typename) (T : typename) (x : string) (body : stmt) (arg : expr)
with stmt : Type :=
| Skip
| Seq (a b : stmt)
| Expr (e : expr)
| Assign (l : lvalue) (e : expr)                 (* l = e; *)
| AssignAt (a i e : expr)                        (* a[i] = e; *)
| Define (T : typename) (x : string) (e : expr)  (* T x = e; *)
| Auto (x : string) (e : expr)                   (* auto x = e; *)
| If (c : expr) (a b : stmt)
| While (c : expr) (body : stmt)
| Return (e : expr)
| CallDest (e : expr)                            (* dest(e); *)
| RunAction (index : expr) (getter : expr) (x : string) (putter : stmt).
    (* m_dispatcher[index]([&]() { return getter; }, [&](byte_t x) { putter }); *)

Notation "a ;;; b" := (Seq a b) (at level 62, right associativity).

(** The object, the local variables of the function being run (the last one first)
    and the world. *)
Record state (X : Type) : Type := mk_state {
  st_object : members X;
  st_locals : list (string * value);
  st_world : X
}.
Arguments mk_state {X} st_object st_locals st_world.
Arguments st_object {X} s.
Arguments st_locals {X} s.
Arguments st_world {X} s.

(** Whether the function goes on after a statement. *)
Inductive outcome : Type := Next | Returned (v : value).

(** A callback seen from a state: it acts on the world only (tuple.hpp 184, called
    through 266). *)
Definition within {X : Type} (f : func X) : func (state X) :=
  mk_func (f_sig f) (fun args st =>
    let (x, r) := f_call f args (st_world st) in
    (mk_state (st_object st) (st_locals st) x, r)).
(** The same for the object held by an action (action.hpp 102-117). *)
Definition within_model {X : Type} (a : model X) : model (state X) :=
  mk_model (m_e a) (m_m a) (within (m_func a)).
(** The same for an action (action.hpp 151-237). *)
Definition within_action {X : Type} (a : action X) : action (state X) :=
  match a with
  | Storage o => Storage (option_map within_model o)
  | NoStorage a => NoStorage (within_model a)
  end.
(** The same for [m_dispatcher] (280). *)
Definition within_dispatcher {X : Type} (d : dispatcher X) : dispatcher (state X) :=
  mk_dispatcher
    (mk_keyring (kr_e (d_keyring d)) (kr_m (d_keyring d))
       (map (fun nf => (fst nf, within (snd nf))) (kr_funcs (d_keyring d))))
    (d_features d) (map within_action (d_actions d)).

(** The functions which the member functions call: [get_index] (dispatcher.hpp
    141-149) and the call of an action (action.hpp 174-179, 221-223). *)
Record linkage (W : Type) : Type := mk_linkage {
  l_index : dispatcher W -> source W -> W -> res (W * nat);
  l_run : action W -> source W -> destination W -> W -> res W
}.
Arguments mk_linkage {W} l_index l_run.
Arguments l_index {W} l.
Arguments l_run {W} l.
(** Those of Rpc.v (dispatcher.hpp 141-149; action.hpp 174-179, 221-223). *)
Definition modelled (p : platform) {W : Type} : linkage W := mk_linkage (get_index p) (run p).

Section Interpreter.
  Variable p : platform.
  (** [sizeof(std::size_t)] *)
  Variable sz : nat.
  (** The greatest number of turns of a loop. *)
  Variable fuel : nat.
  Context {X : Type}.
  Variable link : linkage (state X).
  Variable src : source X.
  Variable dest : destination X.

  (** The type on this host; [index_t] depends on the keyring (77, keyring.hpp
      52). *)
  Definition number_type (b : members X) (T : typename) : res cty :=
    match T with
    | TBool => Ok CBool
    | TByte => Ok (CInt 1 false)
    | TInt => Ok (CInt (p_int_size p) true)
    | TSize => Ok (CInt sz false)
    | TIndex => Ok (CInt (index_length (s_dispatcher b)) false)
    | _ => Fault TypeMismatch
    end.

  (** Conversion from a type to another one. *)
  Definition convert (ta t : cty) (z : Z) : Z := if Cpp.same_type ta t then z else conv t z.

  (** Initialisation of an object of type [T], or return from a function of type
      [T]. *)
  Definition into (b : members X) (T : typename) (v : value) : res value :=
    match T, v with
    | TVoid, _ => Ok Nothing
    | TStatus, Status s => Ok (Status s)
    | _, Number ta z => t <- number_type b T;; Ok (Number t (convert ta t z))
    | _, _ => Fault TypeMismatch
    end.

  (** [if], [while], [!], [&&]: conversion to [bool]. *)
  Definition truth (v : value) : res bool :=
    match v with Number t z => Ok (negb (z =? 0)) | _ => Fault TypeMismatch end.

  (** A [bool]. *)
  Definition bool_value (b : bool) : value := Number CBool (if b then 1 else 0).

  (** A number where one is needed. *)
  Definition number (v : value) : res Z := match v with Number _ z => Ok z | _ => Fault TypeMismatch end.

  (** The values of the members (281-282). *)
  Definition member_value (m : member) (b : members X) : value :=
    match m with
    | m_is_index_loaded => bool_value (s_is_index_loaded b)
    | m_load_count => Number (CInt sz false) (s_load_count b)
    | m_ibuf_next => Number (CInt sz false) (s_ibuf_next b)
    | m_obuf_next => Number (CInt sz false) (s_obuf_next b)
    | m_obuf_bottom => Number (CInt sz false) (s_obuf_bottom b)
    end.

  (** Their types. *)
  Definition member_type (m : member) : typename :=
    match m with m_is_index_loaded => TBool | _ => TSize end.

  (** A member takes another value. *)
  Definition set_member (m : member) (z : Z) (b : members X) : members X :=
    let '(mk_members d l c i n o bufs) := b in
    match m with
    | m_is_index_loaded => mk_members d (negb (z =? 0)) c i n o bufs
    | m_load_count => mk_members d l z i n o bufs
    | m_ibuf_next => mk_members d l c z n o bufs
    | m_obuf_next => mk_members d l c i z o bufs
    | m_obuf_bottom => mk_members d l c i n z bufs
    end.

  (** The value of an lvalue. *)
  Definition read (l : lvalue) (st : state X) : res value :=
    match l with
    | Member m => Ok (member_value m (st_object st))
    | Local x => Cpp.need (Cpp.lookup x (st_locals st))
    end.

  (** [l = v]: the value is converted to the type of [l]. *)
  Definition write (l : lvalue) (v : value) (st : state X) : res (state X) :=
    match l with
    | Member m =>
        v' <- into (st_object st) (member_type m) v;;
        z <- number v';;
        Ok (mk_state (set_member m z (st_object st)) (st_locals st) (st_world st))
    | Local x =>
        old <- Cpp.need (Cpp.lookup x (st_locals st));;
        v' <- match old, v with
              | Number t _, Number ta z => Ok (Number t (convert ta t z))
              | Status _, Status s => Ok (Status s)
              | Address _ _, Address m i => Ok (Address m i)
              | _, _ => Fault TypeMismatch
              end;;
        Ok (mk_state (st_object st) (Cpp.update x v' (st_locals st)) (st_world st))
    end.

  (** [v + 1] or [v - 1], to be given back to what holds [v]: computed in the type
      of the usual arithmetic conversions with [int]. *)
  Definition moved (up : bool) (v : value) : res value :=
    match v with
    | Number t z =>
        let c := Cpp.common p t (CInt (p_int_size p) true) in
        r <- arith c (if up then convert t c z + 1 else convert t c z - 1);;
        Ok (Number c r)
    | Address m i => if up then Ok (Address m (S i)) else Fault TypeMismatch
    | _ => Fault TypeMismatch
    end.

  (** Usual arithmetic conversions, then the comparison; enumerators of the same
      type. *)
  Definition compare (o : comparison) (v w : value) : res value :=
    match v, w with
    | Number t a, Number u b =>
        let c := Cpp.common p t u in
        let a' := convert t c a in
        let b' := convert u c b in
        Ok (bool_value (match o with
                        | Less => a' <? b'
                        | LessEqual => a' <=? b'
                        | Greater => b' <? a'
                        | Equal => a' =? b'
                        | NotEqual => negb (a' =? b')
                        end))
    | Status s, Status u =>
        let same := match s, u with
                    | LOADING_PACKET, LOADING_PACKET
                    | DROPPED_PACKET, DROPPED_PACKET
                    | RESOLVED_PACKET, RESOLVED_PACKET => true
                    | _, _ => false
                    end in
        match o with
        | Equal => Ok (bool_value same)
        | NotEqual => Ok (bool_value (negb same))
        | _ => Fault TypeMismatch
        end
    | _, _ => Fault TypeMismatch
    end.

  (** The bytes of a buffer. *)
  Definition memory_of (m : memory) (st : state X) : list Z :=
    match m with
    | InputBuffer => ibuf (s_bufs (st_object st))
    | OutputBuffer => obuf (s_bufs (st_object st))
    end.

  (** [*ptr] or [ptr[n]]: out of the buffer there is nothing.  [n] is unsigned. *)
  Definition load_at (v : value) (n : Z) (st : state X) : res value :=
    match v with
    | Address m i => z <- load (memory_of m st) (i + Z.to_nat n)%nat;; Ok (Number (CInt 1 false) z)
    | _ => Fault TypeMismatch
    end.

  (** [ptr[n] = byte]; the value is converted to [byte_t]. *)
  Definition store_at (v : value) (n : Z) (byte : value) (st : state X) : res (state X) :=
    match v, byte with
    | Address m i, Number t z =>
        bytes <- store (memory_of m st) (i + Z.to_nat n)%nat (convert t (CInt 1 false) z);;
        let '(mk_members d l c j n o bufs) := st_object st in
        let bufs' := match m with InputBuffer => set_ibuf bytes bufs | OutputBuffer => set_obuf bytes bufs end in
        Ok (mk_state (mk_members d l c j n o bufs') (st_locals st) (st_world st))
    | _, _ => Fault TypeMismatch
    end.

  (** A local variable more. *)
  Definition declare (x : string) (v : value) (st : state X) : state X :=
    mk_state (st_object st) ((x, v) :: st_locals st) (st_world st).

  (** End of a lambda: its local variables go, those captured stay. *)
  Definition leave (before : list (string * value)) (st : state X) : state X :=
    mk_state (st_object st) (skipn (List.length (st_locals st) - List.length before) (st_locals st)) (st_world st).

  (** What is returned; nothing when the end of the body is reached. *)
  Definition returned (o : outcome) : value := match o with Next => Nothing | Returned v => v end.

  (** Expressions.  In an assignment the right operand is evaluated first (C++17; it
      makes no difference in these functions). *)
  Fixpoint eval (e : expr) (st : state X) {struct e} : res (state X * value) :=
    match e with
    | Read l => v <- read l st;; Ok (st, v)
    | IntLit z => Ok (st, Number (CInt (p_int_size p) true) z)
    | BoolLit b => Ok (st, bool_value b)
    | StatusLit s => Ok (st, Status s)
    | ByteInit => Ok (st, Number (CInt 1 false) 0)
    | SizeofIndex => Ok (st, Number (CInt sz false) (Z.of_nat (index_length (s_dispatcher (st_object st)))))
    | DispatcherSize =>
        let d := s_dispatcher (st_object st) in
        Ok (st, Number (CInt (index_length d) false) (Z.of_nat (d_size d)))
    | IbufBegin => Ok (st, Address InputBuffer 0)
    | ObufBegin => Ok (st, Address OutputBuffer 0)
    | Not a =>
        '(st1, v) <- eval a st;;
        b <- truth v;;
        Ok (st1, bool_value (negb b))
    | And a c =>
        '(st1, v) <- eval a st;;
        b <- truth v;;
        if b then
          '(st2, w) <- eval c st1;;
          b' <- truth w;;
          Ok (st2, bool_value b')
        else Ok (st1, bool_value false)
    | Cond c a a' =>
        '(st1, v) <- eval c st;;
        b <- truth v;;
        if b then eval a st1 else eval a' st1
    | Compare o a c =>
        '(st1, v) <- eval a st;;
        '(st2, w) <- eval c st1;;
        r <- compare o v w;;
        Ok (st2, r)
    | PostIncrement l =>
        v <- read l st;;
        w <- moved true v;;
        st1 <- write l w st;;
        Ok (st1, v)
    | PreDecrement l =>
        v <- read l st;;
        w <- moved false v;;
        st1 <- write l w st;;
        v' <- read l st1;;
        Ok (st1, v')
    | Deref a =>
        '(st1, v) <- eval a st;;
        b <- load_at v 0 st1;;
        Ok (st1, b)
    | At a i =>
        '(st1, v) <- eval a st;;
        '(st2, w) <- eval i st1;;
        n <- number w;;
        b <- load_at v n st2;;
        Ok (st2, b)
    | CallSrc =>
        '(x, byte) <- src (st_world st);;
        Ok (mk_state (st_object st) (st_locals st) x, Number (CInt 1 false) byte)
    | GetIndex lambda =>
        let d := s_dispatcher (st_object st) in
        '(st1, index) <- l_index link (within_dispatcher d)
          (fun st => '(st1, v) <- eval lambda st;; z <- number v;; Ok (st1, z)) st;;
        Ok (st1, Number (CInt (index_length d) false) (Z.of_nat index))
    | InputSize a =>
        '(st1, v) <- eval a st;;
        i <- number v;;
        a <- action_at (s_dispatcher (st_object st1)) (Z.to_nat i);;
        n <- input_size_w sz a;;
        Ok (st1, Number (CInt sz false) n)
    | Method returns body =>
        '(st1, o) <- exec body (mk_state (st_object st) [] (st_world st));;
        v <- into (st_object st1) returns (returned o);;
        Ok (mk_state (st_object st1) (st_locals st) (st_world st1), v)
    | Method1 returns T x body arg =>
        '(st0, w) <- eval arg st;;
        w' <- into (st_object st0) T w;;
        '(st1, o) <- exec body (mk_state (st_object st0) [(x, w')] (st_world st0));;
        v <- into (st_object st1) returns (returned o);;
        Ok (mk_state (st_object st1) (st_locals st0) (st_world st1), v)
    end
  with exec (s : stmt) (st : state X) {struct s} : res (state X * outcome) :=
    match s with
    | Skip => Ok (st, Next)
    | Seq a c =>
        '(st1, o) <- exec a st;;
        match o with
        | Next => exec c st1
        | Returned v => Ok (st1, Returned v)
        end
    | Expr e => '(st1, _) <- eval e st;; Ok (st1, Next)
    | Assign l e =>
        '(st1, v) <- eval e st;;
        st2 <- write l v st1;;
        Ok (st2, Next)
    | AssignAt a i e =>
        '(st1, v) <- eval e st;;
        '(st2, ptr) <- eval a st1;;
        '(st3, w) <- eval i st2;;
        n <- number w;;
        st4 <- store_at ptr n v st3;;
        Ok (st4, Next)
    | Define T x e =>
        '(st1, v) <- eval e st;;
        v' <- into (st_object st1) T v;;
        Ok (declare x v' st1, Next)
    | Auto x e =>
        '(st1, v) <- eval e st;;
        Ok (declare x v st1, Next)
    | If c a a' =>
        '(st1, v) <- eval c st;;
        b <- truth v;;
        if b then exec a st1 else exec a' st1
    | While c body =>
        (fix loop (n : nat) (st : state X) : res (state X * outcome) :=
           '(st1, v) <- eval c st;;
           b <- truth v;;
           if b then
             match n with
             | O => Fault OutOfFuel
             | S n' =>
                 '(st2, o) <- exec body st1;;
                 match o with
                 | Next => loop n' st2
                 | Returned v => Ok (st2, Returned v)
                 end
             end
           else Ok (st1, Next)) fuel st
    | Return e => '(st1, v) <- eval e st;; Ok (st1, Returned v)
    | CallDest e =>
        '(st1, v) <- eval e st;;
        byte <- number v;;
        x <- dest byte (st_world st1);;
        Ok (mk_state (st_object st1) (st_locals st1) x, Next)
    | RunAction index getter x putter =>
        '(st1, v) <- eval index st;;
        i <- number v;;
        a <- action_at (within_dispatcher (s_dispatcher (st_object st1))) (Z.to_nat i);;
        st2 <- l_run link a
          (fun st => '(st1, v) <- eval getter st;; z <- number v;; Ok (st1, z))
          (fun byte st =>
             '(st1, _) <- exec putter (declare x (Number (CInt 1 false) byte) st);;
             Ok (leave (st_locals st) st1)) st1;;
        Ok (st2, Next)
    end.
End Interpreter.
