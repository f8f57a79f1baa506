(** Model of callbacks which replace, move and call actions while they run.  No
    proofs in this file.

    In Functors.v functors act on their members and on the world; here what an
    [operator()] does is a script, which may also change and call the actions of
    the program, in particular the one which is calling it.  Byte getters and
    putters are lists of bytes.  Destructors of functors have no effects, and
    functors return values. *)

From Coq Require Import List ZArith Bool Arith.
From Verif Require Import Base CInt IntModel TypeLevel Serial TupleModel SpecRpc Rpc.
Import ListNotations.
Open Scope nat_scope.

(** Functors: variables of the program (among which those of static storage
    duration), and the members [ftor] (action.hpp 81) of what actions allocate
    (162).  Blocks are numbered in the order of their allocation. *)
Inductive name : Type :=
| Var (o : nat)
| Block (b : nat).

(** Same object.  (No counterpart in /repo; blocks are allocated at
    action.hpp 160.) *)
Definition name_eqb (a b : name) : bool :=
  match a, b with
  | Var x, Var y | Block x, Block y => x =? y
  | _, _ => false
  end.

(** An [action] (action.hpp 151-200): the pointer is null, or the member [F ftor] of
    what it points to is an object, or a reference.  A [no_storage_action] (207-239)
    is a reference to a functor of static storage duration (212-217).  The actions
    of a dispatcher (dispatcher.hpp 65) are some of the actions of the program: the
    dispatcher holds nothing else. *)
Inductive slot : Type :=
| Null
| Owns (b : nat)
| Refers (n : name).

(** What an action is made from: nothing ([action{}]), a temporary of class [c] whose
    state is [s] once moved, or an object which has a name.
    (action.hpp 153, 158-160.) *)
Inductive given (S : Type) : Type :=
| Nothing
| Temporary (c : nat) (s : S)
| Lvalue (n : name).
Arguments Nothing {S}.
Arguments Temporary {S} c s.
Arguments Lvalue {S} n.

(** The body of a function, step by step.
    (What tuple.hpp 184 calls; actions: action.hpp 151-200.) *)
Inductive code (S X : Type) : Type :=
| Return (v : val)
| World (f : X -> X * code S X)                  (* anything else in the program *)
| Members (f : S -> S * code S X)                (* the members of [*this] *)
| Declare (o c : nat) (s : S) (k : code S X)     (* C o{s}; *)
| Destroy (o : nat) (k : code S X)               (* the end of the lifetime of [o] *)
| Assign (a : nat) (g : given S) (k : code S X)  (* a = action{...}; or replace<a>(...) *)
| MoveTo (a b : nat) (k : code S X)              (* a = std::move(b); *)
| Call (a : nat) (input : list Z) (k : list Z -> code S X). (* a(input, output) *)
Arguments Return {S X} v.
Arguments World {S X} f.
Arguments Members {S X} f.
Arguments Declare {S X} o c s k.
Arguments Destroy {S X} o k.
Arguments Assign {S X} a g k.
Arguments MoveTo {S X} a b k.
Arguments Call {S X} a input k.

(** A class of functors: the signature and the body of its [operator()], which knows
    [*this].  A free function is a class without members.
    (The [F] of action.hpp 75-82.) *)
Record class (S X : Type) : Type := mk_class {
  cl_sig : signature;
  cl_body : name -> list val -> code S X
}.
Arguments mk_class {S X} cl_sig cl_body.
Arguments cl_sig {S X} c.
Arguments cl_body {S X} c.

(** The objects which are alive (their class and their state), the number of
    allocations so far, the actions and the rest of the program.
    (action.hpp 81, 160, 199.) *)
Record memory (S X : Type) : Type := mk_memory {
  objects : name -> option (nat * S);
  next : nat;
  slots : nat -> slot;
  outside : X
}.
Arguments mk_memory {S X} objects next slots outside.
Arguments objects {S X} m.
Arguments next {S X} m.
Arguments slots {S X} m.
Arguments outside {S X} m.

(** The use of an object which is not alive is [Undefined].
    (In particular the [m_impl.ftor] of action.hpp 113.) *)
Inductive outcome (A : Type) : Type :=
| Done (a : A)
| Undefined
| Wrong (f : fault).
Arguments Done {A} a.
Arguments Undefined {A}.
Arguments Wrong {A} f.

(** An object is created, changed or destroyed (blocks: action.hpp 160, 86). *)
Definition set_object {S X : Type} (n : name) (o : option (nat * S)) (t : memory S X) : memory S X :=
  mk_memory (fun k => if name_eqb k n then o else objects t k) (next t) (slots t) (outside t).
(** The pointer of an action changes (action.hpp 199). *)
Definition set_slot {S X : Type} (a : nat) (s : slot) (t : memory S X) : memory S X :=
  mk_memory (objects t) (next t) (fun i => if i =? a then s else slots t i) (outside t).

(** [delete] of what the pointer of an action points to (action.hpp 86 and 199). *)
Definition delete {S X : Type} (s : slot) (t : memory S X) : outcome (memory S X) :=
  match s with
  | Owns b =>
      match objects t (Block b) with
      | Some _ => Done (set_object (Block b) None t)
      | None => Undefined
      end
  | _ => Done t
  end.

(** action.hpp 160-163: for an lvalue, the member [ftor] (81) is a reference; for an
    rvalue, it is an object, in a new block. *)
Definition new_action {S X : Type} (g : given S) (t : memory S X) : outcome (memory S X * slot) :=
  match g with
  | Nothing => Done (t, Null)
  | Temporary c s =>
      let t1 := set_object (Block (next t)) (Some (c, s)) t in
      Done (mk_memory (objects t1) (Datatypes.S (next t1)) (slots t1) (outside t1), Owns (next t))
  | Lvalue n =>
      match objects t n with
      | Some _ => Done (t, Refers n)
      | None => Undefined
      end
  end.

(** dispatcher.hpp 160 and 186, and the implicit [action::operator=(action &&)]:
    the pointer is changed, then what it pointed to is deleted. *)
Definition assign {S X : Type} (a : nat) (g : given S) (t : memory S X) : outcome (memory S X) :=
  match new_action g t with
  | Done (t1, s) => delete (slots t1 a) (set_slot a s t1)
  | Undefined => Undefined
  | Wrong f => Wrong f
  end.

(** [std::unique_ptr::operator=(std::unique_ptr &&)]: [reset(u.release())]
    (action.hpp 199.) *)
Definition move_assign {S X : Type} (a b : nat) (t : memory S X) : outcome (memory S X) :=
  if a =? b then Done t
  else delete (slots t a) (set_slot a (slots t b) (set_slot b Null t)).

Section Lifetimes.
  Variable p : platform.
  Variables (e : endianess) (m : signed_mode).
  Context {S X : Type}.
  Variable classes : nat -> class S X.

  Section Play.
    (** The call of an action on some bytes; its response. *)
    Variable enter : nat -> list Z -> memory S X -> outcome (memory S X * list Z).

    (** A body run on the object [self] ([None]: the body of a function).
        (tuple.hpp 184; action.hpp 113.) *)
    Fixpoint play (self : option name) (c : code S X) (t : memory S X) : outcome (memory S X * val) :=
      match c with
      | Return v => Done (t, v)
      | World f =>
          let (x', k) := f (outside t) in
          play self k (mk_memory (objects t) (next t) (slots t) x')
      | Members f =>
          match self with
          | None => Wrong TypeMismatch
          | Some n =>
              match objects t n with
              | None => Undefined
              | Some (c, s) => let (s', k) := f s in play self k (set_object n (Some (c, s')) t)
              end
          end
      | Declare o c s k => play self k (set_object (Var o) (Some (c, s)) t)
      | Destroy o k =>
          match objects t (Var o) with
          | None => Undefined
          | Some _ => play self k (set_object (Var o) None t)
          end
      | Assign a g k =>
          match assign a g t with
          | Done t1 => play self k t1
          | Undefined => Undefined
          | Wrong f => Wrong f
          end
      | MoveTo a b k =>
          match move_assign a b t with
          | Done t1 => play self k t1
          | Undefined => Undefined
          | Wrong f => Wrong f
          end
      | Call a input k =>
          match enter a input t with
          | Done (t1, output) => play self (k output) t1
          | Undefined => Undefined
          | Wrong f => Wrong f
          end
      end.
  End Play.

  (** action.hpp 64-66: the tuple of the arguments is a local variable *)
  Definition read_arguments (ts : list ty) (input : list Z) : res (list val) :=
    '(w, st) <- read_tuple p e m ts take_wire (mk_wires input [] tt);;
    '(_, args) <- invoke p (tuple_at e m ts 0) (fun args w => (w, args)) st w;;
    Ok args.

  (** action.hpp 68 (through 36-41): the result is serialized once the functor has
      returned *)
  Definition write_result (ret : option ty) (v : val) : res (list Z) :=
    match ret with
    | None => Ok []
    | Some t => w <- insert p e m give_wire t v (mk_wires [] [] tt);; Ok (w_out w)
    end.

  (** action.hpp 174-179, 113 and 53-69; 122-141 for a [no_storage_action].  [depth]
      bounds the number of calls running at the same time. *)
  Fixpoint enter (depth : nat) (a : nat) (input : list Z) (t : memory S X) : outcome (memory S X * list Z) :=
    match depth with
    | 0 => Wrong OutOfFuel
    | Datatypes.S depth' =>
        match slots t a with
        | Null => Done (t, [])
        | Owns _ | Refers _ =>
            let n := match slots t a with Refers n => n | Owns b => Block b | Null => Var 0 end in
            match objects t n with
            | None => Undefined
            | Some (c, _) =>
                let sg := cl_sig (classes c) in
                match read_arguments (sig_params sg) input with
                | Fault f => Wrong f
                | Ok args =>
                    match play (enter depth') (Some n) (cl_body (classes c) n args) t with
                    | Undefined => Undefined
                    | Wrong f => Wrong f
                    | Done (t1, v) =>
                        match write_result (sig_ret sg) v with
                        | Ok output => Done (t1, output)
                        | Fault f => Wrong f
                        end
                    end
                end
            end
        end
    end.

  (** A whole program.
      (test/snippet/caller5, lines 4-29, is one.) *)
  Definition program (depth : nat) (c : code S X) (x : X) : outcome (memory S X * val) :=
    play (enter depth) None c (mk_memory (fun _ => None) 0 (fun _ => Null) x).
End Lifetimes.
