(** Model of the functors held by actions.  No proofs in this file.

    In Rpc.v a callback acts on the world only, and what a functor holds is a
    part of the world.  Here the functors are objects of a class, which have a
    state, are declared and destroyed by the program, and are given to actions. *)

From Coq Require Import List ZArith Bool Arith.
From Verif Require Import Base CInt IntModel TypeLevel Serial TupleModel SpecRpc Rpc.
Import ListNotations.
Open Scope nat_scope.

(** A class of functors: the signature and the effect of its [operator()] (not
    overloaded: signature.hpp 44-71) on the state of the object and on the
    world, and its move constructor, which gives the state of the new object
    and the one of the object moved from. *)
Record functor_class (S X : Type) : Type := mk_class {
  g_sig : signature;
  g_call : list val -> S -> X -> S * X * val;
  g_take : S -> S * S
}.
Arguments mk_class {S X} g_sig g_call g_take.
Arguments g_sig {S X} f.
Arguments g_call {S X} f.
Arguments g_take {S X} f.

(** An [action] (action.hpp 151-200): the pointer is null, or the member
    [F ftor] of [action_model_impl] (81) is an object, or a reference to the
    variable [o]. *)
Inductive slot (S : Type) : Type :=
| Null
| Own (s : S)
| Ref (o : nat).
Arguments Null {S}.
Arguments Own {S} s.
Arguments Ref {S} o.

(** The variables of the program ([None]: not declared, or destroyed), its
    actions, the world, and whether some behaviour was undefined.
    (Actions: action.hpp 81, 199.) *)
Record memory (S X : Type) : Type := mk_memory {
  variables : nat -> option S;
  slots : nat -> slot S;
  outside : X;
  undefined : bool
}.
Arguments mk_memory {S X} variables slots outside undefined.
Arguments variables {S X} m.
Arguments slots {S X} m.
Arguments outside {S X} m.
Arguments undefined {S X} m.

(** [f], except at [i].  Not in the library: how the memory of the program
    is represented. *)
Definition update {A : Type} (f : nat -> A) (i : nat) (a : A) : nat -> A := fun j => if j =? i then a else f j.

(** What a program does.
    (Actions are made at action.hpp 158-160, called at 175-179, replaced at
    dispatcher.hpp 154-187.) *)
Inductive op (S : Type) : Type :=
| Declare (o : nat) (s : S)         (* G o{s}; *)
| Assign (o : nat) (s : S)          (* o = G{s}; or any other change *)
| EndOfScope (o : nat)              (* o is destroyed *)
| FromLvalue (a o : nat)            (* a = action{o, ...}; or replace<I>(o) *)
| FromRvalue (a o : nat)            (* a = action{std::move(o), ...}; *)
| FromTemporary (a : nat) (s : S)   (* a = action{G{s}, ...}; *)
| Move (a b : nat)                  (* a = std::move(b); *)
| Clear (a : nat)                   (* a = action{}; or the end of its scope *)
| Call (a : nat) (input : list Z).    (* a is called on these bytes *)
Arguments Declare {S} o s.
Arguments Assign {S} o s.
Arguments EndOfScope {S} o.
Arguments FromLvalue {S} a o.
Arguments FromRvalue {S} a o.
Arguments FromTemporary {S} a s.
Arguments Move {S} a b.
Arguments Clear {S} a.
Arguments Call {S} a input.

(** What can be seen: the action which was called, the variable on which it
    called [operator()], if any, the bytes given, the world before and after and
    the bytes of the response; the changes which the program makes to variables.
    (Calls: action.hpp 113, 62-69.) *)
Inductive event (S X : Type) : Type :=
| Called (a : nat) (o : option nat) (input : list Z) (before after : X) (output : list Z)
| Written (o : nat) (s : S)
| Taken (o : nat).
Arguments Called {S X} a o input before after output.
Arguments Written {S X} o s.
Arguments Taken {S X} o.

Section Functors.
  Variable p : platform.
  Variables (e : endianess) (m : signed_mode).
  Context {S X : Type}.
  Variable g : functor_class S X.

  (** [UPD_FWD(m_impl.ftor)(...)] (action.hpp 113, tuple.hpp 184): the functor
      itself is called, not a copy.  The use of a destroyed variable is
      recorded; the value is then immaterial. *)
  Definition held_functor (a : nat) : func (wires (memory S X)) :=
    mk_func (g_sig g) (fun args w =>
      let t := w_user w in
      match slots t a with
      | Own s =>
          let '(s', x', r) := g_call g args s (outside t) in
          (mk_wires (w_in w) (w_out w)
             (mk_memory (variables t) (update (slots t) a (Own s')) x' (undefined t)), r)
      | Ref o =>
          match variables t o with
          | Some s =>
              let '(s', x', r) := g_call g args s (outside t) in
              (mk_wires (w_in w) (w_out w)
                 (mk_memory (update (variables t) o (Some s')) (slots t) x' (undefined t)), r)
          | None =>
              (mk_wires (w_in w) (w_out w) (mk_memory (variables t) (slots t) (outside t) true),
               match sig_ret (g_sig g) with Some t => default_val t | None => VInt 0 end)
          end
      | Null => (w, VInt 0)
      end).

  (** action.hpp 174-179 on the slot [a] *)
  Definition held_action (t : memory S X) (a : nat) : action (wires (memory S X)) :=
    match slots t a with
    | Null => Storage None
    | _ => Storage (Some (mk_model e m (held_functor a)))
    end.

  (** - action.hpp 160-163 and dispatcher.hpp 181-187: for an lvalue of type
        [G], [F] is deduced as [G &] and the member [F ftor] (81) is a
        reference; for an rvalue, [F] is [G] and the member is
        move-constructed (79);
      - the assignment of an action is that of its [std::unique_ptr] (192):
        what it pointed to is destroyed. *)
  Definition step (o : op S) (t : memory S X) : res (memory S X * list (event S X)) :=
    let set_slot a s := mk_memory (variables t) (update (slots t) a s) (outside t) (undefined t) in
    let set_var o s := mk_memory (update (variables t) o s) (slots t) (outside t) (undefined t) in
    match o with
    | Declare o s => Ok (set_var o (Some s), [Written o s])
    | Assign o s => Ok (set_var o (Some s), [Written o s])
    | EndOfScope o => Ok (set_var o None, [])
    | FromLvalue a o => Ok (set_slot a (Ref o), [])
    | FromRvalue a o =>
        match variables t o with
        | Some s =>
            let (s1, s2) := g_take g s in
            Ok (mk_memory (update (variables t) o (Some s2)) (update (slots t) a (Own s1)) (outside t) (undefined t),
                [Taken o])
        | None => Ok (mk_memory (variables t) (slots t) (outside t) true, [])
        end
    | FromTemporary a s => Ok (set_slot a (Own (fst (g_take g s))), [])
    | Move a b =>
        if a =? b then Ok (t, [])
        else Ok (mk_memory (variables t) (update (update (slots t) b Null) a (slots t b)) (outside t) (undefined t), [])
    | Clear a => Ok (set_slot a Null, [])
    | Call a input =>
        w <- run p (held_action t a) take_wire give_wire (mk_wires input [] t);;
        Ok (w_user w,
            match slots t a with
            | Null => []
            | Own _ => [Called a None input (outside t) (outside (w_user w)) (w_out w)]
            | Ref o => [Called a (Some o) input (outside t) (outside (w_user w)) (w_out w)]
            end)
    end.

  (** A whole program.  [None]: undefined behaviour.
      (action.hpp 151-200.) *)
  Fixpoint exec (ops : list (op S)) (t : memory S X) : res (option (memory S X * list (event S X))) :=
    match ops with
    | [] => Ok (Some (t, []))
    | o :: ops' =>
        '(t1, ev) <- step o t;;
        if undefined t1 then Ok None
        else
          r <- exec ops' t1;;
          match r with
          | None => Ok None
          | Some (t2, evs) => Ok (Some (t2, ev ++ evs))
          end
    end.
End Functors.
