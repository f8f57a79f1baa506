(** Model of the memory which actions and dispatchers allocate.  No proofs in this
    file.

    In Rpc.v an [action] holds its callback; here it holds the pointer to the
    object allocated for it, and allocations may fail.  The only expression of the
    library which allocates is the [new] of action.hpp 160; the only one which
    frees is the destructor of the [std::unique_ptr] of 192. *)

From Coq Require Import List Bool Arith.
From Verif Require Import Rpc.
Import ListNotations.
Open Scope nat_scope.

(** What the allocator sees, most recent first.  Blocks are numbered by the requests
    made so far.
    ([new]: action.hpp 160; [delete]: 86, 199.) *)
Inductive heap_event : Type :=
| Allocated (b : nat)
| Refused
| Freed (b : nat).

(** The history of the allocator (action.hpp 160, 199). *)
Definition heap : Type := list heap_event.

(** How many times [new] (action.hpp 160) was called. *)
Definition requests (h : heap) : nat :=
  length (filter (fun ev => match ev with Freed _ => false | _ => true end) h).

(** A callback given to an action: which one it is, and whether the construction of
    the member [ftor] (action.hpp 79) throws. *)
Record functor : Type := mk_functor {
  fn_id : nat;
  fn_throws : bool
}.

(** An [action] (action.hpp 151-200): null, or the block and the callback in it.
    A [no_storage_action] (207-239) holds the callback and no block. *)
Inductive slot : Type :=
| Null
| Owned (b : nat) (f : nat)
| Static (f : nat).

(** An action or a dispatcher: dispatcher.hpp 66 [action_t content[Size]], an action
    being an array of one.  Buffered dispatchers allocate nothing else: their
    buffers are members. *)
Record object : Type := mk_object {
  o_features : action_features;
  o_slots : list slot
}.

(** What an expression does: it returns or throws.
    ([new] at action.hpp 160 may throw.) *)
Inductive result (A : Type) : Type :=
| Value (a : A)
| Throws.
Arguments Value {A} a.
Arguments Throws {A}.

(** [delete] of what the pointer points to (the destructor of [action_concept] is
    virtual: action.hpp 86). *)
Definition free (s : slot) (h : heap) : heap :=
  match s with
  | Owned b _ => Freed b :: h
  | _ => h
  end.

(** The destruction of an array: the elements from the last one to the first one.
    (dispatcher.hpp 199.) *)
Fixpoint free_all (ss : list slot) (h : heap) : heap :=
  match ss with
  | [] => h
  | s :: ss' => free s (free_all ss' h)
  end.

(** [std::unique_ptr(std::unique_ptr &&)]: the new pointer and what is left in the
    other one.  A [no_storage_action] is copied.
    (action.hpp 199, 234-235.) *)
Definition move_from (s : slot) : slot * slot :=
  match s with
  | Owned b f => (Owned b f, Null)
  | Null => (Null, Null)
  | Static f => (Static f, Static f)
  end.

(** A temporary returned by value from a function: it is moved as many times as the
    compiler does not elide the move, and each temporary is destroyed.
    (dispatcher.hpp 30-48, 59-66.) *)
Fixpoint moved (n : nat) (s : slot) (h : heap) : slot * heap :=
  match n with
  | 0 => (s, h)
  | S n' => let (s1, old) := move_from s in moved n' s1 (free old h)
  end.

(** [std::unique_ptr::operator=(std::unique_ptr &&)]: [reset(u.release())].  The pointer
    is replaced before what it pointed to is deleted.
    (action.hpp 199; dispatcher.hpp 160, 186.) *)
Definition move_assign (dst src : slot) (h : heap) : slot * slot * heap :=
  match src with
  | Static f => (Static f, Static f, free dst h)
  | _ => let (s, old) := move_from src in (s, old, free dst h)
  end.

Section Alloc.
  (** Which requests are refused: [std::bad_alloc] is thrown. *)
  Variable refuses : nat -> bool.
  (** How many moves are not elided (none since C++17, which requires it). *)
  Variable moves : nat.

  (** action.hpp 160-163.  If the constructor throws, the new-expression frees the
      block. *)
  Definition new_action (f : functor) (h : heap) : heap * result slot :=
    let b := requests h in
    if refuses b then (Refused :: h, Throws)
    else if fn_throws f then (Freed b :: Allocated b :: h, Throws)
    else (Allocated b :: h, Value (Owned b (fn_id f))).

  (** dispatcher.hpp 30-48 [make_action].  A [no_storage_action] is made of a pointer
      to a function and two sizes (action.hpp 217-219). *)
  Definition make_action (ft : action_features) (f : functor) (h : heap) : heap * result slot :=
    match ft with
    | WEAK_REFERENCE => (h, Value (Static (fn_id f)))
    | ANY =>
        match new_action f h with
        | (h1, Value s) => let (s', h2) := moved moves s h1 in (h2, Value s')
        | (h1, Throws) => (h1, Throws)
        end
    end.

  (** dispatcher.hpp 61-64 [content{make_action<...>()...}]: if one of them throws,
      the elements made so far are destroyed in the reverse order. *)
  Fixpoint make_content (ft : action_features) (fs : list functor) (done : list slot) (h : heap) : heap * result (list slot) :=
    match fs with
    | [] => (h, Value done)
    | f :: fs' =>
        match make_action ft f h with
        | (h1, Value s) => make_content ft fs' (done ++ [s]) h1
        | (h1, Throws) => (free_all done h1, Throws)
        end
    end.

  (** [m_actions.content[i] = ...] (dispatcher.hpp 160, 186). *)
  Fixpoint replace_nth (l : list slot) (i : nat) (s : slot) : list slot :=
    match l, i with
    | [], _ => []
    | _ :: l', 0 => s :: l'
    | x :: l', S i' => x :: replace_nth l' i' s
    end.

  (** The implicit move constructor of dispatchers: element by element.
      (dispatcher.hpp 80, 199.) *)
  Definition move_object (o : object) : object * object :=
    (mk_object (o_features o) (map (fun s => fst (move_from s)) (o_slots o)),
     mk_object (o_features o) (map (fun s => snd (move_from s)) (o_slots o))).

  (** Their implicit move assignment.
      (dispatcher.hpp 199.) *)
  Fixpoint assign_slots (dst src : list slot) (h : heap) : list slot * list slot * heap :=
    match dst, src with
    | d :: dst', s :: src' =>
        let '(d1, s1, h1) := move_assign d s h in
        let '(ds, ss, h2) := assign_slots dst' src' h1 in
        (d1 :: ds, s1 :: ss, h2)
    | _, _ => (dst, src, h)
    end.

  (** ** Programs *)

  (** (action.hpp 153-160; dispatcher.hpp 105-108, 154-187.) *)
  Inductive op : Type :=
  | MakeAction (o : nat) (f : functor)                            (* action o{f, ...}; *)
  | MakeNull (o : nat)                                            (* action o; *)
  | MakeDispatcher (o : nat) (ft : action_features) (fs : list functor)  (* dispatcher o{keyring, policy}; *)
  | MoveConstruct (o from : nat)                                  (* auto o = std::move(from); *)
  | MoveAssign (o from : nat)                                     (* o = std::move(from); *)
  | Replace (o i : nat) (f : functor)                             (* o.replace<i>(f); *)
  | ReplaceStatic (o i : nat) (f : functor)                       (* o.replace<i, f>(); *)
  | AssignElement (o i from : nat)                                (* o[i] = std::move(from); *)
  | Destroy (o : nat).                                            (* the end of the scope of o *)

  (** The variables of the program.  (No counterpart in /repo; a dispatcher
      is that of dispatcher.hpp 80-199.) *)
  Definition objects : Type := list (nat * object).

  (** The variable named [o].  (As [objects]: dispatcher.hpp 80-199.) *)
  Fixpoint find_object (os : objects) (o : nat) : option object :=
    match os with
    | [] => None
    | (o', x) :: os' => if o' =? o then Some x else find_object os' o
    end.

  (** The variable named [o] changes.  (As [objects]: dispatcher.hpp
      80-199.) *)
  Fixpoint set_object (os : objects) (o : nat) (x : object) : objects :=
    match os with
    | [] => []
    | (o', y) :: os' => if o' =? o then (o', x) :: os' else (o', y) :: set_object os' o x
    end.

  (** The variable named [o] is destroyed.  (As [objects]: dispatcher.hpp
      80-199.) *)
  Fixpoint drop_object (os : objects) (o : nat) : objects :=
    match os with
    | [] => []
    | (o', y) :: os' => if o' =? o then os' else (o', y) :: drop_object os' o
    end.

  (** [content[Index] = <a new action>] (dispatcher.hpp 160, 186; 172-174 calls the
      first): the action is made first, then assigned, then destroyed. *)
  Definition put_slot (os : objects) (o i : nat) (x : object) (made : heap * result slot) : objects * heap * bool :=
    match made with
    | (h1, Throws) => (os, h1, true)
    | (h1, Value s) =>
        let '(s1, rest, h2) := move_assign (nth i (o_slots x) Null) s h1 in
        (set_object os o (mk_object (o_features x) (replace_nth (o_slots x) i s1)), free rest h2, false)
    end.

  (** Whether it throws is the last component.  An operation which no program can
      contain (a name already in use or not in use, an index out of range, types which
      do not match) is skipped.
      (action.hpp 153-160, 199; dispatcher.hpp 105-108, 154-187, 199.) *)
  Definition step (c : op) (os : objects) (h : heap) : objects * heap * bool :=
    match c with
    | MakeAction o f =>
        match find_object os o with
        | Some _ => (os, h, false)
        | None =>
            match new_action f h with
            | (h1, Value s) => ((o, mk_object ANY [s]) :: os, h1, false)
            | (h1, Throws) => (os, h1, true)
            end
        end
    | MakeNull o =>
        match find_object os o with
        | Some _ => (os, h, false)
        | None => ((o, mk_object ANY [Null]) :: os, h, false)
        end
    | MakeDispatcher o ft fs =>
        match find_object os o with
        | Some _ => (os, h, false)
        | None =>
            match make_content ft fs [] h with
            | (h1, Value ss) => ((o, mk_object ft ss) :: os, h1, false)
            | (h1, Throws) => (os, h1, true)
            end
        end
    | MoveConstruct o from =>
        match find_object os o, find_object os from with
        | None, Some x => let (y, old) := move_object x in ((o, y) :: set_object os from old, h, false)
        | _, _ => (os, h, false)
        end
    | MoveAssign o from =>
        if o =? from then (os, h, false)
        else
          match find_object os o, find_object os from with
          | Some x, Some y =>
              match o_features x, o_features y with
              | ANY, ANY | WEAK_REFERENCE, WEAK_REFERENCE =>
                  if length (o_slots x) =? length (o_slots y) then
                    let '(ds, ss, h1) := assign_slots (o_slots x) (o_slots y) h in
                    (set_object (set_object os o (mk_object (o_features x) ds)) from (mk_object (o_features y) ss), h1, false)
                  else (os, h, false)
              | _, _ => (os, h, false)
              end
          | _, _ => (os, h, false)
          end
    | Replace o i f =>
        match find_object os o with
        | Some x =>
            if i <? length (o_slots x) then
              match o_features x with
              | ANY => put_slot os o i x (new_action f h)
              | WEAK_REFERENCE => (os, h, false)
              end
            else (os, h, false)
        | None => (os, h, false)
        end
    | ReplaceStatic o i f =>
        match find_object os o with
        | Some x => if i <? length (o_slots x) then put_slot os o i x (make_action (o_features x) f h) else (os, h, false)
        | None => (os, h, false)
        end
    | AssignElement o i from =>
        if o =? from then (os, h, false)
        else
          match find_object os o, find_object os from with
          | Some x, Some y =>
              match o_features x, o_features y, o_slots y with
              | ANY, ANY, [s] =>
                  if i <? length (o_slots x) then
                    let '(s1, old, h1) := move_assign (nth i (o_slots x) Null) s h in
                    (set_object (set_object os o (mk_object ANY (replace_nth (o_slots x) i s1))) from (mk_object ANY [old]), h1, false)
                  else (os, h, false)
              | _, _, _ => (os, h, false)
              end
          | _, _ => (os, h, false)
          end
    | Destroy o =>
        match find_object os o with
        | Some x => (drop_object os o, free_all (o_slots x) h, false)
        | None => (os, h, false)
        end
    end.

  (** A program which catches the exceptions.
      (Lines as for [step]: action.hpp 153-160.) *)
  Fixpoint exec (cs : list op) (os : objects) (h : heap) : objects * heap :=
    match cs with
    | [] => (os, h)
    | c :: cs' => let '(os1, h1, _) := step c os h in exec cs' os1 h1
    end.
End Alloc.
