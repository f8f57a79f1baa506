(** Model of user extensions whose [serialize] is any program.  No proofs in
    this file.

    Serial.v supposes that [upd_extension<T>::serialize] sets each element of
    the view once and in order, as in test/snippet/serialization2.  Here it
    reads and writes the elements of the view as it pleases. *)

From Coq Require Import List ZArith Bool Arith.
From Verif Require Import Base CInt IntModel TypeLevel Serial TupleModel.
Import ListNotations.
Open Scope nat_scope.

(** What [serialize] does with the view it is given: [upd::set<I>(view, x)],
    [upd::get<I>(view)].  It may depend on the object and on what it reads;
    it does not use the iterators of the view.
    serialization.hpp 148; tuple.hpp 190-216. *)
Inductive program : Type :=
| Done
| SetField (i : nat) (x : val) (k : program)
| GetField (i : nat) (k : val -> program).

Section Extension.
  Variable p : platform.

  (** The call of [serialize] at serialization.hpp 148. *)
  Fixpoint run_program (v : view) (prog : program) (mem : list Z) : res (list Z) :=
    match prog with
    | Done => Ok mem
    | SetField i x k => mem' <- set p v i x mem;; run_program v k mem'
    | GetField i k => x <- get p v i mem;; run_program v (k x) mem
    end.

  (** serialization.hpp 144-149: [write_as] of an object whose [serialize] is
      the program; the view is that of the parameters of [unserialize]
      ([fs]), at the plain pointer [sequence]. *)
  Definition write_extension (e : endianess) (m : signed_mode) (fs : list ty) (prog : program) (mem : list Z) (off : nat)
      : res (list Z) :=
    run_program (mk_view Pointer e m fs off) prog mem.

  (** serialization.hpp 81-86: [read_as], whose [unserialize] is any function. *)
  Definition read_extension {Obj : Type} (e : endianess) (m : signed_mode) (fs : list ty) (unserialize : list val -> Obj)
      (mem : list Z) (off : nat) : res Obj :=
    '(_, o) <- invoke p (mk_view Pointer e m fs off) (fun args (x : unit) => (x, unserialize args)) mem tt;;
    Ok o.
End Extension.
