(** The whole dispatcher as a program: the member functions of Methods.v, in which
    [get_index] (dispatcher.hpp 141-149) and the actions (action.hpp 53-69, 122-141,
    174-179, 221-223) are the statements of Library.v, which run those of Source.v on
    integers.  No proofs in this file.

    A function which is called is given no array of its caller: neither [get_index] nor
    an action is given a pointer, they are given a getter and a putter. *)

From Coq Require Import List ZArith Bool Arith String.
From Verif Require Import Base CInt TypeLevel Serial TupleModel Rpc Buffered SpecBuffered Counters.
From Verif Require Templates Library.
From Verif Require Import Classes Methods.
Import ListNotations.
Open Scope string_scope.
Open Scope list_scope.
Open Scope nat_scope.

Section Program.
  Variable p : platform.
  Variable sz : nat.
  Variable fuel : nat.
  Context {W : Type}.

  (** dispatcher.hpp 141-149 *)
  Definition index_statements (d : dispatcher W) (src : source W) (x : W) : res (W * nat) :=
    let kr := d_keyring d in
    '(_, x', v) <- Library.run_body p sz fuel src Library.no_destination Library.no_functor
      (Library.get_index_src (kr_e kr) (kr_m kr) (kr_index_size kr)) [] [] x;;
    match v with
    | Templates.Object (VInt z) => Ok (x', Z.to_nat z)
    | _ => Fault TypeMismatch
    end.

  (** action.hpp 174-179 (an empty action does nothing), 113 and 53-69; 221-223 and
      122-141. *)
  Definition action_statements (a : action W) (src : source W) (dest : destination W) (x : W) : res W :=
    match a with
    | Storage None => Ok x
    | Storage (Some c) =>
        '(_, x', _) <- Library.run_body p sz fuel src dest (f_call (m_func c))
          (Library.call_src (m_e c) (m_m c) (f_sig (m_func c))) [] [] x;;
        Ok x'
    | NoStorage c =>
        '(_, x', _) <- Library.run_body p sz fuel src dest (f_call (m_func c))
          (Library.static_wrapper_src (m_e c) (m_m c) (f_sig (m_func c))) [] [] x;;
        Ok x'
    end.

  (** The functions called by those of buffered_dispatcher.hpp 130-158, 260-277 and
      dispatcher.hpp 119-127. *)
  Definition transcribed : linkage W := mk_linkage index_statements action_statements.
End Program.

Section Run.
  Variable p : platform.
  Variable sz : nat.
  Variable fuel : nat.
  Context {X : Type}.

  (** A sequence of operations on a buffered dispatcher (buffered_dispatcher.hpp
      92-217, 260-282). *)
  Definition run_program (ops : list (op X)) (b : members X) (x : X) : res (members X * X * list obs) :=
    run_source p sz fuel (transcribed p sz fuel) ops b x.

  (** [d(src, dest)] of a plain dispatcher (dispatcher.hpp 119-127). *)
  Definition dispatch_program (d : dispatcher X) (src : source X) (dest : destination X) (x : X) : res (X * value) :=
    '(_, x', v) <- run_method p sz fuel (transcribed p sz fuel) TIndex dispatch_body [] src dest
      (init_members d (Single [])) x;;
    Ok (x', v).
End Run.
