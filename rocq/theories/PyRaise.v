(** Python callbacks which raise an exception, or return an object which does
    not convert to the return type of the key.  No proofs in this file. *)

From Coq Require Import List ZArith.
From Verif Require Import Base Spec Serial TypeLevel TupleModel SpecRpc Rpc Buffered Exceptions Python.
Import ListNotations.

Section PyRaise.
  Context {S : Type}.

  (** The [pybind11::function] of python.hpp 93, over the state [S]; [None]: it
      raises an exception. *)
  Definition raising_function : Type := list pyval -> S -> S * option pyval.

  (** python.hpp 96, 98: what [py_callback] (Python.v) sees of it, its result.
      [PyNone] when it raises is not used: the exception leaves the lambda. *)
  Definition results_of (f : raising_function) : pyfunction :=
    fun args s => let (s', r) := f args s in (s', match r with Some v => v | None => PyNone end).

  (** The lambda of python.hpp 94-100: [pyfunction(args...)] throws
      [pybind11::error_already_set] if the function raises, [cast<R>()] throws
      [pybind11::cast_error] if the result does not convert. *)
  Definition py_thrown (sg : signature) (f : raising_function) (args : list val) (s : S) : option S :=
    let (s', r) := f (of_cpp_list (sig_params sg) args) s in
    match r with
    | None => Some s'
    | Some v =>
        match sig_ret sg with
        | None => None
        | Some t => match to_cpp t v with Some _ => None | None => Some s' end
        end
    end.
End PyRaise.
