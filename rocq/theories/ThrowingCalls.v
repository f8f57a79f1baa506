(** The plain dispatcher and the keys when a callback, a byte getter or a byte
    putter throws: dispatcher.hpp 119-127, key.hpp 108-131,
    serialized_message.hpp 31-36.

    As in Exceptions.v, an exception is an outcome of the functions given by the
    user; nothing in the library catches it.  Exceptions thrown by the user types
    themselves are not modelled. *)

From Coq Require Import List ZArith Bool Arith String.
From Verif Require Import Base CInt TypeLevel Serial TupleModel Rpc Buffered Counters Classes Methods Throwing.
From Verif Require Exceptions.
Import ListNotations.
Open Scope string_scope.
Open Scope list_scope.
Open Scope nat_scope.

Section Calls.
  Variable p : platform.
  Context {X : Type}.
  Variable throws : Exceptions.throwing X.

  (** dispatcher.hpp 119-127: the index of the packet, or an exception. *)
  Definition dispatch_x (d : dispatcher X) (src : Exceptions.esource X) (dest : Exceptions.edestination X) (x : X)
      : res (X * Exceptions.outcome nat) :=
    both x1 i <~ get_index_x p d src x;;
    if i <? d_size d then
      a <- action_at d i;;
      both x2 u <~ run_x p throws i a src dest x1;;
      ended x2 i
    else ended x1 i.

  (** key.hpp 108-111 and serialized_message.hpp 21, 31-36:
      [k(args...).write_to(dest)]; the whole message is made before its first byte
      is sent. *)
  Definition key_write_x (k : key) (args : list val) (dest : Exceptions.edestination X) (x : X)
      : res (X * Exceptions.outcome unit) :=
    let ts := TUns (k_index_size k) :: sig_params (k_sig k) in
    st <- construct p (k_e k) (k_m k) ts (VInt (Z.of_nat (k_index k)) :: args) (indet_bytes p (tuple_size ts));;
    bs <- content (tuple_at (k_e k) (k_m k) ts 0) st;;
    put_each_x dest bs x.

  (** key.hpp 121-131.  [None]: returns [void]. *)
  Definition key_read_x (k : key) (src : Exceptions.esource X) (x : X) : res (X * Exceptions.outcome (option val)) :=
    match sig_ret (k_sig k) with
    | None => ended x None
    | Some t =>
        both x1 st <~ read_tuple_x p (k_e k) (k_m k) [t] src x;;
        v <- get p (tuple_at (k_e k) (k_m k) [t] 0) 0 st;;
        ended x1 (Some v)
    end.

  (** Several calls of [operator()] of the same dispatcher, run by their statements
      (dispatcher.hpp 119-127), each with its own getter and putter; the caller
      handles the exceptions. *)
  Fixpoint dispatches_x (sz fuel : nat) (calls : list (Exceptions.esource X * Exceptions.edestination X)) (b : members X) (x : X)
      : res (members X * X * list (Exceptions.outcome value)) :=
    match calls with
    | [] => Ok (b, x, [])
    | (src, dest) :: calls' =>
        '(b1, x1, o) <- run_method_x p sz fuel throws src dest TIndex dispatch_body [] b x;;
        '(b2, x2, os) <- dispatches_x sz fuel calls' b1 x1;;
        Ok (b2, x2, o :: os)
    end.
End Calls.
