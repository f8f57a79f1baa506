(** The member functions of [buffered_dispatcher] (buffered_dispatcher.hpp 92-97,
    109-117, 130-158, 165-169, 179, 197-203, 260-277) and [dispatcher::operator()]
    (dispatcher.hpp 119-127), statement by statement, in the language of Classes.v.
    No proofs in this file.

    [derived()] (buffered_dispatcher.hpp 21-25) is [*this].  [UPD_FWD(src)] is [src].
    [get_index(...)] of 275-277 is [m_dispatcher.get_index(...)]. *)

From Coq Require Import List ZArith Bool Arith String.
From Verif Require Import Base CInt TypeLevel Serial TupleModel Rpc Buffered SpecBuffered Counters Classes.
Import ListNotations.
Open Scope string_scope.
Open Scope list_scope.
Open Scope Z_scope.

(** buffered_dispatcher.hpp 97 *)
Definition is_loaded_body : stmt :=
  Return (Compare NotEqual (Read (Member m_obuf_next)) (Read (Member m_obuf_bottom))).

(** buffered_dispatcher.hpp 260-272 *)
Definition call_body : stmt :=
  Assign (Member m_obuf_bottom) (IntLit 0);;;
  Assign (Member m_obuf_next) (IntLit 0);;;
  Auto "ibuf_ptr" IbufBegin;;;
  Auto "index" (GetIndex (Deref (PostIncrement (Local "ibuf_ptr"))));;;
  RunAction (Read (Local "index"))
    (Deref (PostIncrement (Local "ibuf_ptr")))
    "byte" (AssignAt ObufBegin (PostIncrement (Member m_obuf_bottom)) (Read (Local "byte")));;;
  Assign (Member m_is_index_loaded) (BoolLit false);;;
  Assign (Member m_load_count) SizeofIndex;;;
  Assign (Member m_ibuf_next) (IntLit 0).

(** buffered_dispatcher.hpp 130-158 *)
Definition put_body : stmt :=
  AssignAt IbufBegin (PostIncrement (Member m_ibuf_next)) (Read (Local "byte"));;;
  If (Compare Greater (PreDecrement (Member m_load_count)) (IntLit 0))
    (Return (StatusLit LOADING_PACKET))
    Skip;;;
  If (Read (Member m_is_index_loaded))
    (Expr (Method TVoid call_body);;;
     Return (StatusLit RESOLVED_PACKET))
    (Auto "ibuf_ptr" IbufBegin;;;
     Auto "index" (GetIndex (Deref (PostIncrement (Local "ibuf_ptr"))));;;
     If (Compare Less (Read (Local "index")) DispatcherSize)
       (Assign (Member m_load_count) (InputSize (Read (Local "index")));;;
        Assign (Member m_is_index_loaded) (BoolLit true);;;
        If (Compare Equal (Read (Member m_load_count)) (IntLit 0))
          (Expr (Method TVoid call_body);;;
           Return (StatusLit RESOLVED_PACKET))
          (Return (StatusLit LOADING_PACKET)))
       (Assign (Member m_load_count) SizeofIndex;;;
        Assign (Member m_ibuf_next) (IntLit 0);;;
        Return (StatusLit DROPPED_PACKET))).

(** [put(src())] (113, 115) *)
Definition put_src : expr := Method1 TStatus TByte "byte" put_body CallSrc.

(** buffered_dispatcher.hpp 109-117 *)
Definition read_from_body : stmt :=
  Define TStatus "status" (StatusLit LOADING_PACKET);;;
  While (And (Not (Read (Member m_is_index_loaded)))
             (Compare Equal (Read (Local "status")) (StatusLit LOADING_PACKET)))
    (Assign (Local "status") put_src);;;
  While (Read (Member m_is_index_loaded))
    (Assign (Local "status") put_src);;;
  Return (Read (Local "status")).

(** buffered_dispatcher.hpp 179 *)
Definition get_body : stmt :=
  Return (Cond (Method TBool is_loaded_body) (At ObufBegin (PostIncrement (Member m_obuf_next))) ByteInit).

(** buffered_dispatcher.hpp 165-169 *)
Definition write_to_body : stmt :=
  While (Method TBool is_loaded_body) (CallDest (Method TByte get_body)).

(** buffered_dispatcher.hpp 197-203 *)
Definition process_body : stmt :=
  Auto "status" (Method TStatus read_from_body);;;
  If (Compare Equal (Read (Local "status")) (StatusLit RESOLVED_PACKET))
    (Expr (Method TVoid write_to_body))
    Skip;;;
  Return (Read (Local "status")).

(** dispatcher.hpp 119-127, [m_dispatcher] being the dispatcher itself. *)
Definition dispatch_body : stmt :=
  Auto "index" (GetIndex CallSrc);;;
  If (Compare Less (Read (Local "index")) DispatcherSize)
    (RunAction (Read (Local "index")) CallSrc "byte" (CallDest (Read (Local "byte"))))
    Skip;;;
  Return (Read (Local "index")).

Section Run.
  Variable p : platform.
  Variable sz : nat.
  Variable fuel : nat.
  Context {X : Type}.
  Variable link : linkage (state X).

  (** A call of a member function with a getter and a putter: the object and the
      world afterwards, and what is returned. *)
  Definition run_method (returns : typename) (body : stmt) (args : list (string * value)) (src : source X)
      (dest : destination X) (b : members X) (x : X) : res (members X * X * value) :=
    '(st, o) <- exec p sz fuel link src dest body (mk_state b args x);;
    v <- into p sz (st_object st) returns (returned o);;
    Ok (st_object st, st_world st, v).

  (** A function which is not given a getter does not call any. *)
  Definition no_src : source X := fun _ => Fault TypeMismatch.
  (** The same for putters. *)
  Definition no_dest : destination X := fun _ _ => Fault TypeMismatch.

  (** What is returned, as an observation. *)
  Definition observed (v : value) : res obs :=
    match v with
    | Nothing => Ok ONone
    | Status s => Ok (OStatus s)
    | Number CBool z => Ok (OBool (negb (z =? 0)))
    | Number _ z => Ok (OByte z)
    | Address _ _ => Fault TypeMismatch
    end.

  (** One operation on the object; what is not a member function listed above is as
      in Counters.v. *)
  Definition step_source (o : op X) (b : members X) (x : X) : res (members X * X * obs) :=
    match o with
    | Put byte =>
        '(b', x', v) <- run_method TStatus put_body [("byte", Number (CInt 1 false) byte)] no_src no_dest b x;;
        r <- observed v;;
        Ok (b', x', r)
    | Get =>
        '(b', x', v) <- run_method TByte get_body [] no_src no_dest b x;;
        r <- observed v;;
        Ok (b', x', r)
    | IsLoaded =>
        '(b', x', v) <- run_method TBool is_loaded_body [] no_src no_dest b x;;
        r <- observed v;;
        Ok (b', x', r)
    | ReadFrom src =>
        '(b', x', v) <- run_method TStatus read_from_body [] src no_dest b x;;
        r <- observed v;;
        Ok (b', x', r)
    | WriteTo dest =>
        '(b', x', v) <- run_method TVoid write_to_body [] no_src dest b x;;
        r <- observed v;;
        Ok (b', x', r)
    | Process src dest =>
        '(b', x', v) <- run_method TStatus process_body [] src dest b x;;
        r <- observed v;;
        Ok (b', x', r)
    | _ => step_w p sz o b x
    end.

  (** A sequence of operations; what they return. *)
  Fixpoint run_source (ops : list (op X)) (b : members X) (x : X) : res (members X * X * list obs) :=
    match ops with
    | [] => Ok (b, x, [])
    | o :: ops' =>
        '(b1, x1, v) <- step_source o b x;;
        '(b2, x2, vs) <- run_source ops' b1 x1;;
        Ok (b2, x2, v :: vs)
    end.
End Run.
