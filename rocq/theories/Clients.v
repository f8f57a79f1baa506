(** The programs which use a buffered dispatcher: whatever they do next depends on
    what the member functions have returned so far and on what they see of the
    world.  Those of the documentation are among them: the interrupt handlers of
    test/snippet/slave1.cpp and the [Wire.onReceive] callback of README.md.  No
    proofs in this file. *)

From Coq Require Import List ZArith Bool Arith.
From Verif Require Import Base CInt IntModel TypeLevel Serial TupleModel Rpc Buffered SpecBuffered.
From Verif Require Firmware.
Import ListNotations.
Open Scope nat_scope.

(** A program, at some point of its execution: it is over, its behaviour is
    undefined (of a statement of its own), it looks at the world, or it calls a
    member function of the dispatcher (of those of buffered_dispatcher.hpp 92-282)
    and goes on according to what is returned.  An execution is finite; a program
    which never ends is covered by what it does until each point of its
    execution. *)
Inductive client (E V X A : Type) : Type :=
| Finish (a : A)
| Fails (f : fault)
| Look (next : X -> client E V X A)
| Use (e : E) (next : V -> client E V X A).
Arguments Finish {E V X A} a.
Arguments Fails {E V X A} f.
Arguments Look {E V X A} next.
Arguments Use {E V X A} e next.

(** The execution of a program, [call] being what a member function does
    (buffered_dispatcher.hpp 92-282). *)
Fixpoint run_client {E V S X A : Type} (call : E -> S -> X -> res (S * X * V)) (c : client E V X A) (s : S) (x : X)
    : res (S * X * A) :=
  match c with
  | Finish a => Ok (s, x, a)
  | Fails f => Fault f
  | Look next => run_client call (next x) s x
  | Use e next =>
      '(s', x', v) <- call e s x;;
      run_client call (next v) s' x'
  end.

Section Documentation.
  Variable p : platform.
  Context {X A : Type}.

  (** test/snippet/slave1.cpp 31 and 50: [write_byte_to_master(dispatcher.get())];
      [wire]: the bytes given to [write_byte_to_master], first one first. *)
  Definition send_client (wire : list Z) (next : list Z -> client (op X) obs X A) : client (op X) obs X A :=
    Use Get (fun v =>
      match v with
      | OByte byte => next (wire ++ [byte])
      | _ => Fails TypeMismatch
      end).

  (** slave1.cpp 21-44.  Nothing is done about a dropped packet (39). *)
  Definition received_client (byte : Z) (wire : list Z) (next : list Z -> client (op X) obs X A) : client (op X) obs X A :=
    Use (Put byte) (fun v =>
      match v with
      | OStatus RESOLVED_PACKET => send_client wire next
      | OStatus _ => next wire
      | _ => Fails TypeMismatch
      end).

  (** slave1.cpp 21-51: the handler of each event, one after the other. *)
  Fixpoint slave_client (es : list Firmware.event) (wire : list Z) (next : list Z -> client (op X) obs X A)
      : client (op X) obs X A :=
    match es with
    | [] => next wire
    | Firmware.Received byte :: es' => received_client byte wire (fun wire' => slave_client es' wire' next)
    | Firmware.Sent :: es' => send_client wire (fun wire' => slave_client es' wire' next)
    end.

  (** README.md 146-148: [do] the call of [put], [while] [--n] is not zero and no
      packet has been dropped.  [turns] bounds the number of turns. *)
  Fixpoint receive_client (turns : nat) (n : Z) (fifo : list Z) (next : list Z -> client (op X) obs X A)
      : client (op X) obs X A :=
    match turns with
    | 0 => Fails OutOfFuel
    | S turns' =>
        Use (Put (fst (Firmware.wire_read fifo))) (fun v =>
          match v with
          | OStatus status =>
              match arith (CInt (p_int_size p) true) (n - 1) with
              | Fault f => Fails f
              | Ok n' =>
                  if (negb (n' =? 0)%Z && negb (Firmware.is_dropped status))%bool
                  then receive_client turns' n' (snd (Firmware.wire_read fifo)) next
                  else next (snd (Firmware.wire_read fifo))
              end
          | _ => Fails TypeMismatch
          end)
    end.

  (** README.md, the callee of the example: the callback is called for each
      transmission. *)
  Fixpoint callee_client (turns : nat) (ts : list (list Z)) (next : client (op X) obs X A) : client (op X) obs X A :=
    match ts with
    | [] => next
    | t :: ts' => receive_client turns (Z.of_nat (length t)) t (fun _ => callee_client turns ts' next)
    end.
End Documentation.
