(** Model of the programs of the documentation which use a buffered dispatcher:
    the interrupt handlers of test/snippet/slave1.cpp and the [Wire.onReceive]
    callback of README.md.  No proofs in this file. *)

From Coq Require Import List ZArith Bool Arith.
From Verif Require Import Base CInt IntModel TypeLevel Serial TupleModel Rpc Buffered.
Import ListNotations.
Open Scope nat_scope.

Definition is_dropped (s : packet_status) : bool :=
  match s with DROPPED_PACKET => true | _ => false end.
(** The case of test/snippet/slave1.cpp 29. *)
Definition is_resolved (s : packet_status) : bool :=
  match s with RESOLVED_PACKET => true | _ => false end.

(** ** test/snippet/slave1.cpp *)

(** What the hardware tells the program: a byte has been received
    ([read_byte_from_master] gives it), a byte has been sent.
    test/snippet/slave1.cpp 23, 46-51. *)
Inductive event : Type := Received (byte : Z) | Sent.

(** The dispatcher, the world, the bytes given to [write_byte_to_master], first
    one first.
    test/snippet/slave1.cpp 7, 31, 50. *)
Record station (X : Type) : Type := mk_station {
  st_b : buffered X;
  st_x : X;
  st_wire : list Z
}.
Arguments mk_station {X} st_b st_x st_wire.
Arguments st_b {X} s.
Arguments st_x {X} s.
Arguments st_wire {X} s.

Section Slave.
  Variable p : platform.
  Context {X : Type}.

  (** slave1.cpp 31 and 50: [write_byte_to_master(dispatcher.get())]. *)
  Definition send_next (s : station X) : res (station X) :=
    '(b, byte) <- get_byte (st_b s);;
    Ok (mk_station b (st_x s) (st_wire s ++ [byte])).

  (** slave1.cpp 21-44.  Nothing is done about a dropped packet (39). *)
  Definition on_byte_received (byte : Z) (s : station X) : res (station X) :=
    '(b, x, status) <- put p byte (st_b s) (st_x s);;
    let s' := mk_station b x (st_wire s) in
    if is_resolved status then send_next s' else Ok s'.

  (** slave1.cpp 46-51 *)
  Definition on_byte_sent (s : station X) : res (station X) := send_next s.

  (** test/snippet/slave1.cpp 21-51: the handler of each event. *)
  Definition on_event (e : event) (s : station X) : res (station X) :=
    match e with
    | Received byte => on_byte_received byte s
    | Sent => on_byte_sent s
    end.

  (** The handlers do not interrupt each other (the other case: Interrupts.v).
      [Sent] events are allowed at any time, also when nothing was written.
      test/snippet/slave1.cpp 21-51. *)
  Fixpoint on_events (es : list event) (s : station X) : res (station X) :=
    match es with
    | [] => Ok s
    | e :: es' => s' <- on_event e s;; on_events es' s'
    end.
End Slave.

(** ** README.md 144-149 *)

(** [Wire.read()], then the conversion to [byte_t]: the next byte of the
    transmission, or -1, that is 255, when there is none left.  (Arduino's Wire
    is not part of the repository.) *)
Definition wire_read (fifo : list Z) : Z * list Z :=
  match fifo with
  | [] => (255%Z, [])
  | byte :: fifo' => (byte, fifo')
  end.

Section Callee.
  Variable p : platform.
  Context {X : Type}.

  (** README.md 146-148.  [n] is an [int], which the loop decrements before it
      tests it.  [fuel] bounds the number of turns. *)
  Fixpoint on_receive (fuel : nat) (n : Z) (fifo : list Z) (b : buffered X) (x : X)
      : res (buffered X * X * list Z) :=
    match fuel with
    | 0 => Fault OutOfFuel
    | S fuel' =>
        let '(byte, fifo') := wire_read fifo in
        '(b', x', status) <- put p byte b x;;
        n' <- arith (CInt (p_int_size p) true) (n - 1);;
        if (negb (n' =? 0)%Z && negb (is_dropped status))%bool
        then on_receive fuel' n' fifo' b' x'
        else Ok (b', x', fifo')
    end.

  (** Transmissions, one after the other: [Wire] calls the callback with the
      number of bytes it received; what the callback does not read of them is
      forgotten when the next transmission begins.
      README.md, the callee of the example. *)
  Fixpoint transmissions (fuel : nat) (ts : list (list Z)) (b : buffered X) (x : X) : res (buffered X * X) :=
    match ts with
    | [] => Ok (b, x)
    | t :: ts' =>
        '(b', x', _) <- on_receive fuel (Z.of_nat (length t)) t b x;;
        transmissions fuel ts' b' x'
    end.
End Callee.
