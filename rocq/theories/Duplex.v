(** Model of byte getters and putters which use the buffered dispatcher they are
    given to: buffered_dispatcher.hpp 109-117, 165-169, 197-203.  No proofs in this
    file.

    In Buffered.v getters and putters act on the world only.  Here they are routines,
    which may also call the member functions of the dispatcher; callbacks still act
    on the world only (see ReEntrant.v).  A getter or putter which moves the
    dispatcher away is left out: [TypeMismatch]. *)

From Coq Require Import List ZArith Bool Arith.
From Verif Require Import Base CInt IntModel TypeLevel Serial TupleModel Rpc Buffered SpecBuffered BufferedProofs.
Import ListNotations.
Open Scope nat_scope.

(** The body of a getter ([A] is a byte) or of a putter ([A] is [unit]), step by
    step.  It is called at buffered_dispatcher.hpp 113, 115, 168. *)
Inductive routine (X A : Type) : Type :=
| Done (a : A)
| World (f : X -> res (X * routine X A))
| Use (o : op X) (k : obs -> routine X A).
Arguments Done {X A} a.
Arguments World {X A} f.
Arguments Use {X A} o k.

Section Duplex.
  Variable p : platform.
  Context {X : Type}.

  (** A routine is run.  The member functions are those of buffered_dispatcher.hpp
      97, 109-217. *)
  Fixpoint perform {A : Type} (c : routine X A) (b : buffered X) (x : X) : res (buffered X * X * A) :=
    match c with
    | Done a => Ok (b, x, a)
    | World f =>
        match f x with
        | Ok (x', c') => perform c' b x'
        | Fault e => Fault e
        end
    | Use Move _ => Fault TypeMismatch
    | Use o k =>
        match step p o b x with
        | Ok (b', x', v) => perform (k v) b' x'
        | Fault e => Fault e
        end
    end.

  (** [while (condition) status = put(src());] (112-113, 114-115) *)
  Fixpoint feed (condition : buffered X -> packet_status -> bool) (fuel : nat) (src : routine X Z)
      (b : buffered X) (x : X) (s : packet_status) : res (buffered X * X * packet_status) :=
    if condition b s then
      match fuel with
      | 0 => Fault OutOfFuel
      | S fuel' =>
          '(b1, x1, byte) <- perform src b x;;
          '(b2, x2, s') <- put p byte b1 x1;;
          feed condition fuel' src b2 x2 s'
      end
    else Ok (b, x, s).

  (** buffered_dispatcher.hpp 109-117.  [fuel] bounds the number of turns of each
      loop. *)
  Definition read_from_d (fuel : nat) (src : routine X Z) (b : buffered X) (x : X)
      : res (buffered X * X * packet_status) :=
    '(b1, x1, s1) <- feed (fun b s => negb (b_is_index_loaded b) && is_loading s) fuel src b x LOADING_PACKET;;
    feed (fun b _ => b_is_index_loaded b) fuel src b1 x1 s1.

  (** buffered_dispatcher.hpp 165-169 *)
  Fixpoint write_to_d (fuel : nat) (dest : Z -> routine X unit) (b : buffered X) (x : X) : res (buffered X * X) :=
    if is_loaded b then
      match fuel with
      | 0 => Fault OutOfFuel
      | S fuel' =>
          '(b1, byte) <- get_byte b;;
          '(b2, x2, _) <- perform (dest byte) b1 x;;
          write_to_d fuel' dest b2 x2
      end
    else Ok (b, x).

  (** buffered_dispatcher.hpp 197-203 *)
  Definition process_d (fuel : nat) (src : routine X Z) (dest : Z -> routine X unit) (b : buffered X) (x : X)
      : res (buffered X * X * packet_status) :=
    '(b1, x1, s) <- read_from_d fuel src b x;;
    match s with
    | RESOLVED_PACKET =>
        '(b2, x2) <- write_to_d fuel dest b1 x1;;
        Ok (b2, x2, s)
    | _ => Ok (b1, x1, s)
    end.
End Duplex.

(** A getter and a putter which only act on the world, as those of Rpc.v.
    buffered_dispatcher.hpp 109, 165. *)
Definition plain_getter {X : Type} (src : source X) : routine X Z :=
  World (fun x => '(x', byte) <- src x;; Ok (x', Done byte)).
(** The same for a putter. *)
Definition plain_putter {X : Type} (dest : destination X) (byte : Z) : routine X unit :=
  World (fun x => x' <- dest byte x;; Ok (x', Done tt)).

(** Programs for a link which sends a byte whenever it receives one (SPI), as a user
    of /repo would write them: [exchange] sends a byte and gives the one received.
    [[&]() { return exchange(dispatcher.get()); }], for buffered_dispatcher.hpp 109. *)
Definition duplex_getter {X : Type} (exchange : Z -> X -> res (X * Z)) : routine X Z :=
  Use Get (fun v => World (fun x =>
    '(x', byte) <- exchange (match v with OByte c => c | _ => 0%Z end) x;;
    Ok (x', Done byte))).
(** [[&](byte_t byte) { dispatcher.put(exchange(byte)); }], for 165. *)
Definition duplex_putter {X : Type} (exchange : Z -> X -> res (X * Z)) (byte : Z) : routine X unit :=
  World (fun x =>
    '(x', c) <- exchange byte x;;
    Ok (x', Use (Put c) (fun _ => Done tt))).
