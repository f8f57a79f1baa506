(** Model of a caller and a callee which run on two hosts and exchange bytes
    through two FIFO channels.  No proofs in this file.

    The caller is the program of test/snippet/caller4, repeated:
    [key(args...).write_to(write_byte_to_slave)] then
    [key.read_from(read_byte_from_slave)], where [write_byte_to_slave] appends a
    byte to a channel and [read_byte_from_slave] waits for a byte of the other
    channel.  The callee is a buffered dispatcher: it puts the bytes it receives
    and sends the bytes of the response when there are some, in any order
    ([dis.put(byte)] when a byte is received, [if (dis.is_loaded())
    send(dis.get())] at any time).

    Each turn of a party is what it does between two uses of a channel.
    Channels are unbounded and reliable.  Who takes the next turn is given from
    outside: an execution is determined by the sequence of the parties which
    take a turn. *)

From Coq Require Import List ZArith Bool Arith.
From Verif Require Import Base CInt IntModel TypeLevel Serial TupleModel Rpc Buffered.
Import ListNotations.
Open Scope nat_scope.

(** The bytes [key(args...).write_to(write_byte_to_slave)] gives to the byte
    putter (key.hpp 108-111, serialized_message.hpp 31-36): those a byte putter
    which appends to a list is given. *)
Definition message (p : platform) (k : key) (args : list val) : res (list Z) :=
  key_write p k args (fun byte l => Ok (l ++ [byte])) [].

(** [read_byte_from_slave] when the bytes of [l] can be read without waiting.
    (test/snippet/motion_keyring.hpp 31; test/snippet/caller4, line 14.) *)
Definition list_source : source (list Z) :=
  fun l => match l with [] => Fault NoInput | byte :: l' => Ok (l', byte) end.

(** Where the caller is: before the call of a key; in [write_to], with the bytes
    which remain to be written; in [read_from], with the bytes read so far.
    (test/snippet/caller4, lines 7 and 14: key.hpp 108-111, 121-128.) *)
Inductive phase : Type :=
| Idle
| Writing (bytes : list Z)
| Reading (bytes : list Z).

(** The calls the caller has to make (the first one may be under way), where it
    is, the results it got; the bytes on their way to the callee and to the
    caller; the dispatcher and the world of the callbacks.
    (test/snippet/caller4; buffered_dispatcher.hpp 280-282.) *)
Record system (X : Type) : Type := mk_system {
  sy_calls : list (key * list val);
  sy_phase : phase;
  sy_results : list (option val);
  sy_up : list Z;
  sy_down : list Z;
  sy_b : buffered X;
  sy_x : X
}.
Arguments mk_system {X} sy_calls sy_phase sy_results sy_up sy_down sy_b sy_x.
Arguments sy_calls {X} s.
Arguments sy_phase {X} s.
Arguments sy_results {X} s.
Arguments sy_up {X} s.
Arguments sy_down {X} s.
Arguments sy_b {X} s.
Arguments sy_x {X} s.

(** Who takes a turn: the caller (test/snippet/caller4), the handlers of the
    callee (test/snippet/slave1.cpp 21-44 and 46-51). *)
Inductive party : Type := Caller | Receiver | Sender.

Section Network.
  (** The host of the caller, the host of the callee. *)
  Variables p q : platform.
  Context {X : Type}.

  (** [None]: the party has nothing to do, or waits. *)

  (** test/snippet/caller4; key.hpp 108-131.  In [read_from] the byte getter is
      called once more as long as the bytes read do not suffice. *)
  Definition caller_turn (s : system X) : res (option (system X)) :=
    match sy_calls s with
    | [] => Ok None
    | (k, args) :: calls =>
        match sy_phase s with
        | Idle =>
            bytes <- message p k args;;
            Ok (Some (mk_system (sy_calls s) (Writing bytes) (sy_results s) (sy_up s) (sy_down s) (sy_b s) (sy_x s)))
        | Writing (byte :: bytes) =>
            Ok (Some (mk_system (sy_calls s) (Writing bytes) (sy_results s) (sy_up s ++ [byte]) (sy_down s)
                        (sy_b s) (sy_x s)))
        | Writing [] =>
            Ok (Some (mk_system (sy_calls s) (Reading []) (sy_results s) (sy_up s) (sy_down s) (sy_b s) (sy_x s)))
        | Reading bytes =>
            match key_read p k list_source bytes with
            | Ok (_, v) =>
                Ok (Some (mk_system calls Idle (sy_results s ++ [v]) (sy_up s) (sy_down s) (sy_b s) (sy_x s)))
            | Fault NoInput =>
                match sy_down s with
                | [] => Ok None
                | byte :: down =>
                    Ok (Some (mk_system (sy_calls s) (Reading (bytes ++ [byte])) (sy_results s) (sy_up s) down
                                (sy_b s) (sy_x s)))
                end
            | Fault f => Fault f
            end
        end
    end.

  (** buffered_dispatcher.hpp 130-158 *)
  Definition receiver_turn (s : system X) : res (option (system X)) :=
    match sy_up s with
    | [] => Ok None
    | byte :: up =>
        '(b, x, _) <- put q byte (sy_b s) (sy_x s);;
        Ok (Some (mk_system (sy_calls s) (sy_phase s) (sy_results s) up (sy_down s) b x))
    end.

  (** buffered_dispatcher.hpp 97, 179 *)
  Definition sender_turn (s : system X) : res (option (system X)) :=
    if is_loaded (sy_b s) then
      '(b, byte) <- get_byte (sy_b s);;
      Ok (Some (mk_system (sy_calls s) (sy_phase s) (sy_results s) (sy_up s) (sy_down s ++ [byte]) b (sy_x s)))
    else Ok None.

  (** The turn of a party (see [party]); the programs are those of
      test/snippet/caller4, lines 7-14 and slave1.cpp 21-51. *)
  Definition take_turn (who : party) (s : system X) : res (option (system X)) :=
    match who with
    | Caller => caller_turn s
    | Receiver => receiver_turn s
    | Sender => sender_turn s
    end.

  (** The parties take turns; how many turns were of some effect.
      (The parties: test/snippet/caller4, lines 7-14, slave1.cpp 21-51.) *)
  Fixpoint execute (turns : list party) (s : system X) : res (system X * nat) :=
    match turns with
    | [] => Ok (s, 0)
    | who :: turns' =>
        o <- take_turn who s;;
        match o with
        | None => execute turns' s
        | Some s1 =>
            '(s2, n) <- execute turns' s1;;
            Ok (s2, S n)
        end
    end.

  (** Nothing remains to be done.
      (Last conjunct: [is_loaded], buffered_dispatcher.hpp 97.) *)
  Definition finished (s : system X) : bool :=
    match sy_calls s, sy_up s, sy_down s with
    | [], [], [] => negb (is_loaded (sy_b s))
    | _, _, _ => false
    end.
End Network.

(** The system before anything happens.
    (test/snippet/caller4, line 4; slave1.cpp 7.) *)
Definition start {X : Type} (calls : list (key * list val)) (b : buffered X) (x : X) : system X :=
  mk_system calls Idle [] [] [] b x.
