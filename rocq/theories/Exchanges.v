(** The caller and the callee of Network.v, all that they ask of the library being run
    statement by statement: requests are written and responses read by the statements of
    Library.v, bytes are put and got by those of Methods.v.  No proofs in this file.

    Simplification: as in Network.v, the bytes of a request are computed before the
    first one is written (the putter of the caller only appends to a channel), and a
    [read_from] which has to wait is run again from its beginning when there is one more
    byte. *)

From Coq Require Import List ZArith Bool Arith String.
From Verif Require Import Base CInt TypeLevel Serial TupleModel Rpc Buffered SpecBuffered Counters Network.
From Verif Require Templates Library.
From Verif Require Import Classes Methods Program Replies.
Import ListNotations.
Open Scope string_scope.
Open Scope list_scope.
Open Scope nat_scope.

(** As [system] of Network.v, the callee being the members of the class.
    (test/snippet/caller4; buffered_dispatcher.hpp 280-282.) *)
Record parties (X : Type) : Type := mk_parties {
  pa_calls : list (key * list val);
  pa_phase : phase;
  pa_results : list (option val);
  pa_up : list Z;
  pa_down : list Z;
  pa_b : members X;
  pa_x : X
}.
Arguments mk_parties {X} pa_calls pa_phase pa_results pa_up pa_down pa_b pa_x.
Arguments pa_calls {X} p.
Arguments pa_phase {X} p.
Arguments pa_results {X} p.
Arguments pa_up {X} p.
Arguments pa_down {X} p.
Arguments pa_b {X} p.
Arguments pa_x {X} p.

(** What [read_from] returns: nothing or a value (key.hpp 121-131). *)
Definition read_value (v : Templates.value) : option val :=
  match v with Templates.Object v => Some v | _ => None end.

Section Exchanges.
  (** The hosts of the caller and of the callee, [sizeof(std::size_t)] of both. *)
  Variables p q : platform.
  Variables sz sz' : nat.
  Variable fuel : nat.
  Context {X : Type}.

  (** The bytes which [key(args...).write_to(dest)] gives to [dest] (key.hpp 108-111,
      serialized_message.hpp 31-36; test/snippet/caller4, line 7). *)
  Definition message_src (k : key) (args : list val) : res (list Z) :=
    '(_, bytes, _) <- Library.run_body p sz fuel Library.no_source (fun byte l => Ok (l ++ [byte])) Library.no_functor
      (Library.key_write_src (k_e k) (k_m k) (k_index_size k) (k_index k) (sig_params (k_sig k)))
      [("args", Templates.Object (VList args))] [] [];;
    Ok bytes.

  (** [key.read_from(src)] when the bytes of [l] can be read without waiting (key.hpp
      121-131; test/snippet/caller4, line 14). *)
  Definition read_src (k : key) (l : list Z) : res (option val) :=
    '(_, _, v) <- Library.run_body p sz fuel list_source Library.no_destination Library.no_functor
      (Library.key_read_src (k_e k) (k_m k) (sig_ret (k_sig k))) [] [] l;;
    Ok (read_value v).

  (** The turn of the caller (test/snippet/caller4; key.hpp 108-131). *)
  Definition caller_src (s : parties X) : res (option (parties X)) :=
    match pa_calls s with
    | [] => Ok None
    | (k, args) :: calls =>
        match pa_phase s with
        | Idle =>
            bytes <- message_src k args;;
            Ok (Some (mk_parties (pa_calls s) (Writing bytes) (pa_results s) (pa_up s) (pa_down s) (pa_b s) (pa_x s)))
        | Writing (byte :: bytes) =>
            Ok (Some (mk_parties (pa_calls s) (Writing bytes) (pa_results s) (pa_up s ++ [byte]) (pa_down s)
                        (pa_b s) (pa_x s)))
        | Writing [] =>
            Ok (Some (mk_parties (pa_calls s) (Reading []) (pa_results s) (pa_up s) (pa_down s) (pa_b s) (pa_x s)))
        | Reading bytes =>
            match read_src k bytes with
            | Ok v =>
                Ok (Some (mk_parties calls Idle (pa_results s ++ [v]) (pa_up s) (pa_down s) (pa_b s) (pa_x s)))
            | Fault NoInput =>
                match pa_down s with
                | [] => Ok None
                | byte :: down =>
                    Ok (Some (mk_parties (pa_calls s) (Reading (bytes ++ [byte])) (pa_results s) (pa_up s) down
                                (pa_b s) (pa_x s)))
                end
            | Fault f => Fault f
            end
        end
    end.

  (** [dis.put(byte)] (buffered_dispatcher.hpp 130-158). *)
  Definition receiver_src (s : parties X) : res (option (parties X)) :=
    match pa_up s with
    | [] => Ok None
    | byte :: up =>
        '(b, x, _) <- step_event q sz' fuel (Do (Put byte)) (pa_b s) (pa_x s);;
        Ok (Some (mk_parties (pa_calls s) (pa_phase s) (pa_results s) up (pa_down s) b x))
    end.

  (** [if (dis.is_loaded()) send(dis.get());] (buffered_dispatcher.hpp 97, 179). *)
  Definition sender_src (s : parties X) : res (option (parties X)) :=
    '(b, x, loaded) <- step_event q sz' fuel (Do IsLoaded) (pa_b s) (pa_x s);;
    match loaded with
    | OBool true =>
        '(b, x, got) <- step_event q sz' fuel (Do Get) b x;;
        match got with
        | OByte byte =>
            Ok (Some (mk_parties (pa_calls s) (pa_phase s) (pa_results s) (pa_up s) (pa_down s ++ [byte]) b x))
        | _ => Fault TypeMismatch
        end
    | _ => Ok None
    end.

  (** The turn of a party (test/snippet/caller4, lines 7-14; slave1.cpp 21-51). *)
  Definition turn_src (who : party) (s : parties X) : res (option (parties X)) :=
    match who with
    | Caller => caller_src s
    | Receiver => receiver_src s
    | Sender => sender_src s
    end.

  (** The parties take turns; how many turns were of some effect (the same lines). *)
  Fixpoint turns_src (turns : list party) (s : parties X) : res (parties X * nat) :=
    match turns with
    | [] => Ok (s, 0)
    | who :: turns' =>
        o <- turn_src who s;;
        match o with
        | None => turns_src turns' s
        | Some s1 =>
            '(s2, n) <- turns_src turns' s1;;
            Ok (s2, S n)
        end
    end.

  (** Nothing remains to be done: [is_loaded] returns false, the caller has returned
      and the channels are empty (buffered_dispatcher.hpp 97). *)
  Definition finished_src (s : parties X) : res bool :=
    '(_, _, loaded) <- step_event q sz' fuel (Do IsLoaded) (pa_b s) (pa_x s);;
    Ok (match pa_calls s, pa_up s, pa_down s, loaded with [], [], [], OBool false => true | _, _, _, _ => false end).
End Exchanges.

(** Before anything happens: the members have the values of their initialisers
    (buffered_dispatcher.hpp 92-95, 280-282; test/snippet/caller4, line 4). *)
Definition start_src {X : Type} (calls : list (key * list val)) (d : dispatcher X) (bufs : buffers) (x : X) : parties X :=
  mk_parties calls Idle [] [] [] (init_members d bufs) x.
