(** The caller which does not wait and the callees of Pipeline.v, all that they ask of
    the library being run statement by statement: by the statements of Library.v for the
    keys and the hooks, by those of Methods.v and Program.v for the dispatchers.  No
    proofs in this file.

    The simplifications are those of Exchanges.v. *)

From Coq Require Import List ZArith Bool Arith String.
From Verif Require Import Base CInt TypeLevel Serial TupleModel SpecRpc Rpc Buffered SpecBuffered Counters Network Pipeline.
From Verif Require Templates Library.
From Verif Require Import Classes Methods Program Replies Exchanges.
Import ListNotations.
Open Scope string_scope.
Open Scope list_scope.
Open Scope nat_scope.

(** The results after the response [bytes] is read, with [read_from] (key.hpp 121-131)
    or by the action made by [with_hook(my_callback)] (key.hpp 138-149, action.hpp 53-58,
    113: its putter drops every byte). *)
Definition receive_src (p : platform) (sz fuel : nat) (hooked : bool) (k : key) (bytes : list Z) (results : list val)
    : res (list val) :=
  if hooked then
    '(_, w, _) <- Library.run_body p sz fuel recording_source (fun _ w => Ok w) (f_call (recorder k))
      (Library.call_src (k_e k) (k_m k) (f_sig (recorder k))) [] [] (bytes, results);;
    Ok (snd w)
  else
    v <- read_src p sz fuel k bytes;;
    Ok (match v with Some v => results ++ [v] | None => results end).

(** [dis.put(byte); dis.write_to(send);] (buffered_dispatcher.hpp 130-158, 165-169); what
    is sent lies beside what the callbacks act on. *)
Definition buffered_src (q : platform) (sz fuel : nat) {X : Type} : server (members X) X :=
  fun byte b x =>
    '(b1, x1, _) <- step_event q sz fuel (Do (Put byte)) b x;;
    '(b2, w, _) <- run_method q sz fuel (transcribed q sz fuel) TVoid write_to_body [] no_src
      (fun c (w : X * list Z) => Ok (fst w, snd w ++ [c])) (beside_members (list Z) b1) (x1, []);;
    Ok (members_after b1 b2, fst w, snd w).

(** [dispatcher(read_byte_from_master, write_byte_to_master)] (dispatcher.hpp 119-127;
    test/snippet/callee2, line 15). *)
Definition blocking_src (q : platform) (sz fuel : nat) {X : Type} (d : dispatcher (wires X)) : server (list Z) X :=
  fun byte l x =>
    match dispatch_program q sz fuel d take_wire give_wire (mk_wires (l ++ [byte]) [] x) with
    | Ok (w, _) => Ok (w_in w, w_user w, w_out w)
    | Fault NoInput => Ok (l ++ [byte], x, [])
    | Fault f => Fault f
    end.

Section Pipelines.
  Variable p : platform.
  Variables sz fuel : nat.
  Context {S X : Type}.
  Variable serve : server S X.

  (** The turn of the caller (test/snippet/caller4, lines 7, 14; caller5, lines 10,
      18). *)
  Definition asker_src (s : pipeline S X) : res (option (pipeline S X)) :=
    match pl_unsent s with
    | byte :: unsent =>
        Ok (Some (mk_pipeline (pl_ops s) unsent (pl_got s) (pl_results s) (pl_up s ++ [byte]) (pl_down s)
                    (pl_state s) (pl_x s)))
    | [] =>
        match pl_ops s with
        | [] => Ok None
        | Ask k args :: ops =>
            bytes <- message_src p sz fuel k args;;
            Ok (Some (mk_pipeline ops bytes (pl_got s) (pl_results s) (pl_up s) (pl_down s) (pl_state s) (pl_x s)))
        | Receive hooked k :: ops =>
            match receive_src p sz fuel hooked k (pl_got s) (pl_results s) with
            | Ok results =>
                Ok (Some (mk_pipeline ops [] [] results (pl_up s) (pl_down s) (pl_state s) (pl_x s)))
            | Fault NoInput =>
                match pl_down s with
                | [] => Ok None
                | byte :: down =>
                    Ok (Some (mk_pipeline (pl_ops s) [] (pl_got s ++ [byte]) (pl_results s) (pl_up s) down
                                (pl_state s) (pl_x s)))
                end
            | Fault f => Fault f
            end
        end
    end.

  (** The callee takes a byte and handles it (test/snippet/callee2, line 15). *)
  Definition server_src (s : pipeline S X) : res (option (pipeline S X)) :=
    match pl_up s with
    | [] => Ok None
    | byte :: up =>
        '(state, x, sent) <- serve byte (pl_state s) (pl_x s);;
        Ok (Some (mk_pipeline (pl_ops s) (pl_unsent s) (pl_got s) (pl_results s) up (pl_down s ++ sent) state x))
    end.

  (** One turn, [true] when it is the one of the caller (test/snippet/caller4, lines
      7-14; callee2, line 15). *)
  Definition one_src (who : bool) (s : pipeline S X) : res (option (pipeline S X)) :=
    if who then asker_src s else server_src s.

  (** Several turns; how many were of some effect (test/snippet/caller4, lines 7-14). *)
  Fixpoint steps_src (turns : list bool) (s : pipeline S X) : res (pipeline S X * nat) :=
    match turns with
    | [] => Ok (s, 0)
    | who :: turns' =>
        o <- one_src who s;;
        match o with
        | None => steps_src turns' s
        | Some s1 =>
            '(s2, n) <- steps_src turns' s1;;
            Ok (s2, Datatypes.S n)
        end
    end.
End Pipelines.
