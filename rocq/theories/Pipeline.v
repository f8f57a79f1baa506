(** Model of a caller which makes requests without waiting for the responses of
    the requests before.  No proofs in this file.

    The caller writes requests ([key(args...).write_to(write_byte_to_slave)]) and
    receives responses at any later time, in the order of the requests, either
    with [key.read_from(read_byte_from_slave)] (test/snippet/caller4) or with an
    action made by [key.with_hook(my_callback)] (test/snippet/caller5).  Channels
    are those of Network.v.  The callee is

    - a dispatcher in a loop: [for (;;) dispatcher(read_byte_from_master,
      write_byte_to_master)] (test/snippet/callee2), where [read_byte_from_master]
      waits for a byte; or
    - a buffered dispatcher in a loop: each byte received is put, then the
      response, if any, is written ([dis.put(byte); dis.write_to(send)]).

    The bytes of a response enter the channel together; the caller takes them one
    by one. *)

From Coq Require Import List ZArith Bool Arith.
From Verif Require Import Base CInt IntModel TypeLevel Serial TupleModel SpecRpc Rpc Buffered Network.
Import ListNotations.
Open Scope nat_scope.

(** What the caller does; [Receive true] is the call of the action made by
    [with_hook].
    test/snippet/caller4, lines 7, 14; test/snippet/caller5, lines 10, 18;
    key.hpp 108-149. *)
Inductive operation : Type :=
| Ask (k : key) (args : list val)
| Receive (hooked : bool) (k : key).

(** [my_callback] of test/snippet/caller5: it keeps its argument. *)
Definition recorder (k : key) : func (list Z * list val) :=
  mk_func (mk_sig (match sig_ret (k_sig k) with Some t => [t] | None => [] end) None)
    (fun args w => ((fst w, snd w ++ args), VInt 0)).

(** [read_byte_from_slave], when the bytes of the first component can be read
    without waiting.
    test/snippet/caller5, line 18. *)
Definition recording_source : source (list Z * list val) :=
  fun w => '(l, byte) <- list_source (fst w);; Ok ((l, snd w), byte).

(** test/snippet/caller4; test/snippet/caller5, key.hpp 121-157, action.hpp: the
    results after the response [bytes] is read. *)
Definition receive (p : platform) (hooked : bool) (k : key) (bytes : list Z) (results : list val)
    : res (list val) :=
  if hooked then
    '(_, results') <- run_input_only p (with_hook ANY k (recorder k)) recording_source (bytes, results);;
    Ok results'
  else
    '(_, v) <- key_read p k list_source bytes;;
    Ok (match v with Some v => results ++ [v] | None => results end).

(** What a callee does with a byte: its state and the world of the callbacks
    afterwards, the bytes it sends.
    (The servers: buffered_dispatcher.hpp 130-169, test/snippet/callee2,
    line 15.) *)
Definition server (S X : Type) : Type := Z -> S -> X -> res (S * X * list Z).

(** buffered_dispatcher.hpp 130-158, 165-169 *)
Definition buffered_server (q : platform) {X : Type} : server (buffered X) X :=
  fun byte b x =>
    '(b1, x1, _) <- put q byte b x;;
    '(b2, sent) <- write_to (fun c l => Ok (l ++ [c])) b1 [];;
    Ok (b2, x1, sent).

(** dispatcher.hpp 119-127.  The state is the bytes read since the call of the
    dispatcher: as long as they do not suffice, it waits for another one.  The
    callbacks act on their world only ([w_user]). *)
Definition blocking_server (q : platform) {X : Type} (d : dispatcher (wires X)) : server (list Z) X :=
  fun byte l x =>
    match dispatch q d take_wire give_wire (mk_wires (l ++ [byte]) [] x) with
    | Ok (w, _) => Ok (w_in w, w_user w, w_out w)
    | Fault NoInput => Ok (l ++ [byte], x, [])
    | Fault f => Fault f
    end.

(** What the caller has to do, the bytes of the request under way, the bytes of
    the response under way, its results; the channels; the callee.
    (test/snippet/caller4, lines 7-14.) *)
Record pipeline (S X : Type) : Type := mk_pipeline {
  pl_ops : list operation;
  pl_unsent : list Z;
  pl_got : list Z;
  pl_results : list val;
  pl_up : list Z;
  pl_down : list Z;
  pl_state : S;
  pl_x : X
}.
Arguments mk_pipeline {S X} pl_ops pl_unsent pl_got pl_results pl_up pl_down pl_state pl_x.
Arguments pl_ops {S X} p.
Arguments pl_unsent {S X} p.
Arguments pl_got {S X} p.
Arguments pl_results {S X} p.
Arguments pl_up {S X} p.
Arguments pl_down {S X} p.
Arguments pl_state {S X} p.
Arguments pl_x {S X} p.

Section Pipeline.
  Variable p : platform.
  Context {S X : Type}.
  Variable serve : server S X.

  (** [None]: nothing to do, or waits.
      test/snippet/caller4, lines 7, 14: one byte written or read, or one
      call. *)
  Definition caller_step (s : pipeline S X) : res (option (pipeline S X)) :=
    match pl_unsent s with
    | byte :: unsent =>
        Ok (Some (mk_pipeline (pl_ops s) unsent (pl_got s) (pl_results s) (pl_up s ++ [byte]) (pl_down s)
                    (pl_state s) (pl_x s)))
    | [] =>
        match pl_ops s with
        | [] => Ok None
        | Ask k args :: ops =>
            bytes <- message p k args;;
            Ok (Some (mk_pipeline ops bytes (pl_got s) (pl_results s) (pl_up s) (pl_down s) (pl_state s) (pl_x s)))
        | Receive hooked k :: ops =>
            match receive p hooked k (pl_got s) (pl_results s) with
            | Ok results =>
                Ok (Some (mk_pipeline ops [] [] results (pl_up s) (pl_down s) (pl_state s) (pl_x s)))
            | Fault NoInput =>
                match pl_down s with
                | [] => Ok None
                | byte :: down =>
                    Ok (Some (mk_pipeline (pl_ops s) [] (pl_got s ++ [byte]) (pl_results s) (pl_up s) down
                                (pl_state s) (pl_x s)))
                end
            | Fault f => Fault f
            end
        end
    end.

  (** The callee takes a byte and handles it (see [server]);
      test/snippet/callee2, line 15. *)
  Definition callee_step (s : pipeline S X) : res (option (pipeline S X)) :=
    match pl_up s with
    | [] => Ok None
    | byte :: up =>
        '(state, x, sent) <- serve byte (pl_state s) (pl_x s);;
        Ok (Some (mk_pipeline (pl_ops s) (pl_unsent s) (pl_got s) (pl_results s) up (pl_down s ++ sent) state x))
    end.

  (** An execution: [true] when it is the turn of the caller; how many turns were
      of some effect.
      (test/snippet/caller4, lines 7-14; callee2, line 15.) *)
  Definition one_step (who : bool) (s : pipeline S X) : res (option (pipeline S X)) :=
    if who then caller_step s else callee_step s.

  (** Several turns (same lines). *)
  Fixpoint steps (turns : list bool) (s : pipeline S X) : res (pipeline S X * nat) :=
    match turns with
    | [] => Ok (s, 0)
    | who :: turns' =>
        o <- one_step who s;;
        match o with
        | None => steps turns' s
        | Some s1 =>
            '(s2, n) <- steps turns' s1;;
            Ok (s2, Datatypes.S n)
        end
    end.

  (** Whether the caller has finished (test/snippet/caller4, after line 14)
      and nothing is on its way to the callee. *)
  Definition complete (s : pipeline S X) : bool :=
    match pl_ops s, pl_unsent s, pl_up s with
    | [], [], [] => true
    | _, _, _ => false
    end.
End Pipeline.

(** Before line 7 of test/snippet/caller4. *)
Definition begin {S X : Type} (ops : list operation) (state : S) (x : X) : pipeline S X :=
  mk_pipeline ops [] [] [] [] [] state x.
