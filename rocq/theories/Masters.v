(** Two devices which both initiate requests (Multimaster.v), all that they ask of the
    library being run statement by statement: requests are written by the statements of
    Library.v, bytes are received and responses sent by those of Methods.v and
    Replies.v.  No proofs in this file.

    Simplification: the callback which handles responses is the one of Multimaster.v,
    where [read_from] of keys and hooks are those of Rpc.v. *)

From Coq Require Import List ZArith Bool Arith String.
From Verif Require Import Base CInt TypeLevel Serial TupleModel Rpc Buffered SpecBuffered Counters Multimaster.
From Verif Require Templates Library.
From Verif Require Import Classes Methods Program Replies.
Import ListNotations.
Open Scope string_scope.
Open Scope list_scope.
Open Scope nat_scope.

(** A device: the requests it has to make, its dispatcher, its world.
    (test/buffered_dispatcher.cpp 252-254.) *)
Record device (X : Type) : Type := mk_device {
  de_todo : list demand;
  de_b : members (master X);
  de_w : master X
}.
Arguments mk_device {X} de_todo de_b de_w.
Arguments de_todo {X} d.
Arguments de_b {X} d.
Arguments de_w {X} d.

Section Masters.
  Context {X : Type}.
  Variable d : devices X.
  (** [sizeof(std::size_t)] of both hosts. *)
  Variable sz : bool -> nat.
  Variable fuel : nat.

  (** [key(args...).write_to(send)] (key.hpp 108-111, serialized_message.hpp 31-36).  A
      function which returns nothing is not answered. *)
  Definition request_src (s : bool) (st : bool -> device X) : res (option (bool -> device X)) :=
    let me := st s in
    match de_todo me with
    | [] => Ok None
    | (hooked, (k, args)) :: todo =>
        '(_, w, _) <- Library.run_body (dv_p d s) (sz s) fuel Library.no_source send Library.no_functor
          (Library.key_write_src (k_e k) (k_m k) (k_index_size k) (k_index k) (sig_params (k_sig k)))
          [("args", Templates.Object (VList args))] [] (de_w me);;
        let pending := match sig_ret (k_sig k) with Some _ => [(hooked, k)] | None => [] end in
        Ok (Some (at_side s
          (mk_device todo (de_b me)
             (mk_master (ms_x w) (ms_pending w ++ pending) (ms_results w) (ms_lost w) (ms_out w))) st))
    end.

  (** [dis.put(byte); if (dis.is_loaded()) dis.reply(send, key);]
      (buffered_dispatcher.hpp 97, 130-158, 219-247).  If [reply] returned [false] the
      response is lost. *)
  Definition listen_src (s : bool) (garbage : list Z) (st : bool -> device X) : res (option (bool -> device X)) :=
    let me := st s in
    let peer := st (negb s) in
    let p := dv_p d s in
    match ms_out (de_w peer) with
    | [] => Ok None
    | byte :: out =>
        let st1 := at_side (negb s)
          (mk_device (de_todo peer) (de_b peer)
             (mk_master (ms_x (de_w peer)) (ms_pending (de_w peer)) (ms_results (de_w peer))
                (ms_lost (de_w peer)) out)) st in
        '(b, w, _) <- step_event p (sz s) fuel (Do (Put byte)) (de_b me) (de_w me);;
        '(b, w, loaded) <- step_event p (sz s) fuel (Do IsLoaded) b w;;
        match loaded with
        | OBool true =>
            '(b, w, sent) <- step_event p (sz s) fuel (Answer send (dv_k d (negb s)) garbage) b w;;
            match sent with
            | OBool true => Ok (Some (at_side s (mk_device (de_todo me) b w) st1))
            | _ => Ok (Some (at_side s (mk_device (de_todo me) b (lose w)) st1))
            end
        | _ => Ok (Some (at_side s (mk_device (de_todo me) b w) st1))
        end
    end.

  (** One turn (see [activity] of Multimaster.v; test/buffered_dispatcher.cpp
      259-263). *)
  Definition act_src (turn : bool * activity) (st : bool -> device X) : res (option (bool -> device X)) :=
    match snd turn with
    | Request => request_src (fst turn) st
    | Listen garbage => listen_src (fst turn) garbage st
    end.

  (** How many turns were of some effect (test/buffered_dispatcher.cpp 259-271). *)
  Fixpoint acts_src (turns : list (bool * activity)) (st : bool -> device X) : res ((bool -> device X) * nat) :=
    match turns with
    | [] => Ok (st, 0)
    | turn :: turns' =>
        o <- act_src turn st;;
        match o with
        | None => acts_src turns' st
        | Some st1 =>
            '(st2, n) <- acts_src turns' st1;;
            Ok (st2, S n)
        end
    end.
End Masters.

(** Every request was written, every byte was handled
    (test/buffered_dispatcher.cpp 264, 271). *)
Definition settled_src {X : Type} (st : bool -> device X) : bool :=
  forallb (fun s => match de_todo (st s), ms_out (de_w (st s)) with [], [] => true | _, _ => false end) [true; false].

(** Before anything happens: the members have the values of their initialisers
    (buffered_dispatcher.hpp 92-95, 280-282; test/buffered_dispatcher.cpp 252-254). *)
Definition switch_on_src {X : Type} (todo : bool -> list demand) (dis : bool -> dispatcher (master X))
    (bufs : bool -> buffers) (x : bool -> X) : bool -> device X :=
  fun s => mk_device (todo s) (init_members (dis s) (bufs s)) (mk_master (x s) [] [] false []).
