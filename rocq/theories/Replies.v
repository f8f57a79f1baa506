(** [reply] of [buffered_dispatcher] (buffered_dispatcher.hpp 233-248), statement by
    statement.  No proofs in this file.

    The condition (236-237) is a statement of Classes.v, [write_to] (241) is the body
    of Methods.v and [k(buf).write_to(output)] (242) the statements of Library.v. *)

From Coq Require Import List ZArith Bool Arith String.
From Verif Require Import Base CInt TypeLevel Serial TupleModel Rpc Buffered SpecBuffered Counters.
From Verif Require Templates Library.
From Verif Require Import Classes Methods Program.
Import ListNotations.
Open Scope string_scope.
Open Scope list_scope.
Open Scope Z_scope.

(** ** A callback when a local variable of [reply] lies beside the world
    (buffered_dispatcher.hpp 240-241: [write_to] is given an iterator on [buf]) *)

(** A callback acts on the world only (tuple.hpp 184). *)
Definition beside {X : Type} (Y : Type) (f : func X) : func (X * Y) :=
  mk_func (f_sig f) (fun args w => let (x, r) := f_call f args (fst w) in ((x, snd w), r)).
(** The same for the object held by an action (action.hpp 102-117). *)
Definition beside_model {X : Type} (Y : Type) (a : model X) : model (X * Y) :=
  mk_model (m_e a) (m_m a) (beside Y (m_func a)).
(** The same for an action (action.hpp 151-237). *)
Definition beside_action {X : Type} (Y : Type) (a : action X) : action (X * Y) :=
  match a with
  | Storage o => Storage (option_map (beside_model Y) o)
  | NoStorage a => NoStorage (beside_model Y a)
  end.
(** The same for [m_dispatcher] (buffered_dispatcher.hpp 280). *)
Definition beside_dispatcher {X : Type} (Y : Type) (d : dispatcher X) : dispatcher (X * Y) :=
  mk_dispatcher
    (mk_keyring (kr_e (d_keyring d)) (kr_m (d_keyring d))
       (map (fun nf => (fst nf, beside Y (snd nf))) (kr_funcs (d_keyring d))))
    (d_features d) (map (beside_action Y) (d_actions d)).
(** The same for the whole object (280-282). *)
Definition beside_members {X : Type} (Y : Type) (b : members X) : members (X * Y) :=
  mk_members (beside_dispatcher Y (s_dispatcher b)) (s_is_index_loaded b) (s_load_count b) (s_ibuf_next b)
    (s_obuf_next b) (s_obuf_bottom b) (s_bufs b).
(** The object [b] once a member function which does not touch [m_dispatcher] (280)
    has run and left the other members as in [b']. *)
Definition members_after {X Y : Type} (b : members X) (b' : members Y) : members X :=
  mk_members (s_dispatcher b) (s_is_index_loaded b') (s_load_count b') (s_ibuf_next b') (s_obuf_next b')
    (s_obuf_bottom b') (s_bufs b').

(** [[&](byte_t byte) { *it++ = byte; }] (detail/io/immediate_writer.hpp 34), [it] being
    an iterator on a local array: out of the array there is nothing. *)
Definition into_array {X : Type} : destination (X * (list Z * nat)) :=
  fun byte w =>
    let '(x, (mem, it)) := w in
    mem' <- store mem it byte;;
    Ok (x, (mem', S it)).

(** buffered_dispatcher.hpp 236-237 *)
Definition reply_guard : stmt :=
  If (Not (And (Compare Equal (Read (Member m_obuf_next)) (IntLit 0))
               (Compare LessEqual (Read (Member m_obuf_bottom)) (Read (Local "buf_size")))))
    (Return (BoolLit false))
    Skip.

Section Reply.
  Variable p : platform.
  Variable sz : nat.
  Variable fuel : nat.
  Context {X : Type}.

  (** buffered_dispatcher.hpp 235: a difference of [std::size_t]s. *)
  Definition buf_size_w (k : key) : Z :=
    (payload_length_w sz k - Z.of_nat (k_index_size k)) mod sizes sz.

  (** buffered_dispatcher.hpp 234-247, for a key whose only parameter is a byte array
      ([None]: does not compile).  [garbage] is the content of the memory of [buf]
      before 240.  The object and the world afterwards, and what is returned. *)
  Definition reply_program (dest : destination X) (k : key) (garbage : list Z) (b : members X) (x : X)
      : option (res (members X * X * bool)) :=
    match sig_params (k_sig k) with
    | [TArr (TUns 1) n] =>
        Some (
          '(st, o) <- exec p sz fuel (transcribed p sz fuel) no_src dest reply_guard
            (mk_state b [("buf_size", Number (CInt sz false) (buf_size_w k))] x);;
          match o with
          | Returned v =>
              r <- truth v;;
              Ok (st_object st, st_world st, r)
          | Next =>
              '(b1, w, _) <- run_method p sz fuel (transcribed p sz fuel) TVoid write_to_body [] no_src into_array
                (beside_members (list Z * nat) (st_object st))
                (st_world st, (firstn n (garbage ++ repeat 0 n), 0%nat));;
              '(_, x', _) <- Library.run_body p sz fuel Library.no_source dest Library.no_functor
                (Library.key_write_src (k_e k) (k_m k) (k_index_size k) (k_index k) (sig_params (k_sig k)))
                [("args", Templates.Object (VList [VList (map VInt (fst (snd w)))]))] [] (fst w);;
              Ok (members_after (st_object st) b1, x', true)
          end)
    | _ => None
    end.

  (** What is done with a buffered dispatcher: one of the operations of
      SpecBuffered.v, or [reply] with an output, a key and what is in the memory of
      [buf]. *)
  Inductive event : Type :=
  | Do (o : op X)
  | Answer (dest : destination X) (k : key) (garbage : list Z).

  (** One of them (buffered_dispatcher.hpp 92-217, 234-247, 260-282); what it
      returns. *)
  Definition step_event (e : event) (b : members X) (x : X) : res (members X * X * obs) :=
    match e with
    | Do o => step_source p sz fuel (transcribed p sz fuel) o b x
    | Answer dest k garbage =>
        match reply_program dest k garbage b x with
        | Some r => '(b', x', v) <- r;; Ok (b', x', OBool v)
        | None => Fault TypeMismatch
        end
    end.

  (** A sequence of them (the same lines). *)
  Fixpoint run_events (es : list event) (b : members X) (x : X) : res (members X * X * list obs) :=
    match es with
    | [] => Ok (b, x, [])
    | e :: es' =>
        '(b1, x1, v) <- step_event e b x;;
        '(b2, x2, vs) <- run_events es' b1 x1;;
        Ok (b2, x2, v :: vs)
    end.
End Reply.
Arguments event : clear implicits.
Arguments Do {X} o.
Arguments Answer {X} dest k garbage.
