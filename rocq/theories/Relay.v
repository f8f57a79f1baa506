(** Model of programs which pass requests on: [t.invoke(key)] (key.hpp 83-84,
    tuple.hpp 160-163) and callbacks which use the keys of another keyring.  No
    proofs in this file. *)

From Coq Require Import List ZArith Bool Arith.
From Verif Require Import Base CInt IntModel TypeLevel Serial TupleModel Rpc SpecRpc.
Import ListNotations.
Open Scope nat_scope.

(** key.hpp 83-84 and 108-111, tuple.hpp 160-163 and 182-185,
    serialized_message.hpp 31-36: [t.invoke(k).write_to(dest)].  The types of the
    elements of [t] are those of the parameters of the key; its format and
    storage are any. *)
Definition invoke_key {X : Type} (p : platform) (t : view) (k : key) (dest : destination X) (mem : list Z) (x : X) : res X :=
  '(x1, args) <- invoke p t (fun args x => (x, args)) mem x;;
  key_write p k args dest x1.

(** A callback seen from a world with wires: it only acts on the user state.
    (test/snippet/callee2, line 15.) *)
Definition on_wires {S : Type} (f : func S) : func (wires S) :=
  mk_func (f_sig f) (fun args w => let (s, r) := f_call f args (w_user w) in (mk_wires (w_in w) (w_out w) s, r)).

(** ** Relays

    One link of a chain: the caller's host, the callee's, the storage policy of the callee's
    dispatcher, the format of the link, the name of the callback which is passed
    on and the other callbacks of the callee's keyring, before and after it.
    (test/snippet/caller4, line 4; callee2, line 7.) *)
Record hop (S : Type) : Type := mk_hop {
  h_caller : platform;
  h_callee : platform;
  h_features : action_features;
  h_e : endianess;
  h_m : signed_mode;
  h_name : nat;
  h_before : list (nat * func S);
  h_after : list (nat * func S)
}.
Arguments mk_hop {S}.
Arguments h_caller {S} h.
Arguments h_callee {S} h.
Arguments h_features {S} h.
Arguments h_e {S} h.
Arguments h_m {S} h.
Arguments h_name {S} h.
Arguments h_before {S} h.
Arguments h_after {S} h.

(** The keyring of a link (test/snippet/callee2, lines 1-7; keyring.hpp
    40-41). *)
Definition hop_keyring {S : Type} (h : hop S) (f : func S) : keyring (wires S) :=
  mk_keyring (h_e h) (h_m h)
    (map (fun nf => (fst nf, on_wires (snd nf))) (h_before h ++ (h_name h, f) :: h_after h)).

(** A call through a link, as in doc/caller.rst.in: the caller writes the request
    ([k(args...).write_to(...)]), the callee's dispatcher reads it and writes the
    response, which the caller reads ([k.read_from(...)]).  [s] is the state of
    the callee and of what it talks to.
    (test/snippet/caller4, lines 7, 14; callee2, line 15.) *)
Definition call_through {S : Type} (h : hop S) (f : func S) (args : list val) (s : S) : res (S * option val) :=
  match kr_get (hop_keyring h f) (h_name h) (on_wires f) with
  | None => Fault TypeMismatch
  | Some k =>
      w <- key_write (h_caller h) k args give_wire (mk_wires [] [] tt);;
      '(d, _) <- dispatch (h_callee h) (make_dispatcher (hop_keyring h f) (h_features h)) take_wire give_wire
                   (mk_wires (w_out w) [] s);;
      '(_, v) <- key_read (h_caller h) k take_wire (mk_wires (w_out d) [] tt);;
      Ok (w_user d, v)
  end.

(** A callback of the caller's which passes its arguments on and returns what it
    receives.  (A fault is not expected; the function has to be total.)
    (test/snippet/caller4, lines 4-14, as the body of a callback.) *)
Definition relay {S : Type} (h : hop S) (f : func S) : func S :=
  mk_func (f_sig f) (fun args s =>
    match call_through h f args s with
    | Ok (s', Some v) => (s', v)
    | Ok (s', None) => (s', VInt 0)
    | Fault _ => (s, VInt 0)
    end).

(** A chain of devices; the last one has [f].
    (No counterpart in /repo: links as in test/snippet/caller4 and callee2,
    line 15, put together.) *)
Fixpoint chain {S : Type} (hs : list (hop S)) (f : func S) : func S :=
  match hs with
  | [] => f
  | h :: hs' => relay h (chain hs' f)
  end.
