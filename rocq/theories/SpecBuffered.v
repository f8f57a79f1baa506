(** What a buffered dispatcher is expected to do: an abstract machine whose
    state is the bytes received of the current request and the bytes of the
    response which are still to be sent.  Independent of the model of the
    buffered dispatchers: no buffer, no counter, no position. *)

From Coq Require Import List ZArith Bool Arith.
From Verif Require Import Base Spec TypeLevel Conditions SpecRpc Rpc Buffered RpcProofs.
Import ListNotations.
Open Scope nat_scope.

(** The format of the requests: endianess, signed mode, size of the index. *)
Record format : Type := mk_format { fm_e : endianess; fm_m : signed_mode; fm_w : nat }.

(** A received prefix of a request is incomplete, starts with an index which
    designates nothing, or is a complete request for a callback. *)
Inductive verdict (X : Type) : Type :=
| Incomplete
| Invalid
| Request (f : func X) (payload : list Z).
Arguments Incomplete {X}.
Arguments Invalid {X}.
Arguments Request {X} f payload.

Section Machine.
  Context {X : Type}.
  Variable fm : format.

  (** The callback a prefix of a request designates. *)
  Definition designated (table : list (func X)) (bs : list Z) : option (func X) :=
    nth_error table (Z.to_nat (wire_value (fm_e fm) (firstn (fm_w fm) bs))).

  Definition params (f : func X) : list ty := sig_params (f_sig f).
  Definition ret (f : func X) : option ty := sig_ret (f_sig f).

  Definition examine (table : list (func X)) (bs : list Z) : verdict X :=
    if length bs <? fm_w fm then Incomplete
    else match designated table bs with
         | None => Invalid
         | Some f =>
             if length bs <? fm_w fm + wire_sizes (params f) then Incomplete
             else Request f (skipn (fm_w fm) bs)
         end.

  (** How many bytes can be waited for without knowing more. *)
  Definition missing (table : list (func X)) (bs : list Z) : nat :=
    if length bs <? fm_w fm then fm_w fm - length bs
    else match designated table bs with
         | None => 0
         | Some f => fm_w fm + wire_sizes (params f) - length bs
         end.

  (** The state: what was received of the request, what remains of the
      response, the callbacks. *)
  Record machine : Type := mk_machine {
    mc_in : list Z;
    mc_out : list Z;
    mc_table : list (func X)
  }.

  (** The outcome of a local call: the new world and the bytes of the result. *)
  Definition serve (f : func X) (payload : list Z) (x : X) : X * list Z :=
    let (x', r) := f_call f (dec_list (fm_e fm) (fm_m fm) (params f) payload) x in
    (x', response (fm_e fm) (fm_m fm) (ret f) r).

  (** Having received [bs]. *)
  Definition received (bs : list Z) (a : machine) (x : X) : machine * X * packet_status :=
    match examine (mc_table a) bs with
    | Incomplete => (mk_machine bs (mc_out a) (mc_table a), x, LOADING_PACKET)
    | Invalid => (mk_machine [] (mc_out a) (mc_table a), x, DROPPED_PACKET)
    | Request f payload =>
        let (x', out) := serve f payload x in
        (mk_machine [] out (mc_table a), x', RESOLVED_PACKET)
    end.

  Definition mc_put (byte : Z) (a : machine) (x : X) : machine * X * packet_status :=
    received (mc_in a ++ [byte]) a x.

  (** One packet is taken from the source: first the index, then the arguments. *)
  Definition mc_fetch (src : source X) (a : machine) (x : X) : res (X * list Z) :=
    '(x1, bs1) <- pull src (missing (mc_table a) (mc_in a)) x;;
    '(x2, bs2) <- pull src (missing (mc_table a) (mc_in a ++ bs1)) x1;;
    Ok (x2, mc_in a ++ bs1 ++ bs2).

  Definition mc_read (src : source X) (a : machine) (x : X) : res (machine * X * packet_status) :=
    '(x1, bs) <- mc_fetch src a x;;
    Ok (received bs a x1).

  Definition mc_get (a : machine) : machine * Z :=
    match mc_out a with
    | [] => (a, 0%Z)
    | b :: out => (mk_machine (mc_in a) out (mc_table a), b)
    end.

  Definition mc_loaded (a : machine) : bool :=
    match mc_out a with [] => false | _ => true end.

  Definition mc_write (dest : destination X) (a : machine) (x : X) : res (machine * X) :=
    x' <- push dest (mc_out a) x;;
    Ok (mk_machine (mc_in a) [] (mc_table a), x').

  Definition mc_process (src : source X) (dest : destination X) (a : machine) (x : X)
      : res (machine * X * packet_status) :=
    '(a1, x1, s) <- mc_read src a x;;
    match s with
    | RESOLVED_PACKET => '(a2, x2) <- mc_write dest a1 x1;; Ok (a2, x2, s)
    | _ => Ok (a1, x1, s)
    end.

  Fixpoint update (l : list (func X)) (i : nat) (f : func X) : list (func X) :=
    match l, i with
    | [], _ => []
    | _ :: l', 0 => f :: l'
    | g :: l', S i' => g :: update l' i' f
    end.

  Definition mc_replace (i : nat) (f : func X) (a : machine) : machine :=
    mk_machine (mc_in a) (mc_out a) (update (mc_table a) i f).

  (** ** Histories *)

  Inductive op : Type :=
  | Put (byte : Z)
  | Get
  | IsLoaded
  | ReadFrom (src : source X)
  | WriteTo (dest : destination X)
  | Process (src : source X) (dest : destination X)
  | Replace (i : nat) (r : replacement X)
  (** The world changes between two calls. *)
  | Outside (g : X -> X)
  (** The dispatcher is moved to another object, which is used from then on. *)
  | Move.

  Inductive obs : Type :=
  | OStatus (s : packet_status)
  | OByte (b : Z)
  | OBool (b : bool)
  | ONone.

  Definition mc_step (o : op) (a : machine) (x : X) : res (machine * X * obs) :=
    match o with
    | Put byte => let '(a', x', s) := mc_put byte a x in Ok (a', x', OStatus s)
    | Get => let (a', b) := mc_get a in Ok (a', x, OByte b)
    | IsLoaded => Ok (a, x, OBool (mc_loaded a))
    | ReadFrom src => '(a', x', s) <- mc_read src a x;; Ok (a', x', OStatus s)
    | WriteTo dest => '(a', x') <- mc_write dest a x;; Ok (a', x', ONone)
    | Process src dest => '(a', x', s) <- mc_process src dest a x;; Ok (a', x', OStatus s)
    | Replace i r => Ok (mc_replace i (replacing r) a, x, ONone)
    | Outside g => Ok (a, g x, ONone)
    | Move => Ok (a, x, ONone)
    end.

  Fixpoint mc_run (ops : list op) (a : machine) (x : X) : res (machine * X * list obs) :=
    match ops with
    | [] => Ok (a, x, [])
    | o :: ops' =>
        '(a1, x1, b) <- mc_step o a x;;
        '(a2, x2, bs) <- mc_run ops' a1 x1;;
        Ok (a2, x2, b :: bs)
    end.

  (** ** Conditions on a history *)

  Variable p : platform.

  (** If [bs] is a complete request, its arguments can be decoded without
      undefined behaviour and the result can be encoded. *)
  Definition servable (table : list (func X)) (bs : list Z) (x : X) : Prop :=
    match examine table bs with
    | Request f payload =>
        decodable_list p (fm_e fm) (fm_m fm) (params f) payload
        /\ ret_encodable p (fm_m fm) (ret f)
             (snd (f_call f (dec_list (fm_e fm) (fm_m fm) (params f) payload) x))
    | _ => True
    end.

  (** What the source gives when it is used at most [n] times are bytes. *)
  Definition gives_bytes (src : source X) (n : nat) (x : X) : Prop :=
    forall k y bs, k <= n -> pull src k x = Ok (y, bs) -> Forall is_byte bs.

  (** The source gives the bytes which are missing, and what was fetched is
      servable. *)
  Definition readable (src : source X) (a : machine) (x : X) : Prop :=
    gives_bytes src (missing (mc_table a) (mc_in a)) x
    /\ (forall y bs, pull src (missing (mc_table a) (mc_in a)) x = Ok (y, bs) ->
          gives_bytes src (missing (mc_table a) (mc_in a ++ bs)) y)
    /\ forall x' bs, mc_fetch src a x = Ok (x', bs) -> servable (mc_table a) bs x'.

  (** [replace<I>(r)] compiles. *)
  Definition replaceable (ft : action_features) (sigs : list signature) (i : nat) (r : replacement X) : Prop :=
    nth_error sigs i = Some (f_sig (replacing r))
    /\ match r with ByFunctor _ => ft = ANY | ByUnevaluated _ => True end.

  Definition step_ok (ft : action_features) (sigs : list signature) (o : op) (a : machine) (x : X) : Prop :=
    match o with
    | Put byte => is_byte byte /\ servable (mc_table a) (mc_in a ++ [byte]) x
    | ReadFrom src | Process src _ => readable src a x
    | Replace i r => replaceable ft sigs i r
    | _ => True
    end.

  (** No byte is received while a response is pending. *)
  Definition half_duplex (o : op) (a : machine) : Prop :=
    match o with
    | Put _ | ReadFrom _ | Process _ _ => mc_out a = []
    | _ => True
    end.

  Fixpoint along (P : op -> machine -> X -> Prop) (ops : list op) (a : machine) (x : X) : Prop :=
    match ops with
    | [] => True
    | o :: ops' =>
        P o a x /\ forall a1 x1 b, mc_step o a x = Ok (a1, x1, b) -> along P ops' a1 x1
    end.
End Machine.
Arguments mc_in {X} m.
Arguments mc_out {X} m.
Arguments mc_table {X} m.
Arguments mk_machine {X} mc_in mc_out mc_table.
Arguments machine : clear implicits.
Arguments op : clear implicits.
Arguments Put {X} byte.
Arguments Get {X}.
Arguments IsLoaded {X}.
Arguments ReadFrom {X} src.
Arguments WriteTo {X} dest.
Arguments Process {X} src dest.
Arguments Replace {X} i r.
Arguments Outside {X} g.
Arguments Move {X}.
