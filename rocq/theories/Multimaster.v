(** Model of two devices which both initiate requests (doc/caller.rst.in: "In
    case of a multimaster architecture (i.e. if both devices can initiate a
    request), the [buffered_dispatcher::reply()] function can come in handy").
    No proofs in this file.

    Each device has a buffered dispatcher and a channel to the other device.
    Requests and responses go through the same channel: the response of a request
    is sent with [reply], as a request for a callback of the other device which
    takes an array of bytes.  That callback reads the value in the array, with
    the key of the oldest request which is not answered yet: either
    [key.read_from(array)], or the action made by [key.with_hook(callback)]
    (test/buffered_dispatcher.cpp 23-26, 248-271).

    Channels are unbounded and reliable.  A device does one thing at a time
    (write a request, or handle a byte it received); who does what next is given
    from outside. *)

From Coq Require Import List ZArith Bool Arith.
From Verif Require Import Base CInt IntModel TypeLevel Serial TupleModel SpecRpc Rpc Buffered Network Pipeline.
Import ListNotations.
Open Scope nat_scope.

(** The world of the callbacks of a device: what its own callbacks act on; the
    requests it made which are not answered yet, with how their responses will be
    read; the values it got; whether something was lost; the bytes on their way to
    the other device.
    (test/buffered_dispatcher.cpp 23-29, 248-272.) *)
Record master (X : Type) : Type := mk_master {
  ms_x : X;
  ms_pending : list (bool * key);
  ms_results : list val;
  ms_lost : bool;
  ms_out : list Z
}.
Arguments mk_master {X} ms_x ms_pending ms_results ms_lost ms_out.
Arguments ms_x {X} m.
Arguments ms_pending {X} m.
Arguments ms_results {X} m.
Arguments ms_lost {X} m.
Arguments ms_out {X} m.

(** A callback of the application.
    (test/buffered_dispatcher.cpp 9-16.) *)
Definition on_user {X : Type} (f : func X) : func (master X) :=
  mk_func (f_sig f) (fun args w =>
    let (x, r) := f_call f args (ms_x w) in
    (mk_master x (ms_pending w) (ms_results w) (ms_lost w) (ms_out w), r)).

(** The content of an array of bytes.
    (The [payload] of test/buffered_dispatcher.cpp 25-26.) *)
Definition array_bytes (vs : list val) : list Z := map (fun v => match v with VInt z => z | _ => 0%Z end) vs.

(** A response could not be handled.  (The hook of
    test/buffered_dispatcher.cpp 23 is not set.) *)
Definition lose {X : Type} (w : master X) : master X :=
  mk_master (ms_x w) (ms_pending w) (ms_results w) true (ms_out w).

(** test/buffered_dispatcher.cpp 25-26: [void reply(const std::array<byte_t, 16>
    &payload) { reply_hook(payload.data()); }], or with [key.read_from]. *)
Definition on_response {X : Type} (p : platform) (s : signature) : func (master X) :=
  mk_func s (fun args w =>
    (match args, ms_pending w with
     | [VList vs], (hooked, k) :: pending =>
         match receive p hooked k (array_bytes vs) (ms_results w) with
         | Ok results => mk_master (ms_x w) pending results (ms_lost w) (ms_out w)
         | Fault _ => lose w
         end
     | _, _ => lose w
     end, VInt 0)).

(** The callbacks of a device: number [r] is the one which handles responses.
    (test/buffered_dispatcher.cpp 25-29.) *)
Fixpoint callbacks {X : Type} (p : platform) (r : nat) (fs : list (nat * func X)) {struct fs}
    : list (nat * func (master X)) :=
  match fs with
  | [] => []
  | (name, f) :: fs' =>
      match r with
      | 0 => (name, on_response p (f_sig f)) :: map (fun nf => (fst nf, on_user (snd nf))) fs'
      | S r' => (name, on_user f) :: callbacks p r' fs'
      end
  end.

(** The keyring of a device (test/buffered_dispatcher.cpp 18-21, 28-29). *)
Definition device_keyring {X : Type} (p : platform) (r : nat) (kr : keyring X) : keyring (master X) :=
  mk_keyring (kr_e kr) (kr_m kr) (callbacks p r (kr_funcs kr)).

(** The hosts, the keyrings and the keys of the callbacks which handle responses,
    for both devices.
    (test/buffered_dispatcher.cpp 252-254.) *)
Record devices (X : Type) : Type := mk_devices {
  dv_p : bool -> platform;
  dv_kr : bool -> keyring X;
  dv_k : bool -> key
}.
Arguments mk_devices {X} dv_p dv_kr dv_k.
Arguments dv_p {X} d.
Arguments dv_kr {X} d.
Arguments dv_k {X} d.

(** A request: how its response will be read, the key, the arguments.
    (test/buffered_dispatcher.cpp 257, 259.) *)
Definition demand : Type := bool * (key * list val).

(** A device: the requests it has to make, its dispatcher, its world.
    (test/buffered_dispatcher.cpp 252-254.) *)
Record station (X : Type) : Type := mk_station {
  st_todo : list demand;
  st_b : buffered (master X);
  st_w : master X
}.
Arguments mk_station {X} st_todo st_b st_w.
Arguments st_todo {X} s.
Arguments st_b {X} s.
Arguments st_w {X} s.

(** [f], except at [s].
    (No counterpart in /repo: how the two devices,
    test/buffered_dispatcher.cpp 253-254, are represented.) *)
Definition at_side {A : Type} (s : bool) (v : A) (f : bool -> A) : bool -> A :=
  fun s' => if Bool.eqb s' s then v else f s'.

(** [Listen garbage]: [garbage] is what is in the memory of the local array of
    [reply].
    (buffered_dispatcher.hpp 234-247; test/buffered_dispatcher.cpp 259-263.) *)
Inductive activity : Type :=
| Request
| Listen (garbage : list Z).

Section Multimaster.
  Context {X : Type}.
  Variable d : devices X.

  (** The byte putter given to [reply] and to the requests: it sends the byte.
      (buffered_dispatcher.hpp 234.) *)
  Definition send : destination (master X) :=
    fun byte w => Ok (mk_master (ms_x w) (ms_pending w) (ms_results w) (ms_lost w) (ms_out w ++ [byte])).

  (** [key(args...).write_to(send)] (key.hpp 108-111).  A function which returns
      nothing is not answered. *)
  Definition make_request (s : bool) (st : bool -> station X) : res (option (bool -> station X)) :=
    let me := st s in
    match st_todo me with
    | [] => Ok None
    | (hooked, (k, args)) :: todo =>
        w <- key_write (dv_p d s) k args send (st_w me);;
        let pending := match sig_ret (k_sig k) with Some _ => [(hooked, k)] | None => [] end in
        Ok (Some (at_side s
          (mk_station todo (st_b me)
             (mk_master (ms_x w) (ms_pending w ++ pending) (ms_results w) (ms_lost w) (ms_out w))) st))
    end.

  (** [dis.put(byte); if (dis.is_loaded()) dis.reply(send, key);]
      (buffered_dispatcher.hpp 97, 130-158, 219-247).  If [reply] returned [false]
      or did not compile, the response is lost. *)
  Definition listen (s : bool) (garbage : list Z) (st : bool -> station X) : res (option (bool -> station X)) :=
    let me := st s in
    let peer := st (negb s) in
    match ms_out (st_w peer) with
    | [] => Ok None
    | byte :: out =>
        let st1 := at_side (negb s)
          (mk_station (st_todo peer) (st_b peer)
             (mk_master (ms_x (st_w peer)) (ms_pending (st_w peer)) (ms_results (st_w peer))
                (ms_lost (st_w peer)) out)) st in
        '(b, w, _) <- put (dv_p d s) byte (st_b me) (st_w me);;
        if is_loaded b then
          match reply (dv_p d s) send (dv_k d (negb s)) garbage b w with
          | Some (Ok (b', w', true)) => Ok (Some (at_side s (mk_station (st_todo me) b' w') st1))
          | Some (Ok (b', w', false)) => Ok (Some (at_side s (mk_station (st_todo me) b' (lose w')) st1))
          | Some (Fault f) => Fault f
          | None => Ok (Some (at_side s (mk_station (st_todo me) b (lose w)) st1))
          end
        else Ok (Some (at_side s (mk_station (st_todo me) b w) st1))
    end.

  (** One turn (see [activity]; test/buffered_dispatcher.cpp 259-263). *)
  Definition act (turn : bool * activity) (st : bool -> station X) : res (option (bool -> station X)) :=
    match snd turn with
    | Request => make_request (fst turn) st
    | Listen garbage => listen (fst turn) garbage st
    end.

  (** How many turns were of some effect.
      (test/buffered_dispatcher.cpp 259-271.) *)
  Fixpoint acts (turns : list (bool * activity)) (st : bool -> station X) : res ((bool -> station X) * nat) :=
    match turns with
    | [] => Ok (st, 0)
    | turn :: turns' =>
        o <- act turn st;;
        match o with
        | None => acts turns' st
        | Some st1 =>
            '(st2, n) <- acts turns' st1;;
            Ok (st2, S n)
        end
    end.
End Multimaster.

(** Every request was written, every byte was handled.
    (test/buffered_dispatcher.cpp 264, 271.) *)
Definition settled {X : Type} (st : bool -> station X) : bool :=
  forallb (fun s => match st_todo (st s), ms_out (st_w (st s)) with [], [] => true | _, _ => false end) [true; false].

(** Before anything happens.
    (test/buffered_dispatcher.cpp 252-254.) *)
Definition switch_on {X : Type} (todo : bool -> list demand) (b : bool -> buffered (master X)) (x : bool -> X)
    : bool -> station X :=
  fun s => mk_station (todo s) (b s) (mk_master (x s) [] [] false []).
