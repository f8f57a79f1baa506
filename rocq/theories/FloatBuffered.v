(** Buffered dispatchers (buffered_dispatcher.hpp) of callbacks some of whose
    types are floating point types, or arrays or user types made of them.  The
    code is the one modelled by Buffered.v; the bodies of [get_index], of the
    actions and of the keys are those of FloatCalls.v.

    Simplifications: [operator[]] and [reply] are not modelled here; a
    dispatcher is not moved.  No proofs in this file. *)

From Coq Require Import List ZArith Bool Arith.
From Verif Require Import Base CInt IntModel TypeLevel Serial TupleModel SpecRpc Rpc FloatModel FloatCalls Buffered.
Import ListNotations.
Open Scope nat_scope.

(** [std::is_same] on types (dispatcher.hpp 157, 170, 183). *)
Fixpoint ety_eqb (a b : ety) {struct a} : bool :=
  match a, b with
  | EInt t, EInt u => ty_eqb t u
  | EFloat T, EFloat U => (fl_size T =? fl_size U) && (fl_prec T =? fl_prec U)%Z && (fl_emax T =? fl_emax U)%Z
  | EArr t n, EArr u k => ety_eqb t u && (n =? k)
  | EUser s fs, EUser s' fs' =>
      (s =? s')
      && (fix go (l l' : list ety) {struct l} : bool :=
            match l, l' with
            | [], [] => true
            | x :: l1, y :: l1' => ety_eqb x y && go l1 l1'
            | _, _ => false
            end) fs fs'
  | _, _ => false
  end.

(** [std::is_same] on lists of parameters (dispatcher.hpp 157, 170, 183). *)
Fixpoint etys_eqb (l l' : list ety) : bool :=
  match l, l' with
  | [], [] => true
  | x :: l1, y :: l1' => ety_eqb x y && etys_eqb l1 l1'
  | _, _ => false
  end.

(** [std::is_same] on signatures (dispatcher.hpp 157, 170, 183). *)
Definition esig_eqb (a b : esignature) : bool :=
  etys_eqb (es_params a) (es_params b)
  && match es_ret a, es_ret b with
     | None, None => true
     | Some t, Some u => ety_eqb t u
     | _, _ => false
     end.

(** signature.hpp 104-107. *)
Definition eparameters_size (s : esignature) : nat := sum17 (map esizeof (es_params s)).

(** The members of the dispatcher (buffered_dispatcher.hpp 280-282, 320, 380):
    see [buffered] of Buffered.v.  The actions hold one callback each. *)
Record ebuffered (X : Type) : Type := mk_ebuffered {
  eb_keyring : ekeyring X;
  eb_features : action_features;
  eb_actions : list (efunc X);
  eb_is_index_loaded : bool;
  eb_load_count : nat;
  eb_ibuf_next : nat;
  eb_obuf_next : nat;
  eb_obuf_bottom : nat;
  eb_bufs : buffers
}.
Arguments mk_ebuffered {X} eb_keyring eb_features eb_actions eb_is_index_loaded eb_load_count eb_ibuf_next eb_obuf_next
  eb_obuf_bottom eb_bufs.
Arguments eb_keyring {X} e.
Arguments eb_features {X} e.
Arguments eb_actions {X} e.
Arguments eb_is_index_loaded {X} e.
Arguments eb_load_count {X} e.
Arguments eb_ibuf_next {X} e.
Arguments eb_obuf_next {X} e.
Arguments eb_obuf_bottom {X} e.
Arguments eb_bufs {X} e.

(** buffered_dispatcher.hpp 28-36: [max] of the sizes of the parameters. *)
Definition emax_parameters {X : Type} (kr : ekeyring X) : option nat :=
  max17 (map (fun nf => eparameters_size (ef_sig (snd nf))) (ekr_funcs kr)).

(** buffered_dispatcher.hpp 92-93, 306-307, 313-317, 320, 335-340 ([dbl] is
    [false]) and 364-377, 380, 395-400 ([dbl] is [true]). *)
Definition emake_buffered {X : Type} (dbl : bool) (kr : ekeyring X) (ft : action_features) (garbage garbage' : list Z)
    : option (ebuffered X) :=
  match emax_parameters kr with
  | None => None
  | Some n =>
      let i := n + ekr_index_size kr in
      let make := mk_ebuffered kr ft (map snd (ekr_funcs kr)) false (ekr_index_size kr) 0 0 0 in
      if dbl then
        Some (make (Double (firstn i (garbage ++ repeat 0%Z i)) (firstn n (garbage' ++ repeat 0%Z n))))
      else
        match max17 [i; n] with
        | None => None
        | Some k => Some (make (Single (firstn k (garbage ++ repeat 0%Z k))))
        end
  end.

(** A callback seen from a frame: it acts on the world only.
    The call is that of tuple.hpp 184 through buffered_dispatcher.hpp 266. *)
Definition eframed {X : Type} (f : efunc X) : efunc (frame X) :=
  mk_efunc (ef_sig f) (fun args w =>
    let (x, r) := ef_call f args (fr_world w) in
    (mk_frame (fr_bufs w) (fr_iptr w) (fr_bottom w) x, r)).

Section FloatBuffered.
  Variable p : platform.

  (** dispatcher.hpp 141-149. *)
  Definition eget_index {Y : Type} (e : endianess) (m : signed_mode) (w : nat) (src : source Y) (y : Y) : res (Y * nat) :=
    '(y1, st) <- eread_tuple p e m [EInt (TUns w)] src y;;
    v <- eget p e m [EInt (TUns w)] 0 st;;
    match v with
    | EVal (VInt z) => Ok (y1, Z.to_nat z)
    | _ => Fault TypeMismatch
    end.

  Context {X : Type}.

  (** [get_index([&]() { return *ibuf_ptr++; })] (buffered_dispatcher.hpp 141,
      265). *)
  Definition eindex (b : ebuffered X) (bufs : buffers) (x : X) : res (frame X * nat) :=
    let kr := eb_keyring b in
    eget_index (ekr_e kr) (ekr_m kr) (ekr_index_size kr) ibuf_source (mk_frame bufs 0 0 x).

  (** dispatcher.hpp 193-196. *)
  Definition eaction_at (b : ebuffered X) (i : nat) : res (efunc X) :=
    match nth_error (eb_actions b) i with
    | Some f => Ok f
    | None => Fault OutOfBounds
    end.

  (** action.hpp 109 ([action]) and 216 ([no_storage_action]). *)
  Definition einput_size (ft : action_features) (f : efunc X) : nat :=
    match ft with
    | ANY => etuple_size (es_params (ef_sig f))
    | WEAK_REFERENCE => eparameters_size (ef_sig f)
    end.

  (** buffered_dispatcher.hpp 260-272. *)
  Definition ecall_loaded (b : ebuffered X) (x : X) : res (ebuffered X * X) :=
    let kr := eb_keyring b in
    '(w1, index) <- eindex b (eb_bufs b) x;;
    f <- eaction_at b index;;
    w2 <- ecall p (ekr_e kr) (ekr_m kr) (eframed f) ibuf_source obuf_destination w1;;
    Ok (mk_ebuffered kr (eb_features b) (eb_actions b) false (ekr_index_size kr) 0 0 (fr_bottom w2) (fr_bufs w2),
        fr_world w2).

  (** buffered_dispatcher.hpp 130-158. *)
  Definition eput (byte : Z) (b : ebuffered X) (x : X) : res (ebuffered X * X * packet_status) :=
    let kr := eb_keyring b in
    let make := mk_ebuffered kr (eb_features b) (eb_actions b) in
    m <- store (ibuf (eb_bufs b)) (eb_ibuf_next b) byte;;
    let bufs := set_ibuf m (eb_bufs b) in
    let next := S (eb_ibuf_next b) in
    match eb_load_count b with
    | 0 => Fault CounterUnderflow
    | S count =>
        let b1 := make (eb_is_index_loaded b) count next (eb_obuf_next b) (eb_obuf_bottom b) bufs in
        if 0 <? count then Ok (b1, x, LOADING_PACKET)
        else if eb_is_index_loaded b then
          '(b2, x') <- ecall_loaded b1 x;;
          Ok (b2, x', RESOLVED_PACKET)
        else
          '(w, index) <- eindex b bufs x;;
          if index <? ekr_size kr then
            f <- eaction_at b index;;
            let n := einput_size (eb_features b) f in
            let b2 := make true n next (eb_obuf_next b) (eb_obuf_bottom b) bufs in
            if n =? 0 then
              '(b3, x') <- ecall_loaded b2 x;;
              Ok (b3, x', RESOLVED_PACKET)
            else Ok (b2, x, LOADING_PACKET)
          else
            Ok (make false (ekr_index_size kr) 0 (eb_obuf_next b) (eb_obuf_bottom b) bufs, x, DROPPED_PACKET)
    end.

  (** The loop of buffered_dispatcher.hpp 112-113. *)
  Fixpoint eread_index (fuel : nat) (src : source X) (b : ebuffered X) (x : X) (s : packet_status)
      : res (ebuffered X * X * packet_status) :=
    if negb (eb_is_index_loaded b) && is_loading s then
      match fuel with
      | 0 => Fault OutOfFuel
      | S fuel' =>
          '(x1, byte) <- src x;;
          '(b', x2, s') <- eput byte b x1;;
          eread_index fuel' src b' x2 s'
      end
    else Ok (b, x, s).

  (** The loop of buffered_dispatcher.hpp 114-115. *)
  Fixpoint eread_payload (fuel : nat) (src : source X) (b : ebuffered X) (x : X) (s : packet_status)
      : res (ebuffered X * X * packet_status) :=
    if eb_is_index_loaded b then
      match fuel with
      | 0 => Fault OutOfFuel
      | S fuel' =>
          '(x1, byte) <- src x;;
          '(b', x2, s') <- eput byte b x1;;
          eread_payload fuel' src b' x2 s'
      end
    else Ok (b, x, s).

  (** buffered_dispatcher.hpp 109-117. *)
  Definition eread_from (src : source X) (b : ebuffered X) (x : X) : res (ebuffered X * X * packet_status) :=
    '(b1, x1, s1) <- eread_index (S (eb_load_count b)) src b x LOADING_PACKET;;
    eread_payload (S (eb_load_count b1)) src b1 x1 s1.

  (** buffered_dispatcher.hpp 97. *)
  Definition eis_loaded (b : ebuffered X) : bool := negb (eb_obuf_next b =? eb_obuf_bottom b).

  (** buffered_dispatcher.hpp 179. *)
  Definition eget_byte (b : ebuffered X) : res (ebuffered X * Z) :=
    if eis_loaded b then
      byte <- load (obuf (eb_bufs b)) (eb_obuf_next b);;
      Ok (mk_ebuffered (eb_keyring b) (eb_features b) (eb_actions b) (eb_is_index_loaded b) (eb_load_count b) (eb_ibuf_next b)
            (S (eb_obuf_next b)) (eb_obuf_bottom b) (eb_bufs b), byte)
    else Ok (b, 0%Z).

  (** The loop of buffered_dispatcher.hpp 167-168. *)
  Fixpoint ewrite_loop {Y : Type} (fuel : nat) (dest : destination Y) (b : ebuffered X) (y : Y)
      : res (ebuffered X * Y) :=
    if eis_loaded b then
      match fuel with
      | 0 => Fault OutOfFuel
      | S fuel' =>
          '(b', byte) <- eget_byte b;;
          y' <- dest byte y;;
          ewrite_loop fuel' dest b' y'
      end
    else Ok (b, y).

  (** buffered_dispatcher.hpp 165-169. *)
  Definition ewrite_to {Y : Type} (dest : destination Y) (b : ebuffered X) (y : Y) : res (ebuffered X * Y) :=
    ewrite_loop (S (length (obuf (eb_bufs b)))) dest b y.

  (** buffered_dispatcher.hpp 197-203. *)
  Definition eprocess (src : source X) (dest : destination X) (b : ebuffered X) (x : X)
      : res (ebuffered X * X * packet_status) :=
    '(b1, x1, s) <- eread_from src b x;;
    match s with
    | RESOLVED_PACKET =>
        '(b2, x2) <- ewrite_to dest b1 x1;;
        Ok (b2, x2, s)
    | _ => Ok (b1, x1, s)
    end.

  (** dispatcher.hpp 154-187 through buffered_dispatcher.hpp 182-185, 208-210,
      215-217.  [functor]: the last overload, which exists only for [ANY].
      [None]: does not compile. *)
  Definition ereplace (b : ebuffered X) (i : nat) (functor : bool) (f : efunc X) : option (res (ebuffered X)) :=
    match at17 (map (fun nf => ef_sig (snd nf)) (ekr_funcs (eb_keyring b))) i with
    | None => None
    | Some s =>
        if (i <? ekr_size (eb_keyring b)) && esig_eqb s (ef_sig f)
           && match eb_features b with ANY => true | WEAK_REFERENCE => negb functor end
        then
          Some (if i <? length (eb_actions b) then
                  Ok (mk_ebuffered (eb_keyring b) (eb_features b) (set_nth (eb_actions b) i f) (eb_is_index_loaded b)
                        (eb_load_count b) (eb_ibuf_next b) (eb_obuf_next b) (eb_obuf_bottom b) (eb_bufs b))
                else Fault OutOfBounds)
        else None
    end.

  (** What a program does with a dispatcher (buffered_dispatcher.hpp 97-255). *)
  Inductive eop : Type :=
  | EPut (byte : Z)
  | EGet
  | EIsLoaded
  | EReadFrom (src : source X)
  | EWriteTo (dest : destination X)
  | EProcess (src : source X) (dest : destination X)
  | EReplace (i : nat) (functor : bool) (f : efunc X)
  | EOutside (g : X -> X).

  (** What it sees (buffered_dispatcher.hpp 97-203). *)
  Inductive eobs : Type :=
  | SawStatus (s : packet_status)
  | SawByte (b : Z)
  | SawBool (b : bool)
  | SawNothing.

  (** One of them (buffered_dispatcher.hpp 97-255). *)
  Definition estep (o : eop) (b : ebuffered X) (x : X) : res (ebuffered X * X * eobs) :=
    match o with
    | EPut byte => '(b', x', s) <- eput byte b x;; Ok (b', x', SawStatus s)
    | EGet => '(b', byte) <- eget_byte b;; Ok (b', x, SawByte byte)
    | EIsLoaded => Ok (b, x, SawBool (eis_loaded b))
    | EReadFrom src => '(b', x', s) <- eread_from src b x;; Ok (b', x', SawStatus s)
    | EWriteTo dest => '(b', x') <- ewrite_to dest b x;; Ok (b', x', SawNothing)
    | EProcess src dest => '(b', x', s) <- eprocess src dest b x;; Ok (b', x', SawStatus s)
    | EReplace i functor f =>
        match ereplace b i functor f with
        | Some r => b' <- r;; Ok (b', x, SawNothing)
        | None => Fault TypeMismatch
        end
    | EOutside g => Ok (b, g x, SawNothing)
    end.

  (** A whole history (buffered_dispatcher.hpp 97-255). *)
  Fixpoint erun (ops : list eop) (b : ebuffered X) (x : X) : res (ebuffered X * X * list eobs) :=
    match ops with
    | [] => Ok (b, x, [])
    | o :: ops' =>
        '(b1, x1, v) <- estep o b x;;
        '(b2, x2, vs) <- erun ops' b1 x1;;
        Ok (b2, x2, v :: vs)
    end.
End FloatBuffered.
Arguments eop : clear implicits.
Arguments EPut {X} byte.
Arguments EGet {X}.
Arguments EIsLoaded {X}.
Arguments EReadFrom {X} src.
Arguments EWriteTo {X} dest.
Arguments EProcess {X} src dest.
Arguments EReplace {X} i functor f.
Arguments EOutside {X} g.

(** A caller on the host [p] and a buffered dispatcher on the host [q]: for each
    call, the request is written (key.hpp 108-111), its bytes are put one by one
    (buffered_dispatcher.hpp 130-158), the response is written (165-169) and
    read (key.hpp 121-131).  Gives the statuses and the value of each call. *)
Fixpoint esession {S : Type} (p q : platform) (calls : list (ekey * list evalue)) (b : ebuffered S) (s : S)
    : res (ebuffered S * S * list (list eobs * option evalue)) :=
  match calls with
  | [] => Ok (b, s, [])
  | (k, args) :: calls' =>
      w <- ekey_write p k args give_wire (mk_wires [] [] tt);;
      '(b1, s1, seen) <- erun q (map EPut (w_out w)) b s;;
      '(b2, w2) <- ewrite_to give_wire b1 (mk_wires [] [] tt);;
      '(_, v) <- ekey_read p k take_wire (mk_wires (w_out w2) [] tt);;
      '(b3, s3, rest) <- esession p q calls' b2 s1;;
      Ok (b3, s3, (seen, v) :: rest)
  end.
