(** Specification of remote calls: how bytes are taken from a byte getter and
    given to a byte putter, what requests and responses look like.

    Independent of the model. *)

From Coq Require Import List ZArith.
From Verif Require Import Base Spec.
Import ListNotations.
Open Scope nat_scope.

(** Call a byte getter [n] times. *)
Fixpoint pull {X : Type} (src : X -> res (X * Z)) (n : nat) (x : X) : res (X * list Z) :=
  match n with
  | 0 => Ok (x, [])
  | S n' =>
      '(x1, b) <- src x;;
      '(x2, bs) <- pull src n' x1;;
      Ok (x2, b :: bs)
  end.

(** Call a byte putter on every byte of a sequence. *)
Fixpoint push {X : Type} (dest : Z -> X -> res X) (bs : list Z) (x : X) : res X :=
  match bs with
  | [] => Ok x
  | b :: bs' => x' <- dest b x;; push dest bs' x'
  end.

(** The bytes of the response of a callback whose return type is [ret] ([None]:
    [void]) and which returned [v]. *)
Definition response (e : endianess) (m : signed_mode) (ret : option ty) (v : val) : list Z :=
  match ret with
  | None => []
  | Some t => enc e m t v
  end.

(** The bytes of a request: [w] bytes of index, then the arguments. *)
Definition request (e : endianess) (m : signed_mode) (w i : nat) (params : list ty) (args : list val)
    : list Z :=
  wire_bytes e w (Z.of_nat i) ++ enc_list e m params args.

(** Number of bytes of the encodings. *)
Definition wire_sizes (ts : list ty) : nat := list_sum (map wire_size ts).
Definition wire_size_ret (ret : option ty) : nat :=
  match ret with
  | None => 0
  | Some t => wire_size t
  end.

(** A world made of bytes to read, bytes written and a user state. *)
Record wires (S : Type) : Type := mk_wires { w_in : list Z; w_out : list Z; w_user : S }.
Arguments mk_wires {S} w_in w_out w_user.
Arguments w_in {S} w.
Arguments w_out {S} w.
Arguments w_user {S} w.

Definition take_wire {S : Type} (w : wires S) : res (wires S * Z) :=
  match w_in w with
  | [] => Fault NoInput
  | b :: bs => Ok (mk_wires bs (w_out w) (w_user w), b)
  end.

Definition give_wire {S : Type} (b : Z) (w : wires S) : res (wires S) :=
  Ok (mk_wires (w_in w) (w_out w ++ [b]) (w_user w)).
