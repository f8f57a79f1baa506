(** Side conditions appearing in the theorems: which hosts, values, bytes and
    types the code handles.  Each of them is shown to be necessary by a theorem
    of the Properties files.  No proofs in this file. *)

From Coq Require Import List ZArith Bool.
From Verif Require Import Base Spec.
Import ListNotations.
Open Scope Z_scope.

(** Hosts on which signed integers of [w] bytes are handled: on a big endian
    host, and for types narrower than [unsigned long long], either both native
    shortcuts are taken or none is. *)
Definition sig_host_ok (p : platform) (e : endianess) (m : signed_mode) (w : nat) : Prop :=
  w = 8%nat \/ p_endianess p = LITTLE \/ native_endianess p e = native_signed_mode p m.

(** [T(-x)] does not overflow when [x] is the minimum of a type of [w] bytes,
    or is not evaluated. *)
Definition twos_min_ok (p : platform) (w : nat) : Prop :=
  (w < p_int_size p)%nat \/ native_signed_mode p TWOS_COMPLEMENT = true.

(** The minimum of a signed type of [w] bytes is written correctly. *)
Definition min_ok (p : platform) (m : signed_mode) (w : nat) : Prop :=
  match m with
  | OFFSET_BINARY => True
  | TWOS_COMPLEMENT => twos_min_ok p w
  | SIGNED_MAGNITUDE | ONES_COMPLEMENT => False
  end.

(** Signed values which are written correctly. *)
Definition sig_encodable (p : platform) (m : signed_mode) (w : nat) (z : Z) : Prop :=
  - half w < z \/ min_ok p m w.

(** Code words which are read without undefined behaviour. *)
Definition sig_decodable (p : platform) (m : signed_mode) (w : nat) (u : Z) : Prop :=
  m = TWOS_COMPLEMENT -> u = half w -> twos_min_ok p w.

(** Bytes which are read as [bool] without undefined behaviour. *)
Definition bool_decodable (p : platform) (e : endianess) (u : Z) : Prop :=
  native_endianess p e = true -> u = 0 \/ u = 1.

(** ** Lifted to types and values *)

(** The host handles every signed integer type inside of [t]. *)
Fixpoint host_ok (p : platform) (e : endianess) (m : signed_mode) (t : ty) : Prop :=
  match t with
  | TBool | TUns _ => True
  | TSig w => sig_host_ok p e m w
  | TArr t _ => host_ok p e m t
  | TUser _ fs => fold_right (fun f acc => host_ok p e m f /\ acc) True fs
  end.

(** Elements of arrays have no gap between them: [sizeof] is the number of
    bytes of their encoding.  Always true of arrays of integers.  Arrays are not
    empty. *)
Fixpoint layout_ok (t : ty) : Prop :=
  match t with
  | TBool | TUns _ | TSig _ => True
  | TArr t n => layout_ok t /\ sizeof t = wire_size t /\ (1 <= n)%nat
  | TUser _ fs => fold_right (fun f acc => layout_ok f /\ acc) True fs
  end.

(** A type usable with the format on the host. *)
Definition ty_ok (p : platform) (e : endianess) (m : signed_mode) (t : ty) : Prop :=
  wf_ty t /\ host_ok p e m t /\ layout_ok t.

(** A value of type [t] which is written correctly. *)
Definition encodable (p : platform) (m : signed_mode) (t : ty) (v : val) : Prop :=
  has_type t v /\ all_signed (sig_encodable p m) t v.

(** A sequence of [wire_size t] bytes which is read without undefined
    behaviour as a value of type [t]. *)
Fixpoint decodable (p : platform) (e : endianess) (m : signed_mode) (t : ty) (bs : list Z)
    : Prop :=
  match t with
  | TBool => bool_decodable p e (wire_value e bs)
  | TUns _ => True
  | TSig w => sig_decodable p m w (wire_value e bs)
  | TArr t n => Forall (decodable p e m t) (chunks (wire_size t) n bs)
  | TUser _ fs =>
      (fix go (fs : list ty) (bs : list Z) : Prop :=
         match fs with
         | [] => True
         | f :: fs' =>
             decodable p e m f (firstn (wire_size f) bs) /\ go fs' (skipn (wire_size f) bs)
         end) fs bs
  end.

(** The same, for the concatenation of the encodings of several values. *)
Fixpoint decodable_list (p : platform) (e : endianess) (m : signed_mode)
    (ts : list ty) (bs : list Z) : Prop :=
  match ts with
  | [] => True
  | t :: ts' =>
      decodable p e m t (firstn (wire_size t) bs)
      /\ decodable_list p e m ts' (skipn (wire_size t) bs)
  end.
