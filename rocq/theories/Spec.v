(** Specification of the wire format, independent of the code model: positional
    notation, textbook signed number representations, and the encoding of a
    value as a list of bytes.  No proofs in this file. *)

From Coq Require Import List ZArith Bool.
From Verif Require Import Base.
Import ListNotations.
Open Scope Z_scope.

(** ** Positional notation *)

(** Number of code words over [w] bytes, and half of it. *)
Definition space (w : nat) : Z := 256 ^ Z.of_nat w.
Definition half (w : nat) : Z := space w / 2.

(** [i]-th base 256 digit of [u]. *)
Definition digit (u : Z) (i : nat) : Z := (u / 256 ^ Z.of_nat i) mod 256.

(** The [w] bytes of [u]: least significant first (LITTLE) or most significant
    first (BIG). *)
Definition wire_bytes (e : endianess) (w : nat) (u : Z) : list Z :=
  match e with
  | LITTLE => map (digit u) (seq 0 w)
  | BIG => map (digit u) (rev (seq 0 w))
  end.

(** The number denoted by a sequence of bytes. *)
Definition wire_value (e : endianess) (bs : list Z) : Z :=
  match e with
  | LITTLE => fold_right (fun b acc => b + 256 * acc) 0 bs
  | BIG => fold_left (fun acc b => 256 * acc + b) bs 0
  end.

(** ** Signed number representations: code word of [z] over [w] bytes *)

Definition repr (m : signed_mode) (w : nat) (z : Z) : Z :=
  match m with
  | SIGNED_MAGNITUDE => if z <? 0 then half w + - z else z
  | ONES_COMPLEMENT => if z <? 0 then space w - 1 + z else z
  | TWOS_COMPLEMENT => if z <? 0 then space w + z else z
  | OFFSET_BINARY => half w + z
  end.

(** Number denoted by the code word [u]. *)
Definition unrepr (m : signed_mode) (w : nat) (u : Z) : Z :=
  match m with
  | SIGNED_MAGNITUDE => if u <? half w then u else - (u - half w)
  | ONES_COMPLEMENT => if u <? half w then u else - (space w - 1 - u)
  | TWOS_COMPLEMENT => if u <? half w then u else u - space w
  | OFFSET_BINARY => u - half w
  end.

(** The numbers a representation can express. *)
Definition representable (m : signed_mode) (w : nat) (z : Z) : Prop :=
  match m with
  | SIGNED_MAGNITUDE | ONES_COMPLEMENT => - half w < z < half w
  | TWOS_COMPLEMENT | OFFSET_BINARY => - half w <= z < half w
  end.

(** ** Types *)

(** Integer types have between 1 and 8 bytes.  Arrays are not empty; every type
    takes some bytes in memory. *)
Fixpoint wf_ty (t : ty) : Prop :=
  match t with
  | TBool => True
  | TUns w | TSig w => (1 <= w <= 8)%nat
  | TArr t n => (1 <= n)%nat /\ (1 <= sizeof t)%nat /\ wf_ty t
  | TUser _ fs => fold_right (fun f acc => wf_ty f /\ acc) True fs
  end.

(** Number of bytes of an encoded value: no padding. *)
Fixpoint wire_size (t : ty) : nat :=
  match t with
  | TBool => 1
  | TUns w | TSig w => w
  | TArr t n => n * wire_size t
  | TUser _ fs => list_sum (map wire_size fs)
  end.

(** Values of a type. *)
Fixpoint has_type (t : ty) (v : val) : Prop :=
  match t, v with
  | TBool, VInt z => z = 0 \/ z = 1
  | TUns w, VInt z => 0 <= z < space w
  | TSig w, VInt z => - half w <= z < half w
  | TArr t n, VList vs => length vs = n /\ Forall (has_type t) vs
  | TUser _ fs, VList vs =>
      (fix go (fs : list ty) (vs : list val) : Prop :=
         match fs, vs with
         | [], [] => True
         | f :: fs', v :: vs' => has_type f v /\ go fs' vs'
         | _, _ => False
         end) fs vs
  | _, _ => False
  end.

(** [P] holds of every signed integer [z] of [w] bytes inside of a value. *)
Fixpoint all_signed (P : nat -> Z -> Prop) (t : ty) (v : val) : Prop :=
  match t, v with
  | TSig w, VInt z => P w z
  | TArr t n, VList vs => Forall (all_signed P t) vs
  | TUser _ fs, VList vs =>
      (fix go (fs : list ty) (vs : list val) : Prop :=
         match fs, vs with
         | f :: fs', v :: vs' => all_signed P f v /\ go fs' vs'
         | _, _ => True
         end) fs vs
  | _, _ => True
  end.

(** ** Encoding and decoding *)

Fixpoint enc (e : endianess) (m : signed_mode) (t : ty) (v : val) : list Z :=
  match t, v with
  | TBool, VInt z => wire_bytes e 1 z
  | TUns w, VInt z => wire_bytes e w z
  | TSig w, VInt z => wire_bytes e w (repr m w z)
  | TArr t _, VList vs => flat_map (enc e m t) vs
  | TUser _ fs, VList vs =>
      (fix go (fs : list ty) (vs : list val) : list Z :=
         match fs, vs with
         | f :: fs', v :: vs' => enc e m f v ++ go fs' vs'
         | _, _ => []
         end) fs vs
  | _, _ => []
  end.

(** Encoding of a sequence of values. *)
Fixpoint enc_list (e : endianess) (m : signed_mode) (ts : list ty) (vs : list val)
    : list Z :=
  match ts, vs with
  | t :: ts', v :: vs' => enc e m t v ++ enc_list e m ts' vs'
  | _, _ => []
  end.

(** Cut a sequence of bytes into [n] chunks of [k] bytes. *)
Fixpoint chunks (k n : nat) (bs : list Z) : list (list Z) :=
  match n with
  | O => []
  | S n' => firstn k bs :: chunks k n' (skipn k bs)
  end.

(** Value denoted by a sequence of [wire_size t] bytes.  Any non-zero byte
    denotes [true]. *)
Fixpoint dec (e : endianess) (m : signed_mode) (t : ty) (bs : list Z) : val :=
  match t with
  | TBool => VInt (if wire_value e bs =? 0 then 0 else 1)
  | TUns w => VInt (wire_value e bs)
  | TSig w => VInt (unrepr m w (wire_value e bs))
  | TArr t n => VList (map (dec e m t) (chunks (wire_size t) n bs))
  | TUser _ fs =>
      VList ((fix go (fs : list ty) (bs : list Z) : list val :=
                match fs with
                | [] => []
                | f :: fs' =>
                    dec e m f (firstn (wire_size f) bs) :: go fs' (skipn (wire_size f) bs)
                end) fs bs)
  end.

(** Values denoted by the concatenation of their encodings. *)
Fixpoint dec_list (e : endianess) (m : signed_mode) (ts : list ty) (bs : list Z)
    : list val :=
  match ts with
  | [] => []
  | t :: ts' =>
      dec e m t (firstn (wire_size t) bs) :: dec_list e m ts' (skipn (wire_size t) bs)
  end.

(** Sequences of bytes which are the encoding of some value: a [bool] is 0 or
    1, and there is no negative zero. *)
Definition negative_zero (m : signed_mode) (w : nat) (u : Z) : Prop :=
  match m with
  | SIGNED_MAGNITUDE => u = half w
  | ONES_COMPLEMENT => u = space w - 1
  | TWOS_COMPLEMENT | OFFSET_BINARY => False
  end.

Fixpoint canonical (e : endianess) (m : signed_mode) (t : ty) (bs : list Z) : Prop :=
  match t with
  | TBool => wire_value e bs = 0 \/ wire_value e bs = 1
  | TUns w => True
  | TSig w => ~ negative_zero m w (wire_value e bs)
  | TArr t n => Forall (canonical e m t) (chunks (wire_size t) n bs)
  | TUser _ fs =>
      (fix go (fs : list ty) (bs : list Z) : Prop :=
         match fs with
         | [] => True
         | f :: fs' =>
             canonical e m f (firstn (wire_size f) bs) /\ go fs' (skipn (wire_size f) bs)
         end) fs bs
  end.

(** ** Regions of memory *)

(** The [n] bytes at [off]. *)
Definition slice (mem : list Z) (off n : nat) : list Z := firstn n (skipn off mem).

(** [mem] with the bytes at [off] replaced by [bs]. *)
Definition splice (mem : list Z) (off : nat) (bs : list Z) : list Z :=
  firstn off mem ++ bs ++ skipn (off + length bs) mem.
