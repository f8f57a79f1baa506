(** Tuples, callbacks, keys, keyrings and dispatchers some of whose types are
    floating point types, or arrays or user types made of them.  The code is the
    same as the one modelled by Serial.v, TupleModel.v and Rpc.v: here the
    overloads of [read_as] and [write_as] taken for floating point types are
    those of FloatModel.v.

    Simplification: plain pointers and owning tuples only (no [tuple_view]).
    No proofs in this file. *)

From Coq Require Import List ZArith Bool Arith SpecFloat.
From Verif Require Import Base CInt IntModel TypeLevel Serial TupleModel Rpc FloatModel.
Import ListNotations.
Open Scope nat_scope.

(** Serializable types (require.hpp 97-111, serialization.hpp 59-86): a type
    without floating point types inside, a floating point type, an array or a
    user type. *)
Inductive ety : Type :=
| EInt (t : ty)
| EFloat (T : float_type)
| EArr (t : ety) (n : nat)
| EUser (szof : nat) (fs : list ety).

(** Their values (serialization.hpp 59-86). *)
Inductive evalue : Type :=
| EVal (v : val)
| EFlt (f : spec_float)
| EList (vs : list evalue).

(** [sizeof(T)] (tuple.hpp 53-61); see [sizeof] of Base.v for arrays. *)
Fixpoint esizeof (t : ety) : nat :=
  match t with
  | EInt t => sizeof t
  | EFloat T => fl_size T
  | EArr t n => match n with 0 => 1 | S _ => n * esizeof t end
  | EUser s _ => s
  end.

(** tuple.hpp 53-61. *)
Fixpoint eserialization_size (t : ety) : nat :=
  match t with
  | EInt t => serialization_size t
  | EUser _ fs => sum17 (map eserialization_size fs)
  | _ => esizeof t
  end.

(** tuple.hpp 136, 149. *)
Definition eelement_offset (ts : list ety) (i : nat) : res nat :=
  match clip17 (map eserialization_size ts) 0 i with
  | Some l => Ok (sum17 l)
  | None => Fault TypeMismatch
  end.

(** tuple.hpp 108. *)
Definition etuple_size (ts : list ety) : nat := sum17 (map eserialization_size ts).

(** signed_representation.hpp 12-78: whether the bodies taken for the types
    inside of [t] can be instantiated. *)
Fixpoint ecompiles (p : platform) (m : signed_mode) (t : ety) : bool :=
  match t with
  | EInt _ => true
  | EFloat T =>
      match float_to_signed_mode p T m (S754_zero false), float_from_signed_mode p T m 0 with
      | Some _, Some _ => true
      | _, _ => false
      end
  | EArr t _ => ecompiles p m t
  | EUser _ fs => forallb (ecompiles p m) fs
  end.

(** A program which does not compile, written as a fault
    (signed_representation.hpp 12-78). *)
Definition compiled {A : Type} (o : option (res A)) : res A :=
  match o with
  | Some r => r
  | None => Fault TypeMismatch
  end.

Section FloatElements.
  Variable p : platform.
  Variable e : endianess.
  Variable m : signed_mode.

  (** serialization.hpp 59-86: see [read_as] of Serial.v; floating point types
      take 63-68. *)
  Fixpoint eread_as (t : ety) (mem : list Z) (off : nat) {struct t} : res evalue :=
    match t with
    | EInt t => v <- read_as p e m t mem off;; Ok (EVal v)
    | EFloat T => f <- compiled (read_float p T e m mem off);; Ok (EFlt f)
    | EArr t' n =>
        vs <- (fix loop (k i : nat) {struct k} : res (list evalue) :=
                 match k with
                 | 0 => Ok []
                 | S k' =>
                     v <- eread_as t' mem (off + i * esizeof t');;
                     vs <- loop k' (S i);;
                     Ok (v :: vs)
                 end) n 0;;
        Ok (EList vs)
    | EUser _ fs =>
        vs <- (fix go (l : list ety) (i : nat) {struct l} : res (list evalue) :=
                 match l with
                 | [] => Ok []
                 | f :: l' =>
                     o <- eelement_offset fs i;;
                     v <- eread_as f mem (off + o);;
                     vs <- go l' (S i);;
                     Ok (v :: vs)
                 end) fs 0;;
        Ok (EList vs)
    end.

  (** serialization.hpp 127-149: see [write_as] of Serial.v; floating point
      types take 131-136. *)
  Fixpoint ewrite_as (t : ety) (v : evalue) (mem : list Z) (off : nat) {struct t} : res (list Z) :=
    match t, v with
    | EInt t, EVal v => write_as p e m t v mem off
    | EFloat T, EFlt f => compiled (write_float p T e m f mem off)
    | EArr t' n, EList vs =>
        (fix loop (k i : nat) (mem : list Z) {struct k} : res (list Z) :=
           match k with
           | 0 => Ok mem
           | S k' =>
               if n <=? i then Fault OutOfBounds
               else
                 match nth_error vs i with
                 | None => Fault TypeMismatch
                 | Some v =>
                     mem' <- ewrite_as t' v mem (off + i * esizeof t');;
                     loop k' (S i) mem'
                 end
           end) (esizeof (EArr t' n) / esizeof t') 0 mem
    | EUser _ fs, EList vs =>
        (fix go (l : list ety) (i : nat) (mem : list Z) {struct l} : res (list Z) :=
           match l with
           | [] => Ok mem
           | f :: l' =>
               match nth_error vs i with
               | None => Fault TypeMismatch
               | Some v =>
                   o <- eelement_offset fs i;;
                   mem' <- ewrite_as f v mem (off + o);;
                   go l' (S i) mem'
               end
           end) fs 0 mem
    | _, _ => Fault TypeMismatch
    end.

  (** tuple.hpp 131-138, the storage of the tuple being [mem]. *)
  Definition eget (ts : list ety) (i : nat) (mem : list Z) : res evalue :=
    match at17 ts i with
    | None => Fault TypeMismatch
    | Some t => o <- eelement_offset ts i;; eread_as t mem o
    end.

  (** tuple.hpp 144-151. *)
  Definition eset (ts : list ety) (i : nat) (x : evalue) (mem : list Z) : res (list Z) :=
    match at17 ts i with
    | None => Fault TypeMismatch
    | Some t => o <- eelement_offset ts i;; ewrite_as t x mem o
    end.

  (** tuple.hpp 168-172. *)
  Fixpoint elay (ts : list ety) (is : list nat) (args : list evalue) (mem : list Z) : res (list Z) :=
    match is, args with
    | [], [] => Ok mem
    | i :: is', a :: args' => mem' <- eset ts i a mem;; elay ts is' args' mem'
    | _, _ => Fault TypeMismatch
    end.

  (** tuple.hpp 184. *)
  Fixpoint eget_each (ts : list ety) (is : list nat) (mem : list Z) : res (list evalue) :=
    match is with
    | [] => Ok []
    | i :: is' => x <- eget ts i mem;; xs <- eget_each ts is' mem;; Ok (x :: xs)
    end.

  (** tuple.hpp 160-163, 182-185. *)
  Definition einvoke {X A : Type} (ts : list ety) (ftor : list evalue -> X -> X * A) (mem : list Z) (x : X)
      : res (X * A) :=
    args <- eget_each ts (make_index_sequence14 (length ts)) mem;;
    Ok (ftor args x).

  (** tuple.hpp 317, 324, 416-418. *)
  Definition econstruct (ts : list ety) (args : list evalue) (storage : list Z) : res (list Z) :=
    elay ts (make_index_sequence14 (length ts)) args storage.

  (** [T{}] (tuple.hpp 313): positive zero for floating point types. *)
  Fixpoint edefault (t : ety) : evalue :=
    match t with
    | EInt t => EVal (default_val t)
    | EFloat _ => EFlt (S754_zero false)
    | EArr t' n => EList (repeat (edefault t') n)
    | EUser _ fs => EList (map edefault fs)
    end.

  (** tuple.hpp 313 then [for (auto &byte : t) byte = src();] (action.hpp 54-56,
      key.hpp 122-124). *)
  Definition eread_tuple {X : Type} (ts : list ety) (src : source X) (x : X) : res (X * list Z) :=
    st <- econstruct ts (map edefault ts) (indet_bytes p (etuple_size ts));;
    fill src (etuple_size ts) 0 x st.

  (** [make_tuple] then [for (auto byte : t) dest(byte);] (action.hpp 38-40,
      138-140; key.hpp 110 with serialized_message.hpp 31-36). *)
  Definition ewrite_tuple {X : Type} (ts : list ety) (args : list evalue) (dest : destination X) (x : X) : res X :=
    st <- econstruct ts args (indet_bytes p (etuple_size ts));;
    bs <- load_range st 0 (etuple_size ts);;
    put_each dest bs x.
End FloatElements.

(** signature.hpp 100-128. *)
Record esignature : Type := mk_esig { es_params : list ety; es_ret : option ety }.

(** A callback and its signature (signature.hpp 100-128, tuple.hpp 184). *)
Record efunc (X : Type) : Type := mk_efunc {
  ef_sig : esignature;
  ef_call : list evalue -> X -> X * evalue
}.
Arguments mk_efunc {X} ef_sig ef_call.
Arguments ef_sig {X} e.
Arguments ef_call {X} e.

(** keyring.hpp 40-41. *)
Record ekeyring (X : Type) : Type := mk_ekeyring {
  ekr_e : endianess;
  ekr_m : signed_mode;
  ekr_funcs : list (nat * efunc X)
}.
Arguments mk_ekeyring {X} ekr_e ekr_m ekr_funcs.
Arguments ekr_e {X} e.
Arguments ekr_m {X} e.
Arguments ekr_funcs {X} e.

(** key.hpp 65-72. *)
Record ekey : Type := mk_ekey {
  ek_index_size : nat;
  ek_index : nat;
  ek_sig : esignature;
  ek_e : endianess;
  ek_m : signed_mode
}.

Section FloatCalls.
  Variable p : platform.
  Context {X : Type}.

  (** action.hpp 53-69 and 122-141 ([action] and [no_storage_action] do the same
      things on the same tuples). *)
  Definition ecall (e : endianess) (m : signed_mode) (f : efunc X) (src : source X) (dest : destination X) (x : X)
      : res X :=
    let ts := es_params (ef_sig f) in
    '(x1, st) <- eread_tuple p e m ts src x;;
    '(x2, r) <- einvoke p e m ts (ef_call f) st x1;;
    match es_ret (ef_sig f) with
    | None => Ok x2
    | Some t => ewrite_tuple p e m [t] [r] dest x2
    end.

  (** keyring.hpp 52. *)
  Definition ekr_index_size (kr : ekeyring X) : nat := smallest_unsigned (Z.of_nat (length (ekr_funcs kr))).

  (** keyring.hpp 64. *)
  Definition ekr_size (kr : ekeyring X) : nat :=
    Z.to_nat (Z.of_nat (length (ekr_funcs kr)) mod 2 ^ (8 * Z.of_nat (ekr_index_size kr))).

  (** keyring.hpp 56-61, 85-97. *)
  Definition ekr_get (kr : ekeyring X) (name : nat) (f : efunc X) : option ekey :=
    match find17 Nat.eqb (map fst (ekr_funcs kr)) name with
    | Some i => Some (mk_ekey (ekr_index_size kr) i (ef_sig f) (ekr_e kr) (ekr_m kr))
    | None => None
    end.

  (** key.hpp 108-111. *)
  Definition ekey_write (k : ekey) (args : list evalue) (dest : destination X) (x : X) : res X :=
    ewrite_tuple p (ek_e k) (ek_m k) (EInt (TUns (ek_index_size k)) :: es_params (ek_sig k))
      (EVal (VInt (Z.of_nat (ek_index k))) :: args) dest x.

  (** key.hpp 121-131. *)
  Definition ekey_read (k : ekey) (src : source X) (x : X) : res (X * option evalue) :=
    match es_ret (ek_sig k) with
    | None => Ok (x, None)
    | Some t =>
        '(x', st) <- eread_tuple p (ek_e k) (ek_m k) [t] src x;;
        v <- eget p (ek_e k) (ek_m k) [t] 0 st;;
        Ok (x', Some v)
    end.

  (** dispatcher.hpp 119-127, 141-149 for a dispatcher of the callbacks of the
      keyring (59-66, 105-108), none of them replaced. *)
  Definition edispatch (kr : ekeyring X) (src : source X) (dest : destination X) (x : X) : res (X * nat) :=
    let index_t := EInt (TUns (ekr_index_size kr)) in
    '(x1, st) <- eread_tuple p (ekr_e kr) (ekr_m kr) [index_t] src x;;
    v <- eget p (ekr_e kr) (ekr_m kr) [index_t] 0 st;;
    match v with
    | EVal (VInt z) =>
        let i := Z.to_nat z in
        if i <? ekr_size kr then
          match nth_error (ekr_funcs kr) i with
          | None => Fault OutOfBounds
          | Some nf =>
              x2 <- ecall (ekr_e kr) (ekr_m kr) (snd nf) src dest x1;;
              Ok (x2, i)
          end
        else Ok (x1, i)
    | _ => Fault TypeMismatch
    end.
End FloatCalls.
