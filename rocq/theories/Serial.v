(** Model of detail/serialization.hpp and of [serialization_size]
    (tuple.hpp 52-67).

    A byte sequence is a region [mem]; a pointer into it is an offset.  No
    proofs in this file. *)

From Coq Require Import List ZArith Bool Arith.
From Verif Require Import Base CInt IntModel TypeLevel.
Import ListNotations.
Open Scope nat_scope.

(** tuple.hpp 53-61: [sizeof(T)] for integers and arrays (overload taking
    [...]), size of the view for user extended types (overload taking [int]);
    the size of a view is the sum of the sizes of its elements
    (tuple.hpp 100, 108). *)
Fixpoint serialization_size (t : ty) : nat :=
  match t with
  | TUser _ fs => sum17 (map serialization_size fs)
  | _ => sizeof t
  end.

(** tuple.hpp 136, 149, 375, 393: [sum<clip<sizes_t, 0, I>>::value]. *)
Definition element_offset (ts : list ty) (i : nat) : res nat :=
  match clip17 (map serialization_size ts) 0 i with
  | Some l => Ok (sum17 l)
  | None => Fault TypeMismatch
  end.

(** Types for which the bodies of [read_as] / [write_as] can be instantiated
    by a compiler implementing two-phase name lookup.  The unqualified call to
    [read_as] inside of the array overload (serialization.hpp 77) considers the
    overloads declared before it (59-80) and those found through the arguments;
    its argument is a [const byte_t *], for which there are none.  The overload
    for user types (81-86) is therefore not a candidate: the elements of an
    array can be integers or arrays only.  The calls of the other overloads go
    through [tuple_base::get] and [set], where every overload is visible.
    Compilers without two-phase lookup accept all the types. *)
Fixpoint array_element_visible (t : ty) : bool :=
  match t with
  | TBool | TUns _ | TSig _ => true
  | TArr t' _ => array_element_visible t'
  | TUser _ _ => false
  end.

(** serialization.hpp 59-86, 127-149: see the comment of
    [array_element_visible]. *)
Fixpoint instantiates (t : ty) : bool :=
  match t with
  | TBool | TUns _ | TSig _ => true
  | TArr t' _ => array_element_visible t'
  | TUser _ fs => forallb instantiates fs
  end.

Section ReadWrite.
  Variable p : platform.
  Variable e : endianess.
  Variable m : signed_mode.

  (** serialization.hpp 59-86: [read_as<T, Endianess, Signed_Mode>(sequence)]
      for a plain pointer.

      - 59-62: unsigned integers (and [bool]);
      - 63-68: signed integers, through an [unsigned long long];
      - 69-80: arrays, element [i] at [sequence + i * sizeof(element_t)];
      - 81-86: user types: [view.invoke(unserialize)] on a view of the fields,
        i.e. [get<I>()] (tuple.hpp 131-138) for every [I]. *)
  Fixpoint read_as (t : ty) (mem : list Z) (off : nat) {struct t} : res val :=
    match t with
    | TBool => z <- from_endianess p CBool e mem off (sizeof TBool);; Ok (VInt z)
    | TUns w => z <- from_endianess p (CInt w false) e mem off (sizeof (TUns w));; Ok (VInt z)
    | TSig w =>
        tmp <- from_endianess p ull e mem off (sizeof (TSig w));;
        z <- from_signed_mode p w m tmp;;
        Ok (VInt z)
    | TArr t' n =>
        vs <- (fix loop (k i : nat) {struct k} : res (list val) :=
                 match k with
                 | 0 => Ok []
                 | S k' =>
                     v <- read_as t' mem (off + i * sizeof t');;
                     vs <- loop k' (S i);;
                     Ok (v :: vs)
                 end) n 0;;
        Ok (VList vs)
    | TUser _ fs =>
        vs <- (fix go (l : list ty) (i : nat) {struct l} : res (list val) :=
                 match l with
                 | [] => Ok []
                 | f :: l' =>
                     o <- element_offset fs i;;
                     v <- read_as f mem (off + o);;
                     vs <- go l' (S i);;
                     Ok (v :: vs)
                 end) fs 0;;
        Ok (VList vs)
    end.

  (** serialization.hpp 127-149: [write_as<Endianess, Signed_Mode>(x, sequence)]
      for a plain pointer.

      - 127-130: unsigned integers; 131-136: signed integers;
      - 137-143: arrays, element [i] at [sequence + i * sizeof(element_t)],
        [sizeof(array) / sizeof(array[0])] iterations (which can be more than
        the number of elements when there are none);
      - 144-149: user types: [serialize(x, view)], modelled as
        [view.set<I>(x_I)] (tuple.hpp 144-151) for I = 0, 1, ... *)
  Fixpoint write_as (t : ty) (v : val) (mem : list Z) (off : nat) {struct t}
      : res (list Z) :=
    match t, v with
    | TBool, VInt z => to_endianess p CBool e mem off z (sizeof TBool)
    | TUns w, VInt z => to_endianess p (CInt w false) e mem off z (sizeof (TUns w))
    | TSig w, VInt z =>
        tmp <- to_signed_mode p w m z;;
        to_endianess p ull e mem off tmp (sizeof (TSig w))
    | TArr t' n, VList vs =>
        (fix loop (k i : nat) (mem : list Z) {struct k} : res (list Z) :=
           match k with
           | 0 => Ok mem
           | S k' =>
               if n <=? i then Fault OutOfBounds
               else
                 match nth_error vs i with
                 | None => Fault TypeMismatch
                 | Some v =>
                     mem' <- write_as t' v mem (off + i * sizeof t');;
                     loop k' (S i) mem'
                 end
           end) (sizeof (TArr t' n) / sizeof t') 0 mem
    | TUser _ fs, VList vs =>
        (fix go (l : list ty) (i : nat) (mem : list Z) {struct l} : res (list Z) :=
           match l with
           | [] => Ok mem
           | f :: l' =>
               match nth_error vs i with
               | None => Fault TypeMismatch
               | Some v =>
                   o <- element_offset fs i;;
                   mem' <- write_as f v mem (off + o);;
                   go l' (S i) mem'
               end
           end) fs 0 mem
    | _, _ => Fault TypeMismatch
    end.

  (** Kinds of iterators: plain pointers, or any other forward iterator over a
      byte sequence.  Positions of both kinds are offsets.
      serialization.hpp 59-86, 127-149 (pointers) and 87-93, 150-157
      (others). *)
  Inductive iterator_kind : Type := Pointer | Iterator.

  (** serialization.hpp 87-93 (copy [sizeof(T)] bytes into a local buffer, then
      read the buffer), 112-114 ([std::next(begin, offset)]). *)
  Definition read_at (k : iterator_kind) (t : ty) (mem : list Z) (off : nat) : res val :=
    match k with
    | Pointer => read_as t mem off
    | Iterator =>
        buf <- load_range mem off (sizeof t);;
        read_as t buf 0
    end.

  (** serialization.hpp 150-157 (write into an uninitialised local buffer of
      [sizeof(T)] bytes, then copy the whole buffer), 177-179. *)
  Definition write_at (k : iterator_kind) (t : ty) (v : val) (mem : list Z) (off : nat)
      : res (list Z) :=
    match k with
    | Pointer => write_as t v mem off
    | Iterator =>
        buf <- write_as t v (indet_bytes p (sizeof t)) 0;;
        store_range mem off buf
    end.
End ReadWrite.
