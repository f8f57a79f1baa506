(** Model of programs made of several translation units which do not define the
    macros of upd.hpp 15-33 in the same way.  No proofs in this file.

    [from_endianess], [to_endianess], [from_signed_mode] and [to_signed_mode] exist
    twice each, the requirement on [platform_info] being the type of an unnamed
    template parameter (endianess.hpp 40, 47, 65, 69; signed_representation.hpp 36, 42,
    68, 75).  The type of a template parameter is not part of the mangled name of a
    function, its value is, and it is 0 in both cases.  A translation unit which
    defines the macro and one which does not thus emit different bodies under the
    same name, and the linker keeps one of them, whichever.  (Such programs break the
    one-definition rule, which compilers and linkers do not report.)

    Calls may also be inlined.  In this file each of the four functions, at each
    type and in each format, has the body of some translation unit; a program in
    which several bodies are used is several of these. *)

From Coq Require Import List ZArith Bool Arith.
From Verif Require Import Base CInt IntModel TypeLevel Serial.
Import ListNotations.
Open Scope nat_scope.

(** The translation unit the body of each instance comes from; a [platform] is a
    host together with the macros which are defined (upd.hpp 15-33).
    (endianess.hpp 40-50, 65-72; signed_representation.hpp 36-45, 68-78.) *)
Record linked : Type := mk_linked {
  at_from_endianess : cty -> endianess -> platform;
  at_to_endianess : cty -> endianess -> platform;
  at_from_signed_mode : nat -> signed_mode -> platform;
  at_to_signed_mode : nat -> signed_mode -> platform
}.

Section Linked.
  Variable L : linked.
  Variable e : endianess.
  Variable m : signed_mode.

  (** serialization.hpp 59-86, as [read_as] of Serial.v. *)
  Fixpoint linked_read (t : ty) (mem : list Z) (off : nat) {struct t} : res val :=
    match t with
    | TBool => z <- from_endianess (at_from_endianess L CBool e) CBool e mem off (sizeof TBool);; Ok (VInt z)
    | TUns w =>
        z <- from_endianess (at_from_endianess L (CInt w false) e) (CInt w false) e mem off (sizeof (TUns w));;
        Ok (VInt z)
    | TSig w =>
        tmp <- from_endianess (at_from_endianess L ull e) ull e mem off (sizeof (TSig w));;
        z <- from_signed_mode (at_from_signed_mode L w m) w m tmp;;
        Ok (VInt z)
    | TArr t' n =>
        vs <- (fix loop (k i : nat) {struct k} : res (list val) :=
                 match k with
                 | 0 => Ok []
                 | S k' =>
                     v <- linked_read t' mem (off + i * sizeof t');;
                     vs <- loop k' (S i);;
                     Ok (v :: vs)
                 end) n 0;;
        Ok (VList vs)
    | TUser _ fs =>
        vs <- (fix go (l : list ty) (i : nat) {struct l} : res (list val) :=
                 match l with
                 | [] => Ok []
                 | f :: l' =>
                     o <- element_offset fs i;;
                     v <- linked_read f mem (off + o);;
                     vs <- go l' (S i);;
                     Ok (v :: vs)
                 end) fs 0;;
        Ok (VList vs)
    end.

  (** serialization.hpp 127-149, as [write_as] of Serial.v. *)
  Fixpoint linked_write (t : ty) (v : val) (mem : list Z) (off : nat) {struct t} : res (list Z) :=
    match t, v with
    | TBool, VInt z => to_endianess (at_to_endianess L CBool e) CBool e mem off z (sizeof TBool)
    | TUns w, VInt z =>
        to_endianess (at_to_endianess L (CInt w false) e) (CInt w false) e mem off z (sizeof (TUns w))
    | TSig w, VInt z =>
        tmp <- to_signed_mode (at_to_signed_mode L w m) w m z;;
        to_endianess (at_to_endianess L ull e) ull e mem off tmp (sizeof (TSig w))
    | TArr t' n, VList vs =>
        (fix loop (k i : nat) (mem : list Z) {struct k} : res (list Z) :=
           match k with
           | 0 => Ok mem
           | S k' =>
               if n <=? i then Fault OutOfBounds
               else
                 match nth_error vs i with
                 | None => Fault TypeMismatch
                 | Some v =>
                     mem' <- linked_write t' v mem (off + i * sizeof t');;
                     loop k' (S i) mem'
                 end
           end) (sizeof (TArr t' n) / sizeof t') 0 mem
    | TUser _ fs, VList vs =>
        (fix go (l : list ty) (i : nat) (mem : list Z) {struct l} : res (list Z) :=
           match l with
           | [] => Ok mem
           | f :: l' =>
               match nth_error vs i with
               | None => Fault TypeMismatch
               | Some v =>
                   o <- element_offset fs i;;
                   mem' <- linked_write f v mem (off + o);;
                   go l' (S i) mem'
               end
           end) fs 0 mem
    | _, _ => Fault TypeMismatch
    end.
End Linked.
