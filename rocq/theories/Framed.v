(** Model of test/snippet/serialization1: packets with a header and a checksum
    made with [upd::tuple] only.  No proofs in this file.

    The header, the types and the values of the fields, the width of the
    checksum and the function [calculate_crc] (declared in
    test/snippet/detail, not a part of the library) are arbitrary. *)

From Coq Require Import List ZArith Bool Arith.
From Verif Require Import Base CInt IntModel TypeLevel Serial TupleModel.
Import ListNotations.
Open Scope nat_scope.

Section Framed.
  Variable p : platform.
  Variables (e : endianess) (m : signed_mode).
  (** [calculate_crc(first, last)]: reads the bytes of the range. *)
  Variable calculate_crc : list Z -> Z.
  Variables (header : list Z) (w : nat).

  (** serialization1 5-12 and 21-27: the header (an array of bytes), the
      fields, and room for the checksum (an unsigned integer of [w] bytes). *)
  Definition framed_types (ts : list ty) : list ty := TArr (TUns 1) (length header) :: ts ++ [TUns w].

  (** serialization1 15 and 36: [calculate_crc(t.begin() + 4, t.end() - 2)]. *)
  Definition crc_of (v : view) (mem : list Z) : res Z :=
    bs <- load_range mem (v_begin v + length header) (tuple_size (v_types v) - length header - w);;
    Ok (calculate_crc bs).

  (** serialization1 5-18: the bytes given to [write_byte_to_device].  [T{}]
      is the value of the room kept for the checksum.  Simplification: the
      checksum computed is a value of the type of the room (else it would be
      converted, see Convert.v). *)
  Definition send_framed (ts : list ty) (args : list val) (storage : list Z) : res (list Z) :=
    let v := tuple_at e m (framed_types ts) 0 in
    st <- construct p e m (framed_types ts) (VList (map VInt header) :: args ++ [VInt 0]) storage;;
    crc <- crc_of v st;;
    st' <- set p v (S (length ts)) (VInt crc) st;;
    content v st'.

  (** Whether the bytes are those expected.  Not in the library: the checks
      an application makes on what it receives, like those of
      test/buffered_dispatcher.cpp 264, 271. *)
  Fixpoint bytes_equal (a : list val) (b : list Z) : bool :=
    match a, b with
    | [], [] => true
    | VInt x :: a', y :: b' => (x =? y)%Z && bytes_equal a' b'
    | _, _ => false
    end.

  (** serialization1 21-38: reception.  [read_byte_from_device] acts on an
      arbitrary world.  The result is what the structured binding (33) gives
      to the names of the fields, when both assertions (34, 35) hold. *)
  Definition receive_framed {X : Type} (src : X -> res (X * Z)) (ts : list ty) (x : X) (storage : list Z)
      : res (X * option (list val)) :=
    let v := tuple_at e m (framed_types ts) 0 in
    st0 <- default_construct p e m (framed_types ts) storage;;
    '(x', st) <- fill_tuple src v x st0;;
    vals <- get_each p v (make_index_sequence14 (length (framed_types ts))) st;;
    crc <- crc_of v st;;
    match vals with
    | VList rcv_header :: rest =>
        match last rest (VInt 0) with
        | VInt rcv_crc =>
            Ok (x', if bytes_equal rcv_header header && (rcv_crc =? crc)%Z then Some (removelast rest) else None)
        | _ => Ok (x', None)
        end
    | _ => Ok (x', None)
    end.
End Framed.
