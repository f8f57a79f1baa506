(** Model of a program which sends the response while bytes are received in
    interrupt handlers.  No proofs in this file.

    [is_loaded], [get] and [write_to] (buffered_dispatcher.hpp 97, 165-169, 179)
    are cut at each access to a member or to the output buffer.  Between two
    accesses interrupts may take place, whose handlers [put] bytes; a handler is
    not interrupted.  The members are plain objects: the C++ standard requires
    nothing of such a program; it is assumed here that the compiler performs the
    accesses which the source tells, each of them at once. *)

From Coq Require Import List ZArith Bool Arith.
From Verif Require Import Base CInt IntModel TypeLevel Serial TupleModel Rpc Buffered ReEntrant.
Import ListNotations.
Open Scope nat_scope.

(** What the standard leaves open: which side of [m_obuf_next != m_obuf_bottom]
    is read first (97), and whether the byte is read before [m_obuf_next] is
    incremented (179). *)
Record evaluation : Type := mk_evaluation {
  next_first : bool;
  byte_first : bool
}.

(** The dispatcher, the world, the interrupts to come (for each moment at which
    some may take place, the bytes they put) and what the calls of [put]
    returned.
    buffered_dispatcher.hpp 280-282 and what surrounds it. *)
Record running (X : Type) : Type := mk_running {
  rn_b : buffered X;
  rn_x : X;
  rn_irqs : list (list Z);
  rn_seen : list packet_status
}.
Arguments mk_running {X} rn_b rn_x rn_irqs rn_seen.
Arguments rn_b {X} r.
Arguments rn_x {X} r.
Arguments rn_irqs {X} r.
Arguments rn_seen {X} r.

Section Interrupts.
  Variable p : platform.
  Variable ev : evaluation.
  Context {X : Type}.

  (** The handlers.
      Each of them calls [put] (buffered_dispatcher.hpp 130-158). *)
  Fixpoint handle (bytes : list Z) (b : buffered X) (x : X) (seen : list packet_status)
      : res (buffered X * X * list packet_status) :=
    match bytes with
    | [] => Ok (b, x, seen)
    | byte :: bytes' =>
        '(b', x', s) <- put p byte b x;;
        handle bytes' b' x' (seen ++ [s])
    end.

  (** A moment between two accesses.
      The accesses are those of buffered_dispatcher.hpp 97, 167-168, 179. *)
  Definition tick (r : running X) : res (running X) :=
    match rn_irqs r with
    | [] => Ok r
    | bytes :: irqs =>
        '(b, x, seen) <- handle bytes (rn_b r) (rn_x r) (rn_seen r);;
        Ok (mk_running b x irqs seen)
    end.

  (** buffered_dispatcher.hpp 97 *)
  Definition is_loaded_i (r : running X) : res (running X * bool) :=
    if next_first ev then
      let next := b_obuf_next (rn_b r) in
      r1 <- tick r;;
      Ok (r1, negb (next =? b_obuf_bottom (rn_b r1)))
    else
      let bottom := b_obuf_bottom (rn_b r) in
      r1 <- tick r;;
      Ok (r1, negb (b_obuf_next (rn_b r1) =? bottom)).

  (** [m_obuf_next = n]
      buffered_dispatcher.hpp 179. *)
  Definition set_next (n : nat) (r : running X) : running X :=
    let b := rn_b r in
    mk_running (with_output b n (b_obuf_bottom b) (b_bufs b)) (rn_x r) (rn_irqs r) (rn_seen r).

  (** buffered_dispatcher.hpp 179 *)
  Definition get_i (r : running X) : res (running X * Z) :=
    '(r1, loaded) <- is_loaded_i r;;
    r2 <- tick r1;;
    if loaded then
      let next := b_obuf_next (rn_b r2) in
      r3 <- tick r2;;
      if byte_first ev then
        byte <- load (obuf (b_bufs (rn_b r3))) next;;
        r4 <- tick r3;;
        Ok (set_next (S next) r4, byte)
      else
        r4 <- tick (set_next (S next) r3);;
        byte <- load (obuf (b_bufs (rn_b r4))) next;;
        Ok (r4, byte)
    else Ok (r2, 0%Z).

  (** buffered_dispatcher.hpp 165-169.  Responses which are completed meanwhile
      can make the loop as long as they please: [fuel] bounds it. *)
  Fixpoint write_to_i (fuel : nat) (dest : destination X) (r : running X) : res (running X) :=
    '(r1, loaded) <- is_loaded_i r;;
    r2 <- tick r1;;
    if loaded then
      match fuel with
      | 0 => Fault OutOfFuel
      | S fuel' =>
          '(r3, byte) <- get_i r2;;
          r4 <- tick r3;;
          x <- dest byte (rn_x r4);;
          r5 <- tick (mk_running (rn_b r4) x (rn_irqs r4) (rn_seen r4));;
          write_to_i fuel' dest r5
      end
    else Ok r2.
End Interrupts.
