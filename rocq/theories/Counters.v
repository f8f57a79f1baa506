(** Model of the sizes computed at compile time and of the members of
    [buffered_dispatcher] as objects of type [std::size_t], whose arithmetic wraps:
    typelist.hpp 135-143, 154-157, 192-216; signature.hpp 104-118;
    buffered_dispatcher.hpp 28-36, 92-97, 109-179, 197-203, 260-272.  No proofs in
    this file.

    In the other files they are natural numbers.  [std::size_t] is taken to be at
    least as wide as [int], so that it is not promoted. *)

From Coq Require Import List ZArith Bool Arith.
From Verif Require Import Base CInt IntModel TypeLevel Serial TupleModel Rpc Buffered SpecBuffered.
Import ListNotations.
Open Scope Z_scope.

(** The number of values of [std::size_t], when it has [sz] bytes. *)
Definition sizes (sz : nat) : Z := 2 ^ bits sz.

Section Sizes.
  Variable sz : nat.

  (** [a + b] as [std::size_t] *)
  Definition add_size (a b : Z) : Z := (a + b) mod sizes sz.

  (** typelist.hpp 154-157 (a left fold which begins with the [int] 0) and 210-216
      (which begins with a [std::uint8_t] equal to 0, line 235).  The values are
      [std::size_t], and so is the result but for an empty list. *)
  Definition sum_w (l : list Z) : Z := fold_left add_size l 0.

  (** signature.hpp 107 *)
  Definition parameters_size_w (s : signature) : Z :=
    sum_w (map (fun t => Z.of_nat (sizeof t)) (sig_params s)).

  (** tuple.hpp 100, 108, 136, 149: the size of the storage, or where an element
      begins when [ts] are the types before it *)
  Definition tuple_size_w (ts : list ty) : Z := sum_w (map (fun t => Z.of_nat (serialization_size t)) ts).

  (** key.hpp 96 *)
  Definition payload_length_w (k : key) : Z :=
    add_size (Z.of_nat (k_index_size k)) (parameters_size_w (k_sig k)).

  (** typelist.hpp 135-143, 192-199; [None] for an empty list, which does not
      compile. *)
  Definition greatest (l : list Z) : option Z :=
    match l with [] => None | v :: _ => Some (fold_left Z.max l v) end.

  (** buffered_dispatcher.hpp 28-32.  In C++17 the greatest size is a [long long]
      (typelist.hpp 138: narrowing, and so an error, when it does not fit), so that
      the sum is a [long long] if it is wider than [std::size_t], an [unsigned long
      long] otherwise; as argument of a template it is not narrowed either.  In C++11
      everything is [std::size_t].  [None]: does not compile. *)
  Definition needed_input_w {X : Type} (cpp17 : bool) (kr : keyring X) : option Z :=
    match greatest (map parameters_size_w (kr_signatures kr)) with
    | None => None
    | Some m =>
        let n := m + Z.of_nat (kr_index_size kr) in
        if cpp17 then
          if m <? 2 ^ 63 then
            if (sz <? 8)%nat then if n <? sizes sz then Some n else None
            else Some (n mod sizes sz)
          else None
        else Some (n mod sizes sz)
    end.

  (** buffered_dispatcher.hpp 35-36.  The size of an array, which is not narrowed
      (364-380). *)
  Definition needed_output_w {X : Type} (cpp17 : bool) (kr : keyring X) : option Z :=
    match greatest (map parameters_size_w (kr_signatures kr)) with
    | None => None
    | Some m => if cpp17 && negb (m <? 2 ^ 63) then None else Some m
    end.
End Sizes.

(** The members (280-282) and the buffers. *)
Record members (X : Type) : Type := mk_members {
  s_dispatcher : dispatcher X;
  s_is_index_loaded : bool;
  s_load_count : Z;
  s_ibuf_next : Z;
  s_obuf_next : Z;
  s_obuf_bottom : Z;
  s_bufs : buffers
}.
Arguments mk_members {X} s_dispatcher s_is_index_loaded s_load_count s_ibuf_next s_obuf_next s_obuf_bottom s_bufs.
Arguments s_dispatcher {X} m.
Arguments s_is_index_loaded {X} m.
Arguments s_load_count {X} m.
Arguments s_ibuf_next {X} m.
Arguments s_obuf_next {X} m.
Arguments s_obuf_bottom {X} m.
Arguments s_bufs {X} m.

Section Counters.
  Variable p : platform.
  Variable sz : nat.
  Context {X : Type}.

  (** [x++], [--x] *)
  Definition incremented (x : Z) : Z := (x + 1) mod sizes sz.
  (** The same. *)
  Definition decremented (x : Z) : Z := (x - 1) mod sizes sz.

  (** buffered_dispatcher.hpp 92-93 *)
  Definition init_members (d : dispatcher X) (bufs : buffers) : members X :=
    mk_members d false (Z.of_nat (index_length d)) 0 0 0 bufs.

  (** buffered_dispatcher.hpp 97 *)
  Definition is_loaded_w (b : members X) : bool := negb (s_obuf_next b =? s_obuf_bottom b).

  (** [[&](byte_t byte) { derived().obuf_begin()[m_obuf_bottom++] = byte; }] (267) *)
  Definition destination_w : destination (frame X) :=
    fun byte w =>
      m <- store (obuf (fr_bufs w)) (fr_bottom w) byte;;
      Ok (mk_frame (set_obuf m (fr_bufs w)) (fr_iptr w) (Z.to_nat (incremented (Z.of_nat (fr_bottom w)))) (fr_world w)).

  (** buffered_dispatcher.hpp 260-272 *)
  Definition call_w (b : members X) (x : X) : res (members X * X) :=
    let d := s_dispatcher b in
    '(w1, index) <- get_index p (framed_dispatcher d) ibuf_source (mk_frame (s_bufs b) 0 0 x);;
    a <- action_at (framed_dispatcher d) index;;
    w2 <- run p a ibuf_source destination_w w1;;
    Ok (mk_members d false (Z.of_nat (index_length d)) 0 0 (Z.of_nat (fr_bottom w2)) (fr_bufs w2), fr_world w2).

  (** action.hpp 109, 192, 216-217, 226: the sum wraps *)
  Definition input_size_w (a : action X) : res Z := n <- input_size a;; Ok (Z.of_nat n mod sizes sz).

  (** buffered_dispatcher.hpp 130-158 *)
  Definition put_w (byte : Z) (b : members X) (x : X) : res (members X * X * packet_status) :=
    let d := s_dispatcher b in
    m <- store (ibuf (s_bufs b)) (Z.to_nat (s_ibuf_next b)) byte;;
    let bufs := set_ibuf m (s_bufs b) in
    let next := incremented (s_ibuf_next b) in
    let count := decremented (s_load_count b) in
    let b1 := mk_members d (s_is_index_loaded b) count next (s_obuf_next b) (s_obuf_bottom b) bufs in
    if 0 <? count then Ok (b1, x, LOADING_PACKET)
    else if s_is_index_loaded b then
      '(b2, x') <- call_w b1 x;;
      Ok (b2, x', RESOLVED_PACKET)
    else
      '(w, index) <- get_index p (framed_dispatcher d) ibuf_source (mk_frame bufs 0 0 x);;
      if (index <? d_size d)%nat then
        a <- action_at d index;;
        n <- input_size_w a;;
        let b2 := mk_members d true n next (s_obuf_next b) (s_obuf_bottom b) bufs in
        if n =? 0 then
          '(b3, x') <- call_w b2 x;;
          Ok (b3, x', RESOLVED_PACKET)
        else Ok (b2, x, LOADING_PACKET)
      else
        Ok (mk_members d false (Z.of_nat (index_length d)) 0 (s_obuf_next b) (s_obuf_bottom b) bufs, x, DROPPED_PACKET).

  (** The loop of 112-113 *)
  Fixpoint read_index_w (fuel : nat) (src : source X) (b : members X) (x : X) (s : packet_status)
      : res (members X * X * packet_status) :=
    if negb (s_is_index_loaded b) && is_loading s then
      match fuel with
      | O => Fault OutOfFuel
      | S fuel' =>
          '(x1, byte) <- src x;;
          '(b', x2, s') <- put_w byte b x1;;
          read_index_w fuel' src b' x2 s'
      end
    else Ok (b, x, s).

  (** The loop of 114-115 *)
  Fixpoint read_payload_w (fuel : nat) (src : source X) (b : members X) (x : X) (s : packet_status)
      : res (members X * X * packet_status) :=
    if s_is_index_loaded b then
      match fuel with
      | O => Fault OutOfFuel
      | S fuel' =>
          '(x1, byte) <- src x;;
          '(b', x2, s') <- put_w byte b x1;;
          read_payload_w fuel' src b' x2 s'
      end
    else Ok (b, x, s).

  (** buffered_dispatcher.hpp 109-117.  The loops are given as many turns as
      [m_load_count] says, and one more. *)
  Definition read_from_w (src : source X) (b : members X) (x : X) : res (members X * X * packet_status) :=
    '(b1, x1, s1) <- read_index_w (S (Z.to_nat (s_load_count b))) src b x LOADING_PACKET;;
    read_payload_w (S (Z.to_nat (s_load_count b1))) src b1 x1 s1.

  (** buffered_dispatcher.hpp 179 *)
  Definition get_w (b : members X) : res (members X * Z) :=
    if is_loaded_w b then
      byte <- load (obuf (s_bufs b)) (Z.to_nat (s_obuf_next b));;
      Ok (mk_members (s_dispatcher b) (s_is_index_loaded b) (s_load_count b) (s_ibuf_next b)
            (incremented (s_obuf_next b)) (s_obuf_bottom b) (s_bufs b), byte)
    else Ok (b, 0).

  (** The loop of 167-168 *)
  Fixpoint write_loop_w (fuel : nat) (dest : destination X) (b : members X) (x : X) : res (members X * X) :=
    if is_loaded_w b then
      match fuel with
      | O => Fault OutOfFuel
      | S fuel' =>
          '(b', byte) <- get_w b;;
          x' <- dest byte x;;
          write_loop_w fuel' dest b' x'
      end
    else Ok (b, x).

  (** buffered_dispatcher.hpp 165-169 *)
  Definition write_to_w (dest : destination X) (b : members X) (x : X) : res (members X * X) :=
    write_loop_w (S (length (obuf (s_bufs b)))) dest b x.

  (** buffered_dispatcher.hpp 197-203 *)
  Definition process_w (src : source X) (dest : destination X) (b : members X) (x : X)
      : res (members X * X * packet_status) :=
    '(b1, x1, s) <- read_from_w src b x;;
    match s with
    | RESOLVED_PACKET =>
        '(b2, x2) <- write_to_w dest b1 x1;;
        Ok (b2, x2, s)
    | _ => Ok (b1, x1, s)
    end.

  (** One operation on the object; what it returns.  [Replace]: 182-185, 208-217;
      [Move]: the members are copied. *)
  Definition step_w (o : op X) (b : members X) (x : X) : res (members X * X * obs) :=
    match o with
    | Put byte => '(b', x', s) <- put_w byte b x;; Ok (b', x', OStatus s)
    | Get => '(b', byte) <- get_w b;; Ok (b', x, OByte byte)
    | IsLoaded => Ok (b, x, OBool (is_loaded_w b))
    | ReadFrom src => '(b', x', s) <- read_from_w src b x;; Ok (b', x', OStatus s)
    | WriteTo dest => '(b', x') <- write_to_w dest b x;; Ok (b', x', ONone)
    | Process src dest => '(b', x', s) <- process_w src dest b x;; Ok (b', x', OStatus s)
    | Replace i r =>
        match replace (s_dispatcher b) i r with
        | Some o =>
            d <- o;;
            Ok (mk_members d (s_is_index_loaded b) (s_load_count b) (s_ibuf_next b) (s_obuf_next b) (s_obuf_bottom b)
                  (s_bufs b), x, ONone)
        | None => Fault TypeMismatch
        end
    | Outside g => Ok (b, g x, ONone)
    | Move =>
        Ok (mk_members (fst (move_dispatcher (s_dispatcher b))) (s_is_index_loaded b) (s_load_count b) (s_ibuf_next b)
              (s_obuf_next b) (s_obuf_bottom b) (s_bufs b), x, ONone)
    end.

  (** A sequence of operations; what they return. *)
  Fixpoint run_w (ops : list (op X)) (b : members X) (x : X) : res (members X * X * list obs) :=
    match ops with
    | [] => Ok (b, x, [])
    | o :: ops' =>
        '(b1, x1, v) <- step_w o b x;;
        '(b2, x2, vs) <- run_w ops' b1 x1;;
        Ok (b2, x2, v :: vs)
    end.
End Counters.
