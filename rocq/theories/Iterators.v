(** * Iterators given to the functions which take byte getters and putters

    detail/io/immediate_process.hpp 23-93, detail/io/immediate_reader.hpp 21-49,
    detail/io/immediate_writer.hpp 21-49, detail/type_traits/require.hpp 81-91,
    detail/type_traits/iterator_category.hpp.

    The iterators themselves belong to the standard library: pointers,
    [std::istreambuf_iterator], [std::istream_iterator] and
    [std::back_insert_iterator] are modelled from the text of the C++ standard
    ([iterator.traits], [istreambuf.iterator], [istream.iterator],
    [back.insert.iterator]). *)

From Coq Require Import List ZArith Bool Lia.
From Verif Require Import Base CInt TypeLevel Serial TupleModel Rpc Buffered.
Import ListNotations.

(** ** Pointers to elements *)

(** The types of the elements of an array given by pointer.  A value of an
    element is the number it is, truncated if it is a floating-point number.
    Simplification: user-defined classes are those without conversions from and
    to arithmetic types.
    (require.hpp 81-91.) *)
Inductive elem : Type :=
| EBool
| EInt (s : bool) (w : nat)  (* integers of [w] bytes, signed or not *)
| EFloat
| EEnum (s : bool) (w : nat) (* unscoped enumerations *)
| EScoped                    (* scoped enumerations, such as [std::byte] *)
| EClass.

(** Is there an implicit conversion from the element to [byte_t]?
    (require.hpp 86.) *)
Definition to_byte_exists (t : elem) : bool :=
  match t with EBool | EInt _ _ | EFloat | EEnum _ _ => true | EScoped | EClass => false end.

(** May a [byte_t] be assigned to the element?
    (require.hpp 91.) *)
Definition of_byte_exists (t : elem) : bool :=
  match t with EBool | EInt _ _ | EFloat => true | EEnum _ _ | EScoped | EClass => false end.

(** require.hpp 81-86 with iterator_category.hpp 12-21, for [T *] and
    [const T *]: the category of a pointer is [random_access_iterator_tag],
    which converts to [input_iterator_tag]. *)
Definition is_input_byte_iterator (const : bool) (t : elem) : bool := to_byte_exists t.

(** require.hpp 88-91 with iterator_category.hpp 15-25. *)
Definition is_output_byte_iterator (const : bool) (t : elem) : bool := negb const && of_byte_exists t.

(** The value of [byte_t] an element is converted to.  Floating-point numbers
    out of range have none.
    (immediate_reader.hpp 33, 38.) *)
Definition elem_to_byte (t : elem) (z : Z) : res Z :=
  match t with
  | EFloat => if (0 <=? z)%Z && (z <? 256)%Z then Ok z else Fault SignedOverflow
  | _ => Ok (z mod 256)%Z
  end.

(** The value of an element a byte is assigned to.
    (immediate_writer.hpp 34, 39.) *)
Definition elem_of_byte (t : elem) (byte : Z) : Z :=
  match t with
  | EBool => if (byte =? 0)%Z then 0%Z else 1%Z
  | EInt true 1 => if (byte <? 128)%Z then byte else (byte - 256)%Z
  | _ => byte
  end.

(** ** What [*it++] and [*it++ = byte] do

    An iterator of type [I] on a medium of type [S]: an array, a stream, ...
    (immediate_reader.hpp 33, 38.) *)
Definition fetcher (I S : Type) : Type := I -> S -> res (I * S * Z).
(** [*it++ = byte] (immediate_writer.hpp 34, 39). *)
Definition emitter (I S : Type) : Type := Z -> I -> S -> res (I * S).

(** [T *]
    (immediate_reader.hpp 33, 38.) *)
Definition pointer_in (t : elem) : fetcher nat (list Z) :=
  fun i mem => z <- load mem i;; byte <- elem_to_byte t z;; Ok (S i, mem, byte).
(** [T *] (immediate_writer.hpp 34, 39). *)
Definition pointer_out (t : elem) : emitter nat (list Z) :=
  fun byte i mem => mem' <- store mem i (elem_of_byte t byte);; Ok (S i, mem').

(** The characters which can be read from a stream now, and whether others may
    come.  The values are those of [char], signed or not.
    (What immediate_reader.hpp 33, 38 reads from.) *)
Record channel : Type := mk_channel { ch_ready : list Z; ch_closed : bool }.

(** [std::istreambuf_iterator<char>]: [it++] is [sbumpc()], whose result is kept
    by the proxy which is then dereferenced.  Waiting forever, or reading the
    end of a file, is [NoInput].
    (immediate_reader.hpp 33, 38.) *)
Definition streambuf_in : fetcher unit channel :=
  fun i ch =>
    match ch_ready ch with
    | [] => Fault NoInput
    | c :: l => Ok (tt, mk_channel l (ch_closed ch), (c mod 256)%Z)
    end.

(** [isspace] in the "C" locale
    (Standard library; called through immediate_reader.hpp 33, 38.) *)
Definition is_space (c : Z) : bool := (c =? 32)%Z || ((9 <=? c)%Z && (c <=? 13)%Z).
(** [std::skipws] (standard library; called through immediate_reader.hpp
    33, 38). *)
Fixpoint skip_space (l : list Z) : list Z :=
  match l with
  | c :: l' => if is_space c then skip_space l' else l
  | [] => []
  end.

(** [stream >> value] for a character type, with or without [std::skipws].
    (Standard library; called through immediate_reader.hpp 33, 38.) *)
Definition extract (skipws : bool) (ch : channel) : res (option Z * channel) :=
  match (if skipws then skip_space (ch_ready ch) else ch_ready ch) with
  | c :: l => Ok (Some c, mk_channel l (ch_closed ch))
  | [] => if ch_closed ch then Ok (None, mk_channel [] true) else Fault NoInput
  end.

(** [std::istream_iterator<T>], [T] a character type: it holds the last value
    read; its constructor reads the first one; [it++] reads the next one after
    having copied the iterator, and the copy is dereferenced.  [None] is the
    end-of-stream iterator, which may not be dereferenced.
    (immediate_reader.hpp 33, 38.) *)
Definition stream_in (skipws : bool) : fetcher (option Z) channel :=
  fun i ch =>
    match i with
    | None => Fault OutOfBounds
    | Some c => '(i', ch') <- extract skipws ch;; Ok (i', ch', (c mod 256)%Z)
    end.

(** [std::back_insert_iterator] on a container of elements, or
    [std::ostreambuf_iterator].
    (immediate_writer.hpp 34, 39.) *)
Definition back_out (t : elem) : emitter unit (list Z) :=
  fun byte i mem => Ok (tt, mem ++ [elem_of_byte t byte]).

(** ** The iterator is copied, and the copy lives as long as the call *)

(** The copies, the media, and the rest of the program, which the callbacks
    see.
    (immediate_reader.hpp 31-39, immediate_writer.hpp 32-40.) *)
Record site (I O S T V : Type) : Type := mk_site {
  in_it : I; in_medium : S; out_it : O; out_medium : T; rest : V
}.
Arguments mk_site {I O S T V} _ _ _ _ _.
Arguments in_it {I O S T V} _.
Arguments in_medium {I O S T V} _.
Arguments out_it {I O S T V} _.
Arguments out_medium {I O S T V} _.
Arguments rest {I O S T V} _.

Section Wrap.
  Context {I O S T V : Type}.

  (** immediate_process.hpp 46-50 [reader_iterator] and immediate_reader.hpp 33
      [[&]() { return *it++; }] *)
  Definition reader (fetch : fetcher I S) : source (site I O S T V) :=
    fun x =>
      '(i', s', byte) <- fetch (in_it x) (in_medium x);;
      Ok (mk_site i' s' (out_it x) (out_medium x) (rest x), byte).

  (** immediate_process.hpp 53-57 [writer_iterator] and immediate_writer.hpp 34
      [[&](byte_t byte) { *it++ = byte; }] *)
  Definition writer (emit : emitter O T) : destination (site I O S T V) :=
    fun byte x =>
      '(o', t') <- emit byte (out_it x) (out_medium x);;
      Ok (mk_site (in_it x) (in_medium x) o' t' (rest x)).

  (** Callbacks which touch neither the copies nor the media.
      (tuple.hpp 184.) *)
  Definition aside (f : func V) : func (site I O S T V) :=
    mk_func (f_sig f) (fun args x =>
      let (v, r) := f_call f args (rest x) in
      (mk_site (in_it x) (in_medium x) (out_it x) (out_medium x) v, r)).
  (** The same for a keyring (keyring.hpp 40-41). *)
  Definition aside_keyring (kr : keyring V) : keyring (site I O S T V) :=
    mk_keyring (kr_e kr) (kr_m kr) (map (fun nf => (fst nf, aside (snd nf))) (kr_funcs kr)).
End Wrap.

(** immediate_reader.hpp 31-39: [dispatcher.read_from(it)], [dispatcher << it]. *)
Definition read_from_it {I S V : Type} (p : platform) (fetch : fetcher I S) (it : I)
    (b : buffered (site I unit S unit V)) (s : S) (v : V)
    : res (buffered (site I unit S unit V) * S * V * packet_status) :=
  '(b', x, st) <- read_from p (reader fetch) b (mk_site it s tt tt v);;
  Ok (b', in_medium x, rest x, st).

(** immediate_process.hpp 25-40: [dispatcher(it, it')], for a buffered
    dispatcher. *)
Definition process_it {I O S T V : Type} (p : platform) (fetch : fetcher I S) (emit : emitter O T) (it : I) (it' : O)
    (b : buffered (site I O S T V)) (s : S) (t : T) (v : V)
    : res (buffered (site I O S T V) * S * T * V * packet_status) :=
  '(b', x, st) <- process p (reader fetch) (writer emit) b (mk_site it s it' t v);;
  Ok (b', in_medium x, out_medium x, rest x, st).

(** immediate_writer.hpp 32-40: [key(args...).write_to(it)]. *)
Definition key_write_it {O T : Type} (p : platform) (k : key) (args : list val) (emit : emitter O T) (it : O) (t : T)
    : res T :=
  x <- key_write p k args (writer (I := unit) (S := unit) (V := unit) emit) (mk_site tt tt it t tt);;
  Ok (out_medium x).

(** immediate_reader.hpp 31-39: [key.read_from(it)]. *)
Definition key_read_it {I S : Type} (p : platform) (k : key) (fetch : fetcher I S) (it : I) (s : S)
    : res (S * option val) :=
  '(x, r) <- key_read p k (reader (O := unit) (T := unit) (V := unit) fetch) (mk_site it s tt tt tt);;
  Ok (in_medium x, r).
