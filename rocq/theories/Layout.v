(** Model of the places of the bases of an object, which the casts of
    detail/io/immediate_process.hpp 21-22, immediate_reader.hpp 17-18,
    immediate_writer.hpp 18-19 and buffered_dispatcher.hpp 72-73 rely on: they
    take the address of a base for the address of the object derived from it.
    The places are not chosen by the library: this file has the rules of the two
    usual ABIs, without virtual bases, bit fields, alignment attributes and
    [final].  No class is a POD for the purposes of layout (the padding at the end
    of such a class is not used by the derived classes).  With the Microsoft ABI,
    classes with virtual functions are not modelled: no theorem is about them.
    No proofs in this file. *)

From Coq Require Import List Bool Arith.
Import ListNotations.
Open Scope nat_scope.

(** Names of the types; [d] is the class given to the template as the derived
    class.  [Other]: any other class.
    (action.hpp 151, 207; dispatcher.hpp 80.) *)
Inductive id : Type :=
| Reader (d : nat)   (** immediate_reader.hpp 15-16 *)
| Writer (d : nat)   (** immediate_writer.hpp 16-17 *)
| Process (d : nat)  (** immediate_process.hpp 19-20 *)
| Buffered (d : nat) (** buffered_dispatcher.hpp 66-67 *)
| Other (d : nat).

Definition id_eqb (x y : id) : bool :=
  match x, y with
  | Reader a, Reader b | Writer a, Writer b | Process a, Process b | Buffered a, Buffered b | Other a, Other b => a =? b
  | _, _ => false
  end.

(** A type which is not a class, or an array of such; a class, whether it
    declares virtual functions, its bases and its members.
    (The classes of the library: key.hpp 67-70, action.hpp 75-117, 151, 207,
    dispatcher.hpp 80, buffered_dispatcher.hpp 66-67.) *)
Inductive class : Type :=
| Plain (size align : nat)
| Class (name : id) (virtuals : bool) (bases members : list class).

(** What matters of a type.  [l_data] is the size it has as a base: with the
    Itanium ABI it is without the padding at the end, which a derived class may
    use; it is 0 for a class without bases and members.  [l_empties] are
    the empty classes in the object and where.  [l_bases] and [l_members] are the
    places of the bases and of the members, in the order of the declaration.  [l_leads] and [l_ends]: whether there
    is something of size 0 at the beginning or at the end (Microsoft only). *)
Record layout : Type := mk_layout {
  l_size : nat;
  l_data : nat;
  l_align : nat;
  l_empty : bool;
  l_dynamic : bool;
  l_empties : list (id * nat);
  l_bases : list nat;
  l_members : list nat;
  l_leads : bool;
  l_ends : bool
}.

(** The object under construction.
    (No counterpart in /repo: done by the compiler, for the classes of
    buffered_dispatcher.hpp 66-67, 280-282, ...) *)
Record frame : Type := mk_frame {
  f_size : nat;
  f_data : nat;
  f_align : nat;
  f_empties : list (id * nat);
  f_ends : bool
}.

(** [n] rounded up to a multiple of [a].  (No counterpart in /repo;
    alignment, as of the members of buffered_dispatcher.hpp 280-282.) *)
Definition round_up (n a : nat) : nat := ((n + (a - 1)) / a) * a.

(** Places counted from [o].  (No counterpart in /repo; for the empty bases
    immediate_reader.hpp 15, immediate_writer.hpp 16.) *)
Definition shift (o : nat) (es : list (id * nat)) : list (id * nat) := map (fun e => (fst e, snd e + o)) es.

(** Whether putting [es] at [o] gives two empty classes of the same type the
    same address.
    (The empty bases: immediate_reader.hpp 15, immediate_writer.hpp 16.) *)
Definition conflict (placed es : list (id * nat)) (o : nat) : bool :=
  existsb (fun e => existsb (fun q => id_eqb (fst e) (fst q) && (snd e =? snd q)) placed) (shift o es).

(** The first place without conflict; each conflict excludes one place, so that
    [fuel] suffices.
    (As [conflict]: immediate_reader.hpp 15, immediate_writer.hpp 16.) *)
Fixpoint search (fuel : nat) (placed es : list (id * nat)) (o step : nat) : nat :=
  match fuel with
  | 0 => o
  | S fuel' => if conflict placed es o then search fuel' placed es (o + step) step else o
  end.

(** ** Itanium C++ ABI, 2.4 II: GCC and Clang *)

Definition put_at (o : nat) (size data : nat) (l : layout) (f : frame) : frame :=
  mk_frame (Nat.max (f_size f) size) data (Nat.max (f_align f) (l_align l)) (f_empties f ++ shift o (l_empties l)) (l_ends l).

(** Where a member or a base which is not empty goes (Itanium ABI 2.4.II.2
    and 2.4.II.3). *)
Definition itanium_place (f : frame) (l : layout) : nat :=
  search (S (length (f_empties f) * length (l_empties l))) (f_empties f) (l_empties l)
    (round_up (f_data f) (l_align l)) (l_align l).

(** An empty base goes at 0 if it can, and takes no room. *)
Definition itanium_base (f : frame) (l : layout) : nat * frame :=
  if l_empty l then
    let o := if conflict (f_empties f) (l_empties l) 0 then itanium_place f l else 0 in
    (o, put_at o (o + l_size l) (f_data f) l f)
  else
    let o := itanium_place f l in
    (o, put_at o (o + l_data l) (o + l_data l) l f).

(** The members, one after the other (Itanium ABI 2.4.II.3). *)
Fixpoint itanium_members (f : frame) (ls : list layout) : list nat * frame :=
  match ls with
  | [] => ([], f)
  | l :: ls' =>
      let o := itanium_place f l in
      let (os, f') := itanium_members (put_at o (o + l_size l) (o + l_size l) l f) ls' in (o :: os, f')
  end.

(** The bases but the primary one, if any (its place is 0). *)
Fixpoint itanium_bases (primary : bool) (f : frame) (ls : list layout) : list nat * frame :=
  match ls with
  | [] => ([], f)
  | l :: ls' =>
      if primary && l_dynamic l then
        let (os, f') := itanium_bases false f ls' in (0 :: os, f')
      else
        let (o, f1) := itanium_base f l in
        let (os, f') := itanium_bases primary f1 ls' in (o :: os, f')
  end.

(** The primary base is the first one with virtual functions; it gives the object
    its pointer to virtual functions.
    (Itanium ABI 2.4.II.1; action.hpp 85-91 has virtual functions.) *)
Definition itanium_start (ptr : nat) (dynamic : bool) (bs : list layout) : frame :=
  match find l_dynamic bs with
  | Some l => put_at 0 (l_data l) (l_data l) l (mk_frame 0 0 1 [] false)
  | None => if dynamic then mk_frame ptr ptr ptr [] false else mk_frame 0 0 1 [] false
  end.

(** ** Microsoft

    As in Clang (MicrosoftRecordLayoutBuilder), for classes without virtual
    functions and [__declspec(empty_bases)]: empty bases do not share their
    places.
    (For immediate_reader.hpp 15, immediate_writer.hpp 16.) *)

Definition microsoft_base (previous : option layout) (f : frame) (l : layout) : nat * frame :=
  let gap := match previous with Some q => l_ends q && l_leads l | None => false end in
  let o := round_up (if gap then f_data f + 1 else f_data f) (l_align l) in
  (o, put_at o (o + l_data l) (o + l_data l) l f).

(** The bases, one after the other (buffered_dispatcher.hpp 66-67). *)
Fixpoint microsoft_bases (previous : option layout) (f : frame) (ls : list layout) : list nat * frame :=
  match ls with
  | [] => ([], f)
  | l :: ls' =>
      let (o, f1) := microsoft_base previous f l in
      let (os, f') := microsoft_bases (Some l) f1 ls' in (o :: os, f')
  end.

(** The members, one after the other (buffered_dispatcher.hpp 280-282). *)
Fixpoint microsoft_members (f : frame) (ls : list layout) : list nat * frame :=
  match ls with
  | [] => ([], f)
  | l :: ls' =>
      let o := round_up (f_data f) (l_align l) in
      let (os, f') := microsoft_members (put_at o (o + l_size l) (o + l_size l) l f) ls' in (o :: os, f')
  end.

(** ** Objects *)

(** (The rules the casts of immediate_reader.hpp 17-18, immediate_writer.hpp
    18-19, buffered_dispatcher.hpp 72-73 depend on.) *)
Inductive abi : Type := Itanium | Microsoft.

(** [ptr]: size of a pointer.  (In the Itanium ABI the size before the padding at
    the end is that of the data and of the empty bases.)
    (buffered_dispatcher.hpp 66-67, 280-282 is such a class.) *)
Definition layout_class (a : abi) (ptr : nat) (name : id) (virtuals : bool) (bs ms : list layout) : layout :=
  let dynamic := virtuals || existsb l_dynamic bs in
  let empty := negb dynamic && forallb l_empty bs && match ms with [] => true | _ => false end in
  let '(os, (ps, f)) :=
    match a with
    | Itanium =>
        let (os, f1) := itanium_bases (existsb l_dynamic bs) (itanium_start ptr dynamic bs) bs in
        (os, itanium_members f1 ms)
    | Microsoft =>
        let (os, f1) := microsoft_bases None (mk_frame 0 0 1 [] false) bs in
        (os, microsoft_members f1 ms)
    end in
  mk_layout
    (Nat.max 1 (round_up (f_size f) (f_align f)))
    (match a with Itanium => if empty then 0 else f_size f | Microsoft => round_up (f_data f) (f_align f) end)
    (f_align f) empty dynamic
    ((if empty then [(name, 0)] else []) ++ f_empties f) os ps
    (match bs with l :: _ => l_leads l | [] => empty end)
    (match ms with [] => match bs with [] => empty | _ => f_ends f end | _ => f_ends f end).

(** The same for any type, bases and members first (buffered_dispatcher.hpp
    66-67, 280-282). *)
Fixpoint lay_out (a : abi) (ptr : nat) (c : class) : layout :=
  match c with
  | Plain s al => mk_layout s s al false false [] [] [] false false
  | Class n v bs ms => layout_class a ptr n v (map (lay_out a ptr) bs) (map (lay_out a ptr) ms)
  end.

(** ** Casts

    [reinterpret_cast<D &>( *this)], [this] being base number [i] of the object
    of class [c] at the address [x]: the address of the result.
    (immediate_reader.hpp 17-18, immediate_writer.hpp 18-19.) *)
Definition derived (a : abi) (ptr : nat) (c : class) (i x : nat) : nat :=
  x + nth i (l_bases (lay_out a ptr c)) 0.

(** ** Classes of the library *)

(** immediate_reader.hpp 15-16, immediate_writer.hpp 16-17: no members, no
    bases. *)
Definition mixin (n : id) : class := Class n false [] [].

(** key.hpp 67-70 *)
Definition key_class (d : nat) : class := Class (Other d) false [mixin (Reader d)] [].

(** action.hpp 151 and 207, dispatcher.hpp 80; [ms]: the members. *)
Definition process_class (d : nat) (ms : list class) : class := Class (Other d) false [mixin (Process d)] ms.

(** serialized_message.hpp 19 *)
Definition message_class (d : nat) (ms : list class) : class := Class (Other d) false [mixin (Writer d)] ms.

(** buffered_dispatcher.hpp 66-69; [ms]: the members, 280-282. *)
Definition buffered_class (d : nat) (ms : list class) : class :=
  Class (Buffered d) false [mixin (Reader d); mixin (Writer d); mixin (Process d)] ms.

(** buffered_dispatcher.hpp 294-295 and 352-353; [ms]: the buffers. *)
Definition final_class (d : nat) (bs_members ms : list class) : class :=
  Class (Other d) false [buffered_class d bs_members] ms.
