(** Model of the compile-time computations:
    detail/type_traits/typelist.hpp, index_sequence.hpp, smallest.hpp,
    signature.hpp.

    A template instantiation that does not compile is [None].  No proofs in
    this file. *)

From Coq Require Import List ZArith Bool Arith.
From Verif Require Import Base.
Import ListNotations.
Open Scope nat_scope.

(** ** C++17 implementations: typelist.hpp 18-71 and 127-163 *)

Section Cpp17.
  Context {A : Type}.

  (** typelist.hpp 53-67: [tlist_t<Ts...>] derives from [itype<Is, Ts>...]. *)
  Definition itypes (l : list A) : list (nat * A) := combine (seq 0 (length l)) l.

  (** Overload resolution among functions each accepting one candidate: there
      must be exactly one viable function.
      typelist.hpp 53-67: the functions [element] and [index] are those of
      the bases [itype]. *)
  Definition unique {B : Type} (l : list B) : option B :=
    match l with
    | [b] => Some b
    | _ => None
    end.

  (** typelist.hpp 130-133: [tl.element(index_v<I>)]. *)
  Definition at17 (l : list A) (i : nat) : option A :=
    option_map snd (unique (filter (fun it => fst it =? i) (itypes l))).

  (** typelist.hpp 148-151: [tl.index(element_v<T>).value]; [same] is type
      identity. *)
  Definition find17 (same : A -> A -> bool) (l : list A) (v : A) : option nat :=
    option_map fst (unique (filter (fun it => same v (snd it)) (itypes l))).

  (** typelist.hpp 160-163: [tlist_t<at<I + Ns>...>] over
      [make_index_sequence<N>]. *)
  Fixpoint clip17_seq (l : list A) (i : nat) (ns : list nat) : option (list A) :=
    match ns with
    | [] => Some []
    | n :: ns' =>
        match at17 l (i + n), clip17_seq l i ns' with
        | Some a, Some r => Some (a :: r)
        | _, _ => None
        end
    end.

  (** index_sequence.hpp 20-22: [std::make_index_sequence]. *)
  Definition make_index_sequence14 (n : nat) : list nat := seq 0 n.

  (** typelist.hpp 160-163. *)
  Definition clip17 (l : list A) (i n : nat) : option (list A) :=
    clip17_seq l i (make_index_sequence14 n).
End Cpp17.

(** typelist.hpp 136-143.  An empty list would declare an array of size 0. *)
Definition max17 (l : list nat) : option nat :=
  match l with
  | [] => None
  | v0 :: _ => Some (fold_left (fun m v => if m <? v then v else m) l v0)
  end.

(** typelist.hpp 154-157: the fold expression [(0 + ... + Ts::value)]. *)
Definition sum17 (l : list nat) : nat := fold_left Nat.add l 0.

(** ** C++11 implementations: typelist.hpp 183-226 *)

(** typelist.hpp 184-191 *)
Fixpoint at11 {A : Type} (i : nat) (l : list A) : option A :=
  match l, i with
  | t :: _, 0 => Some t
  | _ :: ts, S i' => at11 i' ts
  | [], _ => None
  end.

(** typelist.hpp 194-199 *)
Fixpoint max11_from (most : nat) (l : list nat) : nat :=
  match l with
  | [] => most
  | t :: ts => max11_from (if most <? t then t else most) ts
  end.
(** typelist.hpp 194-199, on a list of at least one type. *)
Definition max11 (l : list nat) : option nat :=
  match l with
  | [] => None
  | most :: ts => Some (max11_from most ts)
  end.

(** typelist.hpp 202-207 *)
Fixpoint find11 {A : Type} (same : A -> A -> bool) (target : A) (i : nat) (l : list A)
    : option nat :=
  match l with
  | [] => None
  | t :: ts => if same target t then Some i else find11 same target (i + 1) ts
  end.

(** typelist.hpp 210-216, started from 0 (line 235) *)
Fixpoint sum11 (result : nat) (l : list nat) : nat :=
  match l with
  | [] => result
  | t :: ts => sum11 (result + t) ts
  end.

(** typelist.hpp 219-226 *)
Fixpoint clip11_take {A : Type} (n : nat) (l retval : list A) : option (list A) :=
  match n, l with
  | 0, _ => Some retval
  | S n', t :: ts => clip11_take n' ts (retval ++ [t])
  | S _, [] => None
  end.
(** typelist.hpp 219-226: the types before [I] are dropped, the next [N] are
    kept. *)
Fixpoint clip11 {A : Type} (i n : nat) (l : list A) : option (list A) :=
  match i, l with
  | 0, _ => clip11_take n l []
  | S i', _ :: ts => clip11 i' n ts
  | S _, [] => None
  end.

(** index_sequence.hpp 34-37 (before C++14) *)
Fixpoint make_index_sequence11 (i : nat) (is : list nat) : list nat :=
  match i with
  | 0 => is
  | S i' => make_index_sequence11 i' (i' :: is)
  end.

(** ** smallest.hpp 13-33

    Sizes in bytes of the candidate types.  [U(X) == X] is computed in
    [unsigned long long]. *)
Definition try_promote (T U : nat) (X : Z) : nat :=
  if (X mod 2 ^ (8 * Z.of_nat U) =? X)%Z then U else T.

(** smallest.hpp 27-33: [std::uint64_t], then [std::uint32_t],
    [std::uint16_t] and [std::uint8_t] are tried. *)
Definition smallest_unsigned (X : Z) : nat :=
  try_promote (try_promote (try_promote 8 4 X) 2 X) 1 X.

(** ** signature.hpp 100-128

    A signature: parameter types and return type ([None] = void). *)
Record signature : Type := mk_sig {
  sig_params : list ty;
  sig_ret : option ty
}.

(** signature.hpp 104-107: [sum<tlist_t<integral_constant<sizeof(Args)>...>>] *)
Definition parameters_size (s : signature) : nat := sum17 (map sizeof (sig_params s)).

(** signature.hpp 115-118 *)
Definition map_parameters_size (l : list signature) : list nat := map parameters_size l.

(** signature.hpp 123-128 *)
Definition return_type_size (s : signature) : nat :=
  match sig_ret s with
  | Some t => sizeof t
  | None => 0
  end.
