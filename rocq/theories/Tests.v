(** The assertions of the tests of the repository (test/*.cpp, test/py/test.py),
    computed on the model.

    Nothing is proved for all inputs here: these examples check the model
    itself.  The authors run these tests on their computers with success, so
    that a model which does not pass them is not a model of the code.  Each
    example cites the test it restates, with the values of the test, on a
    computer whose macros are defined or not ([pcs]).

    Left out: what is checked by compiling only (the template instantiation
    checks, the functors of [invoke] with cv and ref qualifiers, static.cpp
    12-16: see Callable.v, Elements.v, Functors.v and Iterators.v). *)

From Coq Require Import Ascii String List ZArith Bool Arith.
From Verif Require Import Base CInt IntModel TypeLevel Serial TupleModel Rpc Buffered Python PyNames Hosts Network.
Import ListNotations.
Open Scope nat_scope.

(** utility.hpp: [every_options]
    (test/utility.hpp 21-26.) *)
Definition every_options : list (endianess * signed_mode) :=
  flat_map (fun e => map (pair e) [SIGNED_MAGNITUDE; ONES_COMPLEMENT; TWOS_COMPLEMENT; OFFSET_BINARY]) [LITTLE; BIG].

(** The hosts on which the tests are checked: upd.hpp with and without
    its macros (test/utility.hpp has no choice of its own).  64 bits. *)
Definition pcs : list platform := [pc_native; pc_portable].

(** [char], [short], [int], [long] of a PC, which has signed [char]s
    (The types of test/key.cpp 13-18, test/keyring.cpp 13-19.) *)
Definition char : ty := TSig 1.
Definition short : ty := TSig 2.
Definition int : ty := TSig 4.
Definition long : ty := TSig 8.
Definition uint8 : ty := TUns 1.
Definition uint16 : ty := TUns 2.
Definition uint32 : ty := TUns 4.
Definition ints (l : list Z) : val := VList (map VInt l).

Ltac every := repeat constructor; vm_compute; repeat split.

(** ** unaligned_data.cpp *)

(** unaligned_data.cpp 5-14, 36-131: the bytes of the 16-bit integer [z] *)
Definition raw (p : platform) (e : endianess) (m : signed_mode) (z : Z) : res (list Z) :=
  mem <- write_at p e m Pointer (TSig 2) (VInt z) (repeat 85%Z 8) 2;;
  load_range mem 2 2.

Example raw_data : Forall (fun p =>
  raw p LITTLE SIGNED_MAGNITUDE 0xabc = Ok [0xbc; 0x0a]%Z
  /\ raw p LITTLE SIGNED_MAGNITUDE (-0xabc) = Ok [0xbc; 0x8a]%Z
  /\ raw p BIG SIGNED_MAGNITUDE 0xabc = Ok [0x0a; 0xbc]%Z
  /\ raw p BIG SIGNED_MAGNITUDE (-0xabc) = Ok [0x8a; 0xbc]%Z
  /\ raw p LITTLE ONES_COMPLEMENT 0xabc = Ok [0xbc; 0x0a]%Z
  /\ raw p LITTLE ONES_COMPLEMENT (-2) = Ok [0xfd; 0xff]%Z
  /\ raw p BIG ONES_COMPLEMENT 0xabc = Ok [0x0a; 0xbc]%Z
  /\ raw p BIG ONES_COMPLEMENT (-2) = Ok [0xff; 0xfd]%Z
  /\ raw p LITTLE TWOS_COMPLEMENT 0xabc = Ok [0xbc; 0x0a]%Z
  /\ raw p LITTLE TWOS_COMPLEMENT (-126) = Ok [0x82; 0xff]%Z
  /\ raw p BIG TWOS_COMPLEMENT 0xabc = Ok [0x0a; 0xbc]%Z
  /\ raw p BIG TWOS_COMPLEMENT (-126) = Ok [0xff; 0x82]%Z
  /\ raw p LITTLE OFFSET_BINARY 0xabc = Ok [0xbc; 0x8a]%Z
  /\ raw p LITTLE OFFSET_BINARY (-0xabc) = Ok [0x44; 0x75]%Z
  /\ raw p BIG OFFSET_BINARY 0xabc = Ok [0x8a; 0xbc]%Z
  /\ raw p BIG OFFSET_BINARY (-0xabc) = Ok [0x75; 0x44]%Z) pcs.
Proof. every. Qed.

(** unaligned_data.cpp 16-28 *)
Example unserializing : Forall (fun p => Forall (fun f =>
  (mem <- write_at p (fst f) (snd f) Pointer int (VInt (-0xabc)) (repeat 85%Z 16) 4;;
   read_at p (fst f) (snd f) Pointer int mem 4) = Ok (VInt (-0xabc))) every_options) pcs.
Proof. every. Qed.

(** ** tuple.cpp *)

(** tuple.cpp 22-32 *)
Example set_value : Forall (fun p => Forall (fun f =>
  let t := tuple_at (fst f) (snd f) [short; int; long] 0 in
  (st <- construct p (fst f) (snd f) [short; int; long] [VInt 0; VInt 0; VInt 0] (repeat 85%Z 14);;
   st' <- set p t 1 (VInt (-0xabc)) st;;
   get p t 1 st') = Ok (VInt (-0xabc))) every_options) pcs.
Proof. every. Qed.

(** tuple.cpp 34-45 *)
Definition sixteen : val :=
  ints [0x00; 0x11; 0x22; 0x33; 0x44; 0x55; 0x66; 0x77; 0x88; 0x99; 0xaa; 0xbb; 0xcc; 0xdd; 0xee; 0xff]%Z.
Example set_array : Forall (fun p => Forall (fun f =>
  let t := tuple_at (fst f) (snd f) [TArr int 16] 0 in
  (st <- default_construct p (fst f) (snd f) [TArr int 16] (repeat 85%Z 64);;
   st' <- set p t 0 sixteen st;;
   get p t 0 st') = Ok sixteen) every_options) pcs.
Proof. every. Qed.

(** tuple.cpp 47-73 *)
Example iterate : Forall (fun p => Forall (fun m =>
  let bytes e := (st <- construct p e m [uint8; uint16; uint32] [VInt 0xaa; VInt 0xbbcc; VInt 0xddeeff00] (repeat 85%Z 7);;
                  content (tuple_at e m [uint8; uint16; uint32] 0) st) in
  v_begin (tuple_at LITTLE m [uint8; uint16; uint32] 0) <> v_end (tuple_at LITTLE m [uint8; uint16; uint32] 0)
  /\ bytes LITTLE = Ok [0xaa; 0xcc; 0xbb; 0x00; 0xff; 0xee; 0xdd]%Z
  /\ bytes BIG = Ok [0xaa; 0xbb; 0xcc; 0xdd; 0xee; 0xff; 0x00]%Z)
  [SIGNED_MAGNITUDE; ONES_COMPLEMENT; TWOS_COMPLEMENT; OFFSET_BINARY]) pcs.
Proof. repeat constructor; vm_compute; try reflexivity; discriminate. Qed.

(** tuple.cpp 75-109 *)
Example access : Forall (fun p => Forall (fun m =>
  let byte e i := (st <- construct p e m [uint8; uint8; uint16] [VInt 0xaa; VInt 0xbb; VInt 0xccdd] (repeat 85%Z 4);;
                   byte_at (tuple_at e m [uint8; uint8; uint16] 0) i st) in
  map (byte LITTLE) [0; 1; 2; 3] = map Ok [0xaa; 0xbb; 0xdd; 0xcc]%Z
  /\ map (byte BIG) [0; 1; 2; 3] = map Ok [0xaa; 0xbb; 0xcc; 0xdd]%Z)
  [SIGNED_MAGNITUDE; ONES_COMPLEMENT; TWOS_COMPLEMENT; OFFSET_BINARY]) pcs.
Proof. every. Qed.

(** tuple.cpp 174-176 *)
Definition sum_of (args : list val) : val :=
  match args with [VInt a; VInt b; VInt c] => VInt (a + b + c) | _ => VInt 0 end.
Example invoke_function : Forall (fun p => Forall (fun f =>
  (st <- construct p (fst f) (snd f) [int; int; int] [VInt 12; VInt 34; VInt (-56)] (repeat 85%Z 12);;
   invoke p (tuple_at (fst f) (snd f) [int; int; int] 0) (fun args x => (x, sum_of args)) st tt)
  = Ok (tt, VInt (12 + 34 - 56))) every_options) pcs.
Proof. every. Qed.

(** tuple.cpp 179-190 *)
Example empty_tuple : tuple_size [] = 0.
Proof. reflexivity. Qed.

(** tuple.cpp 192-205: [auto [a, b, c, d] = t] calls [get<I>] (tuple.hpp
    431-449) *)
Example bind_names : Forall (fun p =>
  let ts := [int; TArr int 4; short; char] in
  let vs := [VInt 64; ints [0x00; 0x11; 0x22; 0x33]%Z; VInt 16; VInt 8] in
  (st <- construct p LITTLE TWOS_COMPLEMENT ts vs (repeat 85%Z 23);;
   get_each p (tuple_at LITTLE TWOS_COMPLEMENT ts 0) [0; 1; 2; 3] st) = Ok vs) pcs.
Proof. every. Qed.

(** tuple.cpp 207-219; [object_t] (5-8) has 6 bytes with its padding *)
Definition object_t : ty := TUser 6 [uint8; uint16; uint16].
Example user_structure : Forall (fun p =>
  let ts := [TSig 4; object_t; TSig 2] in
  let vs := [VInt 0xd; ints [0xa; 0xb; 0xc]%Z; VInt 0xe] in
  (st <- construct p LITTLE TWOS_COMPLEMENT ts vs (repeat 85%Z 11);;
   get_each p (tuple_at LITTLE TWOS_COMPLEMENT ts 0) [0; 1; 2] st) = Ok vs
  /\ tuple_size ts = 4 + 5 + 2) pcs.
Proof. every. Qed.

(** tuple.cpp 221-232 *)
Example subview : Forall (fun p =>
  let ts := [int; char; int; TBool] in
  let t := tuple_at LITTLE TWOS_COMPLEMENT ts 0 in
  let seq (bs : list Z) b n := firstn n (skipn b bs) in
  exists st, construct p LITTLE TWOS_COMPLEMENT ts [VInt 64; VInt 16; VInt 32; VInt 1] (repeat 85%Z 10) = Ok st
  /\ option_map (fun v => content v st) (sub_view t 0 2) = Some (Ok (seq st 0 5))
  /\ option_map (fun v => content v st) (sub_view t 1 2) = Some (Ok (seq st 4 5))
  /\ option_map (fun v => content v st) (sub_view t 2 2) = Some (Ok (seq st 5 5))) pcs.
Proof. repeat constructor; eexists; vm_compute; repeat split. Qed.

(** tuple.cpp 234-241 *)
Example std_array : Forall (fun p =>
  (st <- construct p LITTLE TWOS_COMPLEMENT [TArr int 4] [ints [0; 1; 2; 3]%Z] (repeat 85%Z 16);;
   get p (tuple_at LITTLE TWOS_COMPLEMENT [TArr int 4] 0) 0 st) = Ok (ints [0; 1; 2; 3]%Z)) pcs.
Proof. every. Qed.

(** ** tuple_view.cpp *)

(** tuple_view.cpp 5-16 *)
Definition bound : view := mk_view Pointer LITTLE TWOS_COMPLEMENT [short; int; long] 0.
Example view_reads : Forall (fun p =>
  (buf <- write_at p LITTLE TWOS_COMPLEMENT Pointer int (VInt (-0xabc)) (repeat 85%Z 14) 2;;
   get p bound 1 buf) = Ok (VInt (-0xabc))) pcs.
Proof. every. Qed.

(** tuple_view.cpp 18-29 *)
Example view_sets : Forall (fun p =>
  (buf <- set p bound 1 (VInt (-0xabc)) (repeat 85%Z 14);; get p bound 1 buf) = Ok (VInt (-0xabc))) pcs.
Proof. every. Qed.

(** tuple_view.cpp 31-84: the values compared are converted to 8 bits *)
Definition low_byte (v : res val) : res Z := match v with Ok (VInt z) => Ok (z mod 256)%Z | Ok _ => Fault TypeMismatch | Fault f => Fault f end.
Example forward_list : Forall (fun p =>
  let v := mk_view Iterator LITTLE TWOS_COMPLEMENT [uint8; uint32] 0 in
  low_byte (buf <- set p v 1 (VInt 0xabc) (repeat 85%Z 5);; get p v 1 buf) = Ok (0xabc mod 256)%Z) pcs.
Proof. every. Qed.

(** tuple_view.cpp 86-97: [lhs] at position 0, [rhs] at position 6 *)
Example assign_view : Forall (fun p =>
  let ts := [int; char; TBool] in
  let lhs := tuple_at LITTLE TWOS_COMPLEMENT ts 0 in
  let rhs := tuple_at LITTLE TWOS_COMPLEMENT ts 6 in
  (l <- default_construct p LITTLE TWOS_COMPLEMENT ts (repeat 85%Z 6);;
   r <- construct p LITTLE TWOS_COMPLEMENT ts [VInt 0xa; VInt 0xb; VInt 1] (repeat 85%Z 6);;
   match assign p Temporary (Tuple lhs) (View (mk_view Pointer LITTLE TWOS_COMPLEMENT ts 6)) (l ++ r) with
   | Some a => '(_, mem) <- a;; get_each p lhs [0; 1; 2] mem
   | None => Fault TypeMismatch
   end) = Ok [VInt 0xa; VInt 0xb; VInt 1]
  /\ v_begin rhs = v_end lhs) pcs.
Proof. every. Qed.

(** ** action.cpp *)

(** action.hpp 187: [[](byte_t) {}]. *)
Definition nowhere {X : Type} : destination X := fun _ x => Ok x.
(** Bytes put are appended to the second list, bytes got are taken from the
    first one.
    (The lambdas of test/action.cpp 25-26.) *)
Definition io : Type := (list Z * list Z).
(** The byte getter of test/action.cpp 25. *)
Definition io_source : source io := fun w => '(l, b) <- list_source (fst w);; Ok ((l, snd w), b).
(** The byte putter of test/action.cpp 26. *)
Definition io_destination : destination io := fun b w => Ok (fst w, snd w ++ [b]).

(** action.cpp 5-14: the world is [value] *)
Example serialize_argument : Forall (fun p =>
  run_input_only p (Storage (Some (mk_model LITTLE TWOS_COMPLEMENT
    (mk_func (mk_sig [uint8] None) (fun args _ => (args, VInt 0)))))) (fun x => Ok (x, 0xaf%Z)) []
  = Ok [VInt 0xaf]) pcs.
Proof. every. Qed.

(** action.cpp 16-29 *)
Definition identity (t : ty) : func io := mk_func (mk_sig [t] (Some t)) (fun args x => (x, nth 0 args (VInt 0))).
Example give_then_return : Forall (fun p =>
  (arg <- construct p LITTLE TWOS_COMPLEMENT [int] [VInt 0xabc] (repeat 85%Z 4);;
   w <- run p (Storage (Some (mk_model LITTLE TWOS_COMPLEMENT (identity int)))) io_source io_destination (arg, []);;
   get p (tuple_at LITTLE TWOS_COMPLEMENT [int] 0) 0 (snd w)) = Ok (VInt 0xabc)) pcs.
Proof. every. Qed.

(** action.cpp 31-65 *)
Definition sizes (s : signature) : res nat * res nat :=
  let a := Storage (Some (mk_model LITTLE TWOS_COMPLEMENT (mk_func (X := unit) s (fun _ x => (x, VInt 0))))) in
  (input_size a, output_size a).
Example action_sizes :
  sizes (mk_sig [int; TArr int 16; char] (Some int)) = (Ok (4 + 16 * 4 + 1), Ok 4)
  /\ sizes (mk_sig [] (Some int)) = (Ok 0, Ok 4)
  /\ sizes (mk_sig [int] (Some int)) = (Ok 4, Ok 4)
  /\ sizes (mk_sig [int] None) = (Ok 4, Ok 0).
Proof. every. Qed.

(** ** key.cpp *)

(** key.cpp 13-26: the names are 0 to 5 *)
Definition declared (params : list ty) (ret : option ty) : func unit := mk_func (mk_sig params ret) (fun _ x => (x, VInt 0)).
(** test/key.cpp 13-25. *)
Definition key_functions : list (nat * func unit) :=
  [(0, declared [int] (Some int)); (1, declared [int; TArr int 8; char] (Some int));
   (2, declared [int; short; char] (Some int)); (3, declared [] (Some int)); (4, declared [int] (Some int));
   (5, declared [object_t] (Some object_t))].
(** test/key.cpp 26, 56. *)
Definition key_keyring (m : signed_mode) : keyring unit := mk_keyring LITTLE m key_functions.
(** [kring.get(UPD_CTREF(f))] (test/key.cpp 41). *)
Definition key_of (X : Type) (kr : keyring X) (name : nat) : option key :=
  match find (fun nf => fst nf =? name) (kr_funcs kr) with
  | Some (_, f) => kr_get kr name f
  | None => None
  end.
Arguments key_of {X} kr name.

(** A test which uses a key (test/key.cpp 41, 57). *)
Definition with_key {A X : Type} (kr : keyring X) (name : nat) (f : key -> res A) : res A :=
  match key_of kr name with Some k => f k | None => Fault TypeMismatch end.

(** key.cpp 38-51: [invoke] on the key *)
Example serialize_arguments : Forall (fun p =>
  with_key (key_keyring TWOS_COMPLEMENT) 1 (fun k =>
    let ts := [TUns (k_index_size k); int; TArr int 8; char] in
    t <- construct p LITTLE TWOS_COMPLEMENT ts
           [VInt (Z.of_nat (k_index k)); VInt 64; ints [0x00; 0x11; 0x22; 0x33; 0x44; 0x55; 0x66; 0x77]%Z; VInt 16]
           (repeat 85%Z 38);;
    match sub_view (tuple_at LITTLE TWOS_COMPLEMENT ts 0) 1 3 with
    | None => Fault TypeMismatch
    | Some v =>
        args <- get_each p v [0; 1; 2] t;;
        dest <- message p k args;;
        bs <- content (tuple_at LITTLE TWOS_COMPLEMENT ts 0) t;;
        Ok (if list_eq_dec Z.eq_dec bs dest then length dest else 0)
    end) = Ok 38) pcs.
Proof. every. Qed.

(** key.cpp 53-67 *)
Example serialize_with_parameter : Forall (fun p =>
  with_key (key_keyring ONES_COMPLEMENT) 2 (fun k =>
    bs <- message p k [VInt 64; VInt 32; VInt 16];;
    get_each p (tuple_at LITTLE TWOS_COMPLEMENT [TUns (k_index_size k); int; short; char] 0) [0; 1; 2; 3] bs)
  = Ok [VInt 2; VInt 64; VInt 32; VInt 16]) pcs.
Proof. every. Qed.

(** key.cpp 69-79, 81-92; below: key.cpp 122-130 *)
Example unserialize_sequence : Forall (fun p => Forall (fun nm =>
  with_key (key_keyring (snd nm)) (fst nm) (fun k =>
    t <- construct p LITTLE TWOS_COMPLEMENT [int] [VInt 64] (repeat 85%Z 4);;
    '(l, v) <- key_read p k list_source t;;
    Ok (l, v)) = Ok ([], Some (VInt 64))) [(3, TWOS_COMPLEMENT); (2, ONES_COMPLEMENT)]) pcs.
Proof. every. Qed.

Example hook_callback : Forall (fun p =>
  with_key (key_keyring TWOS_COMPLEMENT) 3 (fun k =>
    t <- construct p LITTLE TWOS_COMPLEMENT [int] [VInt 64] (repeat 85%Z 4);;
    w <- run_input_only p (with_hook ANY k (mk_func (mk_sig [int] None) (fun args w => ((fst w, args), VInt 0))))
           (fun w => '(l, b) <- list_source (fst w);; Ok ((l, snd w), b)) (t, []);;
    Ok (snd w)) = Ok [VInt 64]) pcs.
Proof. every. Qed.

(** key.cpp 94-105, 107-120 *)
Example there_and_back : Forall (fun p => Forall (fun c =>
  with_key (key_keyring TWOS_COMPLEMENT) (fst c) (fun k =>
    bs <- message p k [snd c];;
    '(_, v) <- key_read p k list_source (skipn (k_index_size k) bs);;
    Ok v) = Ok (Some (snd c))) [(4, VInt 64); (5, ints [0xa; 0xb; 0xc]%Z)]) pcs.
Proof. every. Qed.

(** ** keyring.cpp *)

(** keyring.cpp 13-26: [function1], [function2], [function3] are 1, 2, 3 and
    [ftor1], [ftor2], [ftor3] are 11, 12, 13 *)
Definition ftor (n : nat) : nat * func unit :=
  (n, match n with
      | 1 => declared [int] None
      | 2 => declared [char] None
      | 3 => declared [long] (Some int)
      | 11 => declared [int] (Some int)
      | 12 => declared [long] (Some int)
      | _ => declared [int] None
      end).
(** [kring.get(...).index] (test/keyring.cpp 33-35). *)
Definition index_in (names : list nat) (name : nat) : option nat :=
  option_map k_index (key_of (mk_keyring LITTLE TWOS_COMPLEMENT (map ftor names)) name).

(** keyring.cpp 28-69 *)
Example indexes :
  index_in [1; 2; 3] 2 = Some 1
  /\ index_in [13; 1; 2; 11; 3; 12] 2 = Some 2
  /\ index_in [1; 11; 2; 12; 13; 3] 2 = Some 2
  /\ index_in [1; 11; 2; 12; 13; 3] 13 = Some 4.
Proof. every. Qed.

(** ** dispatcher.cpp *)

(** dispatcher.cpp 8-13 *)
Definition constant (z : Z) : func io := mk_func (mk_sig [] (Some int)) (fun _ x => (x, VInt z)).
(** test/dispatcher.cpp 13, 18. *)
Definition test_keyring : keyring io :=
  mk_keyring LITTLE TWOS_COMPLEMENT [(0, constant 8); (1, constant 16); (2, constant 32); (3, identity int)].

(** The response of [d] to the index 1, given as two bytes of which one is read
    (dispatcher.cpp 20, 33, 53, 67, 87) *)
Definition response (p : platform) (d : dispatcher io) : res val :=
  t <- construct p LITTLE TWOS_COMPLEMENT [uint16] [VInt 1] (repeat 85%Z 2);;
  '(w, _) <- dispatch p d io_source io_destination (t, []);;
  get p (tuple_at LITTLE TWOS_COMPLEMENT [int] 0) 0 (snd w).

(** dispatcher.cpp 15-27, 48-60 *)
Example call_action : Forall (fun p => Forall (fun ft =>
  response p (make_dispatcher test_keyring ft) = Ok (VInt 16)) [ANY; WEAK_REFERENCE]) pcs.
Proof. every. Qed.

(** dispatcher.cpp 29-46 *)
Example get_an_action : Forall (fun p =>
  (let d := make_dispatcher test_keyring ANY in
   t <- construct p LITTLE TWOS_COMPLEMENT [uint16] [VInt 1] (repeat 85%Z 2);;
   '(w, a) <- get_action p d io_source (t, []);;
   match a with
   | None => Fault NullDeref
   | Some i =>
       act <- action_at d i;;
       w' <- run p act io_source io_destination w;;
       get p (tuple_at LITTLE TWOS_COMPLEMENT [int] 0) 0 (snd w')
   end) = Ok (VInt 16)) pcs.
Proof. every. Qed.

(** dispatcher.cpp 62-80, 82-100 *)
Definition replaced (ft : action_features) : res (dispatcher io) :=
  match replace (make_dispatcher test_keyring ft) 1
          (match ft with ANY => ByFunctor (constant 32) | WEAK_REFERENCE => ByUnevaluated (constant 32) end) with
  | Some d => d
  | None => Fault TypeMismatch
  end.
Example replace_action : Forall (fun p => Forall (fun ft =>
  (d <- replaced ft;; response p d) = Ok (VInt 32)) [ANY; WEAK_REFERENCE]) pcs.
Proof. every. Qed.

(** ** static.cpp *)

(** static.cpp 17-22 *)
Example smallest :
  map smallest_unsigned [2 ^ 8 - 1; 2 ^ 8; 2 ^ 16 - 1; 2 ^ 16; 2 ^ 32 - 1; 2 ^ 32]%Z = [1; 2; 2; 4; 4; 8].
Proof. every. Qed.

(** ** buffered_dispatcher.cpp *)

(** What the tests act on: the bytes at [kbuf] and those before them which were
    read, what the callbacks recorded.
    (test/buffered_dispatcher.cpp 9-12, 39.) *)
Record bench : Type := mk_bench { be_in : list Z; be_log : list (list val) }.
(** [kbuf] as a byte getter (test/buffered_dispatcher.cpp 44). *)
Definition be_source : source bench := fun w => '(l, b) <- list_source (be_in w);; Ok (mk_bench l (be_log w), b).

(** buffered_dispatcher.cpp 9-21 *)
Definition check_64 : func bench :=
  mk_func (mk_sig [int] (Some int)) (fun args x => (mk_bench (be_in x) (args :: be_log x), VInt 0)).
(** test/buffered_dispatcher.cpp 14. *)
Definition identity64 : func bench :=
  mk_func (mk_sig [TSig 8] (Some (TSig 8))) (fun args x => (x, nth 0 args (VInt 0))).
(** test/buffered_dispatcher.cpp 16. *)
Definition void_procedure : func bench := mk_func (mk_sig [] None) (fun _ x => (x, VInt 0)).
(** test/buffered_dispatcher.cpp 18-21. *)
Definition kring : keyring bench :=
  mk_keyring LITTLE TWOS_COMPLEMENT [(0, check_64); (1, identity64); (2, void_procedure)].
(** test/buffered_dispatcher.cpp 40. *)
Definition k_check : key := mk_key 1 0 (f_sig check_64) LITTLE TWOS_COMPLEMENT.
(** test/buffered_dispatcher.cpp 55. *)
Definition k_identity : key := mk_key 1 1 (f_sig identity64) LITTLE TWOS_COMPLEMENT.
(** test/buffered_dispatcher.cpp 197. *)
Definition k_procedure : key := mk_key 1 2 (f_sig void_procedure) LITTLE TWOS_COMPLEMENT.
Example keys : map (key_of kring) [0; 1; 2] = map Some [k_check; k_identity; k_procedure].
Proof. every. Qed.

(** The dispatchers, made in memory which contains 85. *)
Definition made (X : Type) (b : option (buffered X)) : res (buffered X) :=
  match b with Some b => Ok b | None => Fault TypeMismatch end.
Arguments made {X} b.
(** test/buffered_dispatcher.cpp 41, 56, 237. *)
Definition single (ft : action_features) : res (buffered bench) := made (make_single kring ft (repeat 85%Z 64)).
(** test/buffered_dispatcher.cpp 73. *)
Definition double : res (buffered bench) := made (make_double kring ANY (repeat 85%Z 64) (repeat 85%Z 64)).

(** [k(...).write_to(kbuf)] then [dis.read_from(kbuf)]: the dispatcher, the
    records and the status
    (test/buffered_dispatcher.cpp 60-61.) *)
Definition reads (p : platform) (bs : list Z) (b : buffered bench)
    : res (buffered bench * list (list val) * packet_status) :=
  '(b', w, s) <- read_from p be_source b (mk_bench (bs ++ repeat 85%Z 16) []);;
  Ok (b', be_log w, s).

(** [dis.write_to(kbuf)]
    (test/buffered_dispatcher.cpp 62.) *)
Definition writes (b : buffered bench) : res (buffered bench * list Z) :=
  write_to (fun byte l => Ok (l ++ [byte])) b [].

(** The statuses of [put] on each byte
    (test/buffered_dispatcher.cpp 104, 164.) *)
Fixpoint puts (p : platform) (bs : list Z) (b : buffered bench) : res (buffered bench * list packet_status) :=
  match bs with
  | [] => Ok (b, [])
  | byte :: bs' =>
      '(b1, _, s) <- put p byte b (mk_bench [] []);;
      '(b2, ss) <- puts p bs' b1;;
      Ok (b2, s :: ss)
  end.

(** [n] times [TEST_ASSERT_TRUE(dis.is_loaded()); kbuf[i] = dis.get();]
    (test/buffered_dispatcher.cpp 173-176.) *)
Fixpoint gets (n : nat) (b : buffered bench) : res (buffered bench * list Z) :=
  match n with
  | 0 => Ok (b, [])
  | S n' =>
      if is_loaded b then
        '(b1, byte) <- get_byte b;;
        '(b2, bs) <- gets n' b1;;
        Ok (b2, byte :: bs)
      else Fault NoInput
  end.

(** buffered_dispatcher.cpp 35-48 *)
Example load_an_action : Forall (fun p =>
  (bs <- message p k_check [VInt 64];;
   b <- single ANY;;
   '(b', log, s) <- reads p bs b;;
   Ok (log, s, is_loaded b')) = Ok ([[VInt 64]], RESOLVED_PACKET, true)) pcs.
Proof. every. Qed.

(** buffered_dispatcher.cpp 50-65, 67-83, 231-246: [result] is an [int], whose 4
    bytes are followed by what the 4 last bytes of the response are written
    over: the test writes out of bounds.  Only the low bytes are read. *)
Definition low_int (bs : list Z) (p : platform) : res val := get p (tuple_at LITTLE TWOS_COMPLEMENT [int] 0) 0 bs.
Example load_and_write : Forall (fun p => Forall (fun mk =>
  (bs <- message p k_identity [VInt 64];;
   b <- mk;;
   '(b', _, s) <- reads p bs b;;
   '(_, out) <- writes b';;
   v <- low_int out p;;
   Ok (s, v)) = Ok (RESOLVED_PACKET, VInt 64)) [single ANY; double; single WEAK_REFERENCE]) pcs.
Proof. every. Qed.

(** buffered_dispatcher.cpp 58, 75-76, 93-94, 239 *)
Example buffer_sizes :
  (b <- single ANY;; Ok (length (ibuf (b_bufs b)))) = Ok (8 + 1)
  /\ (b <- single WEAK_REFERENCE;; Ok (length (ibuf (b_bufs b)))) = Ok (8 + 1)
  /\ (b <- double;; Ok (length (ibuf (b_bufs b)), length (obuf (b_bufs b)))) = Ok (8 + 1, 8).
Proof. every. Qed.

(** buffered_dispatcher.cpp 85-115 *)
Example while_already_loaded : Forall (fun p =>
  (bs <- message p k_identity [VInt 64];;
   b <- double;;
   '(b1, _, s) <- reads p bs b;;
   bs' <- message p k_identity [VInt 32];;
   '(b2, _) <- puts p (firstn 1 bs') b1;;
   '(b3, out) <- writes b2;;
   '(b4, _) <- puts p (skipn 1 bs') b3;;
   '(_, out') <- writes b4;;
   '(_, v) <- key_read p k_identity list_source out;;
   '(_, v') <- key_read p k_identity list_source out';;
   Ok (s, is_loaded b1, is_loaded b3, v, v'))
  = Ok (RESOLVED_PACKET, true, false, Some (VInt 64), Some (VInt 32))) pcs.
Proof. every. Qed.

(** buffered_dispatcher.cpp 117-132 *)
Definition replacement_32 : func bench :=
  mk_func (mk_sig [TSig 8] (Some (TSig 8))) (fun args x => (mk_bench (be_in x) (args :: be_log x), VInt 32)).
Example replace_an_action : Forall (fun p =>
  (b <- single ANY;;
   b1 <- match replace_buffered b 1 (ByFunctor replacement_32) with Some b => b | None => Fault TypeMismatch end;;
   bs <- message p k_identity [VInt 64];;
   '(b2, log, s) <- reads p bs b1;;
   '(_, out) <- writes b2;;
   '(_, v) <- key_read p k_identity list_source out;;
   Ok (log, s, v)) = Ok ([[VInt 64]], RESOLVED_PACKET, Some (VInt 32))) pcs.
Proof. every. Qed.

(** buffered_dispatcher.cpp 134-152 *)
Example invalid_index : Forall (fun p =>
  (b <- single ANY;;
   bs <- message p k_identity [VInt 64];;
   '(b1, _, s1) <- reads p (0xff%Z :: skipn 1 bs) b;;
   '(b2, _, s2) <- reads p bs b1;;
   '(_, out) <- writes b2;;
   '(_, v) <- key_read p k_identity list_source out;;
   Ok (s1, is_loaded b1, s2, is_loaded b2, v))
  = Ok (DROPPED_PACKET, false, RESOLVED_PACKET, true, Some (VInt 64))) pcs.
Proof. every. Qed.

(** buffered_dispatcher.cpp 154-190 *)
Example move_dispatcher_test : Forall (fun p =>
  (dis1 <- single ANY;;
   bs <- message p k_identity [VInt 64];;
   '(dis1, s1) <- puts p (firstn 4 bs) dis1;;
   let dis2 := fst (move_buffered dis1) in
   '(dis2, s2) <- puts p (firstn 4 (skipn 4 bs)) dis2;;
   '(dis2, s3) <- puts p (skipn 8 bs) dis2;;
   '(dis2, out1) <- gets 4 dis2;;
   let dis1 := fst (move_buffered dis2) in
   '(dis1, out2) <- gets 4 dis1;;
   '(_, v) <- key_read p k_identity list_source (out1 ++ out2);;
   Ok (s1, s2, s3, is_loaded dis1, v))
  = Ok (repeat LOADING_PACKET 4, repeat LOADING_PACKET 4, [RESOLVED_PACKET], false, Some (VInt 64))) pcs.
Proof. every. Qed.

(** buffered_dispatcher.cpp 192-206 *)
Definition flag : func bench := mk_func (mk_sig [] None) (fun _ x => (mk_bench (be_in x) ([VInt 1] :: be_log x), VInt 0)).
Example replace_void_procedure : Forall (fun p =>
  (b <- single ANY;;
   b1 <- match replace_buffered b 2 (ByFunctor flag) with Some b => b | None => Fault TypeMismatch end;;
   bs <- message p k_procedure [];;
   '(b2, log, s) <- reads p bs b1;;
   '(_, out) <- writes b2;;
   Ok (s, out, log)) = Ok (RESOLVED_PACKET, [], [[VInt 1]])) pcs.
Proof. every. Qed.

(** buffered_dispatcher.cpp 208-229 *)
Example one_by_one : Forall (fun p =>
  (b <- single ANY;;
   bs <- message p k_identity [VInt 64];;
   '(b1, ss) <- puts p bs b;;
   '(b2, out) <- gets 8 b1;;
   '(_, v) <- key_read p k_identity list_source out;;
   Ok (ss, is_loaded b2, v)) = Ok (repeat LOADING_PACKET 8 ++ [RESOLVED_PACKET], false, Some (VInt 64))) pcs.
Proof. every. Qed.

(** buffered_dispatcher.cpp 23-29, 248-272: [reply_hook] is the hook of line
    256 *)
Definition hook : func (list Z * list val) :=
  mk_func (mk_sig [TSig 8] None) (fun args w => ((fst w, args), VInt 0)).
(** [std::begin(payload)] as a byte getter (test/buffered_dispatcher.cpp
    25). *)
Definition pair_source : source (list Z * list val) := fun w => '(l, b) <- list_source (fst w);; Ok ((l, snd w), b).
(** test/buffered_dispatcher.cpp 25-26, with the hook of 257. *)
Definition on_reply (p : platform) : func bench :=
  mk_func (mk_sig [TArr (TUns 1) 16] None) (fun args x =>
    match args with
    | [VList payload] =>
        let bytes := map (fun v => match v with VInt z => z | VList _ => 0%Z end) payload in
        match run_input_only p (with_hook ANY k_identity hook) pair_source (bytes, []) with
        | Ok w => (mk_bench (be_in x) (snd w :: be_log x), VInt 0)
        | Fault _ => (x, VInt 0)
        end
    | _ => (x, VInt 0)
    end).
(** test/buffered_dispatcher.cpp 28-29. *)
Definition reply_kring (p : platform) : keyring bench :=
  mk_keyring LITTLE TWOS_COMPLEMENT [(0, on_reply p); (1, on_reply p)].

(** test/buffered_dispatcher.cpp 259-264. *)
Definition replies (p : platform) (name : nat) (z : Z) (b reply_dis : buffered bench)
    : res (buffered bench * buffered bench * bool * list (list val)) :=
  bs <- message p k_identity [VInt z];;
  '(b1, _, _) <- reads p bs b;;
  with_key (reply_kring p) name (fun k =>
    match reply p (fun byte l => Ok (l ++ [byte])) k (repeat 85%Z 16)
            (mk_buffered (make_dispatcher (mk_keyring LITTLE TWOS_COMPLEMENT []) ANY)
               (b_is_index_loaded b1) (b_load_count b1) (b_ibuf_next b1) (b_obuf_next b1) (b_obuf_bottom b1)
               (b_bufs b1)) [] with
    | Some r =>
        '(b2, kbuf, sent) <- r;;
        '(reply_dis', log, _) <- reads p kbuf reply_dis;;
        Ok (mk_buffered (b_dispatcher b1) (b_is_index_loaded b2) (b_load_count b2) (b_ibuf_next b2)
              (b_obuf_next b2) (b_obuf_bottom b2) (b_bufs b2), reply_dis', sent, log)
    | None => Fault TypeMismatch
    end).

Example reply_test : Forall (fun p =>
  (b <- single ANY;;
   r <- made (make_single (reply_kring p) ANY (repeat 85%Z 64));;
   '(b1, r1, sent1, log1) <- replies p 0 0xafbe b r;;
   '(b2, r2, sent2, log2) <- replies p 1 0xcddc b1 r1;;
   Ok (sent1, log1, sent2, log2)) = Ok (true, [[VInt 0xafbe]], true, [[VInt 0xcddc]])) pcs.
Proof. every. Qed.

(** buffered_dispatcher.cpp 274-284: in place, the bytes read and written are at
    the same place (see also C47) *)
Example parenthesis_operator : Forall (fun p =>
  (b <- single ANY;;
   bs <- message p k_identity [VInt 64];;
   '(b1, w, s) <- process p be_source (fun byte w => Ok (mk_bench (be_in w) ([VInt byte] :: be_log w))) b
                    (mk_bench bs []);;
   '(_, v) <- key_read p k_identity list_source
                (rev (map (fun l => match l with [VInt z] => z | _ => 0%Z end) (be_log w)));;
   Ok (s, v)) = Ok (RESOLVED_PACKET, Some (VInt 64))) pcs.
Proof. every. Qed.

(** ** test.py and module.cpp *)

(** module.cpp 6-23: [f1] to [f7] *)
Definition py_keyring : keyring unit :=
  mk_keyring LITTLE TWOS_COMPLEMENT
    [(1, declared [] (Some uint8)); (2, declared [uint8] None); (3, declared [] None); (4, declared [uint8] (Some uint8));
     (5, declared [uint8] None); (6, declared [uint8] None); (7, declared [TArr int 16; TArr short 32] None)].
(** [f.encode(...)] (test/py/test.py 17-22). *)
Definition encode (p : platform) (name : nat) (args : list pyval) : pyres pyval :=
  match key_of py_keyring name with Some k => py_encode p k args (repeat 85%Z 8) | None => Undefined TypeMismatch end.
(** [f.decode(...)] (test/py/test.py 24-29). *)
Definition decode (p : platform) (name : nat) (bs : list Z) : pyres pyval :=
  match key_of py_keyring name with Some k => py_decode p k (PyBytes bs) | None => Undefined TypeMismatch end.

(** test.py 16-29 *)
Example encode_test : Forall (fun p =>
  encode p 1 [] = Return (PyBytes [0x00]%Z)
  /\ encode p 2 [PyInt 0x10] = Return (PyBytes [0x01; 0x10]%Z)
  /\ encode p 3 [] = Return (PyBytes [0x02]%Z)
  /\ encode p 4 [PyInt 0x20] = Return (PyBytes [0x03; 0x20]%Z)
  /\ encode p 5 [PyInt 0x30] = Return (PyBytes [0x04; 0x30]%Z)
  /\ encode p 6 [PyInt 0x40] = Return (PyBytes [0x05; 0x40]%Z)
  /\ decode p 1 [0xee]%Z = Return (PyInt 0xee)
  /\ decode p 2 [] = Return PyNone
  /\ decode p 3 [] = Return PyNone
  /\ decode p 4 [0xff]%Z = Return (PyInt 0xff)
  /\ decode p 5 [] = Return PyNone
  /\ decode p 6 [] = Return PyNone) pcs.
Proof. every. Qed.

(** test.py 32-43, 92-103: [await] is a function call *)
Definition double_request (payload : pyval) (s : unit) : pyres (unit * pyval) :=
  match payload with
  | PyBytes (_ :: x :: _) => Return (s, PyBytes [2 * x]%Z)
  | _ => Return (s, PyBytes [])
  end.
(** A client which returns an integer (client.py 11). *)
Definition other_request (n : Z) (payload : pyval) (s : unit) : pyres (unit * pyval) := Return (s, PyInt n).
(** test/py/test.py 42-43. *)
Definition client_call (p : platform) (request : pyval -> unit -> pyres (unit * pyval)) (z : Z) : pyres (unit * pyval) :=
  match key_of py_keyring 4 with
  | Some k => py_call p request k [PyInt z] (repeat 85%Z 8) tt
  | None => Undefined TypeMismatch
  end.
Example client_test : Forall (fun p =>
  client_call p double_request 16 = Return (tt, PyInt 32)
  /\ client_call p (other_request 0x9c) 0 = Return (tt, PyInt 0x9c)) pcs.
Proof. every. Qed.

(** module.cpp 19-21, 24: [g1], [g2], [g3] *)
Definition g1 : func bench := mk_func (mk_sig [] (Some uint16)) (fun _ x => (x, VInt 0xff)).
(** test/py/module.cpp 20. *)
Definition g2 : func bench :=
  mk_func (mk_sig [uint16] (Some uint16))
    (fun args x => (x, VInt (match args with [VInt z] => (2 * z) mod 2 ^ 16 | _ => 0 end)%Z)).
(** test/py/module.cpp 21. *)
Definition g3 : func bench := mk_func (mk_sig [uint16] None) (fun _ x => (x, VInt 0)).
(** test/py/module.cpp 24. *)
Definition dispatcher_keyring : keyring bench := mk_keyring LITTLE TWOS_COMPLEMENT [(1, g1); (2, g2); (3, g3)].
(** [Dispatcher()] (test/py/test.py 46). *)
Definition new_dispatcher : res (buffered bench) := made (py_dispatcher dispatcher_keyring (repeat 85%Z 8) (repeat 85%Z 8)).

(** test.py 45-58: three times [read_from] then [write_to] *)
Fixpoint serve (p : platform) (n : nat) (b : buffered bench) (ibuf obuf : list Z) : res (list Z * list Z) :=
  match n with
  | 0 => Ok (ibuf, obuf)
  | S n' =>
      '(b1, w, _) <- read_from p be_source b (mk_bench ibuf []);;
      '(b2, out) <- writes b1;;
      serve p n' b2 (be_in w) (obuf ++ out)
  end.
Example read_from_and_write_to : Forall (fun p =>
  (b <- new_dispatcher;;
   serve p 3 b [0x00; 0x01; 0x10; 0x20; 0x02; 0x67; 0x89]%Z []) = Ok ([], [0xff; 0x00; 0x20; 0x40]%Z)) pcs.
Proof. every. Qed.

(** test.py 60-73: a number of 14 bits *)
Example replace_with_pyfunction : Forall (fun p =>
  (b <- new_dispatcher;;
   with_key dispatcher_keyring 2 (fun k =>
     b1 <- py_replace b k (fun args x => (x, match args with [PyInt z] => PyInt (3 * z) | _ => PyNone end));;
     serve p 1 b1 [0x01; 0x34; 0x12]%Z [])) = Ok ([], [0x9c; 0x36]%Z)) pcs.
Proof. every. Qed.

(** test.py 76-89: a number of 15 bits *)
Example fill_manually : Forall (fun p =>
  (b <- new_dispatcher;;
   '(b1, ss) <- puts p [0x01; 0x34; 0x52]%Z b;;
   '(b2, out) <- gets 2 b1;;
   Ok (ss, out, is_loaded b2))
  = Ok ([LOADING_PACKET; LOADING_PACKET; RESOLVED_PACKET], [0x68; 0xa4]%Z, false)) pcs.
Proof. every. Qed.

(** test.py 106-109: the name of [f7], whose parameters are templates *)
Example demangle_templated :
  demangle (txt "upd::unevaluated<void (*)(std::array<int, 16ul>, std::array<short, 32ul>), &(f7(std::array<int, 16ul>, std::array<short, 32ul>))>")
  = Some (txt "f7").
Proof. vm_compute. reflexivity. Qed.

(** test.py 112-113 *)
Example invalid_byte : Forall (fun p =>
  (b <- new_dispatcher;; '(_, ss) <- puts p [0xff]%Z b;; Ok ss) = Ok [DROPPED_PACKET]) pcs.
Proof. every. Qed.
