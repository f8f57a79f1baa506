(** The functions of serialization.hpp 69-93, 137-157, tuple.hpp, action.hpp 34-69,
    122-141, key.hpp 108-131, serialized_message.hpp and [dispatcher::get_index]
    (dispatcher.hpp 141-149), line by line, in the language of Templates.v.  No proofs
    in this file.

    Each definition gives the body of the instantiation for given types and a given
    format.  [UPD_FWD(x)] is [x].  A member function has its object, or the iterator
    it is bound to, as a parameter.  The free functions [get] and [set] (tuple.hpp
    199-216) only call the members. *)

From Coq Require Import List ZArith Bool Arith String.
From Verif Require Import Base CInt TypeLevel Serial TupleModel Rpc Templates.
Import ListNotations.
Open Scope string_scope.
Open Scope list_scope.
Open Scope nat_scope.

(** [for (auto &byte : t) body], where [byte] is [*__begin] (serialization.hpp 90, 155;
    action.hpp 39, 55). *)
Definition range_for (first last : expr) (body : stmt) : stmt :=
  Auto "__begin" first;;;
  Auto "__end" last;;;
  For (Different (Var "__begin") (Var "__end")) (Expr (PostIncrement "__begin")) body.

(** tuple.hpp 235, with the members of the view as local variables. *)
Definition view_src (it : expr) (size : nat) : stmt :=
  Auto "m_begin" it;;;
  Auto "m_end" it;;;
  Assign "m_end" (NextOf (Var "m_end") (Constant (Ok size))).

(** tuple.hpp 136-137, where [src] is [derived().src()]; serialization.hpp 112-114 with
    the body of the overload [read_as(it)] it calls. *)
Definition get_src (offset : res nat) (it : string) (read : stmt) : stmt :=
  Return (Call [("begin", Var "src"); ("offset", Constant offset)]
            (Return (Call [(it, NextOf (Var "begin") (Var "offset"))] read))).

(** tuple.hpp 149-150; serialization.hpp 177-179. *)
Definition set_src (offset : res nat) (x it : string) (write : stmt) : stmt :=
  Expr (Call [("value", Var "value"); ("begin", Var "src"); ("offset", Constant offset)]
          (Expr (Call [(x, Var "value"); (it, NextOf (Var "begin") (Var "offset"))] write))).

Section Format.
  Variable e : endianess.
  Variable m : signed_mode.

  (** serialization.hpp 59-68 (integers, see Source.v), 69-80 (arrays), 81-86 (user
      types; [view.invoke] is tuple.hpp 160-163, 182-185). *)
  Fixpoint read_as_src (t : ty) : stmt :=
    match t with
    | TArr t' n =>
        DeclareArray "retval" n;;;
        Auto "i" (Constant (Ok 0));;;
        For (Less (Var "i") (Constant (Ok n))) (Expr (PostIncrement "i"))
          (AssignElement "retval" (Var "i")
             (Call [("sequence", Plus (Var "sequence") (Times (Var "i") (Constant (Ok (sizeof t')))))]
                (read_as_src t')));;;
        Return (Var "retval")
    | TUser _ fs =>
        view_src (Var "sequence") (tuple_size fs);;;
        Return (Call [("src", Var "m_begin")]
          (Return (Pack
             ((fix gets (l : list ty) (i : nat) : list expr :=
                 match l with
                 | [] => []
                 | f :: l' =>
                     Call [("src", Var "src")] (get_src (element_offset fs i) "sequence" (read_as_src f))
                     :: gets l' (S i)
                 end) fs 0))))
    | _ => Return (ReadInteger e m t (Var "sequence"))
    end.

  (** serialization.hpp 127-136 (integers), 137-143 (arrays), 144-149 (user types,
      whose [serialize] sets the fields one after the other). *)
  Fixpoint write_as_src (t : ty) : stmt :=
    match t with
    | TArr t' n =>
        Auto "i" (Constant (Ok 0));;;
        For (Less (Var "i") (Constant (Ok (sizeof (TArr t' n) / sizeof t')))) (Expr (PostIncrement "i"))
          (Expr (Call [("x", Element n (Var "x") (Var "i"));
                       ("sequence", Plus (Var "sequence") (Times (Var "i") (Constant (Ok (sizeof t')))))]
                   (write_as_src t')))
    | TUser _ fs =>
        view_src (Var "sequence") (tuple_size fs);;;
        (fix sets (l : list ty) (i : nat) : stmt :=
           match l with
           | [] => Skip
           | f :: l' =>
               Expr (Call [("src", Var "m_begin"); ("value", Member (Var "x") i)]
                       (set_src (element_offset fs i) "x" "sequence" (write_as_src f)));;;
               sets l' (S i)
           end) fs 0
    | _ => WriteInteger e m t (Var "x") (Var "sequence")
    end.

  (** serialization.hpp 59-86 for a pointer, 87-93 for another iterator: the name of
      the parameter and the body. *)
  Definition read_it (k : iterator_kind) (t : ty) : string * stmt :=
    match k with
    | Pointer => ("sequence", read_as_src t)
    | Iterator =>
        ("it",
         DeclareBytes "buf" (sizeof t);;;
         range_for (Var "buf") (Plus (Var "buf") (Constant (Ok (sizeof t))))
           (AssignAt (Var "__begin") (Deref (PostIncrement "it")));;;
         Return (Call [("sequence", Var "buf")] (read_as_src t)))
    end.

  (** serialization.hpp 127-149 and 150-157 *)
  Definition write_it (k : iterator_kind) (t : ty) : string * string * stmt :=
    match k with
    | Pointer => ("x", "sequence", write_as_src t)
    | Iterator =>
        ("value", "it",
         DeclareBytes "buf" (sizeof t);;;
         Expr (Call [("x", Var "value"); ("sequence", Var "buf")] (write_as_src t));;;
         range_for (Var "buf") (Plus (Var "buf") (Constant (Ok (sizeof t))))
           (AssignAt (PostIncrement "it") (Deref (Var "__begin"))))
    end.

  (** tuple.hpp 131-138: [get<I>()] of a tuple or a view of the types [ts], where [src]
      is [derived().src()] *)
  Definition tuple_get_src (k : iterator_kind) (ts : list ty) (i : nat) (t : ty) : stmt :=
    let (it, read) := read_it k t in get_src (element_offset ts i) it read.

  (** tuple.hpp 144-151: [set<I>(value)] *)
  Definition tuple_set_src (k : iterator_kind) (ts : list ty) (i : nat) (t : ty) : stmt :=
    let '(x, it, write) := write_it k t in set_src (element_offset ts i) x it write.

  (** [set<Is>(args)...] at tuple.hpp 168-172, for the elements [l] from [i] on. *)
  Fixpoint sets_src (k : iterator_kind) (ts l : list ty) (i : nat) : stmt :=
    match l with
    | [] => Skip
    | t :: l' =>
        Expr (Call [("src", Var "src"); ("value", Member (Var "args") i)] (tuple_set_src k ts i t));;;
        sets_src k ts l' (S i)
    end.
  (** tuple.hpp 168-172: [lay(Is, args...)] *)
  Definition lay_src (k : iterator_kind) (ts : list ty) : stmt := sets_src k ts ts 0.

  (** [get<Is>()...] (tuple.hpp 177, 184), for the elements [l] from [i] on. *)
  Fixpoint gets_src (k : iterator_kind) (ts l : list ty) (i : nat) (it : expr) : list expr :=
    match l with
    | [] => []
    | t :: l' => Call [("src", it)] (tuple_get_src k ts i t) :: gets_src k ts l' (S i) it
    end.

  (** tuple.hpp 160-163, 182-185: [invoke(ftor)] *)
  Definition invoke_src (k : iterator_kind) (ts : list ty) : stmt :=
    Return (Functor (gets_src k ts ts 0 (Var "src"))).

  (** tuple.hpp 317 *)
  Definition construct_src (ts : list ty) : stmt :=
    Expr (Call [("src", Var "m_storage"); ("args", Var "args")] (lay_src Pointer ts)).
  (** tuple.hpp 313 *)
  Definition default_construct_src (ts : list ty) : stmt :=
    Expr (Call [("m_storage", Var "m_storage");
                ("args", Pack (map (fun t => Literal (default_val t)) ts))] (construct_src ts)).

  (** [tuple<E, S, Ts...> x;] and [tuple<E, S, Ts...> x{args...};] (also 418): the
      storage (398), then the constructor.  Without types (401-407) there is
      neither. *)
  Definition tuple_src (x : string) (ts : list ty) (args : option (list expr)) : stmt :=
    match ts with
    | [] => Skip
    | _ =>
        DeclareBytes x (tuple_size ts);;;
        match args with
        | None => Expr (Call [("m_storage", Var x)] (default_construct_src ts))
        | Some es => Expr (Call [("m_storage", Var x); ("args", Pack es)] (construct_src ts))
        end
    end.
  (** tuple.hpp 328-337, 354-357 and 401-407: [begin()], [end()] *)
  Definition begin_src (x : string) (ts : list ty) : expr :=
    match ts with [] => Nullptr | _ => Var x end.
  (** The same lines. *)
  Definition end_src (x : string) (ts : list ty) : expr :=
    match ts with [] => Nullptr | _ => Plus (Var x) (Constant (Ok (tuple_size ts))) end.

  (** [for (auto &byte : x) byte = src();] (action.hpp 55-56, 64-65, 124-125; key.hpp
      123-124; dispatcher.hpp 144-145) *)
  Definition read_loop_src (x : string) (ts : list ty) : stmt :=
    range_for (begin_src x ts) (end_src x ts) (AssignAt (Var "__begin") CallSrc).
  (** [for (auto byte : x) dest(byte);] (action.hpp 39-40, 139-140;
      serialized_message.hpp 34-35) *)
  Definition write_loop_src (x : string) (ts : list ty) : stmt :=
    range_for (begin_src x ts) (end_src x ts) (CallDest (Deref (Var "__begin"))).

  (** action.hpp 34-41 *)
  Definition insert_src (t : ty) : stmt :=
    tuple_src "output" [t] (Some [Var "value"]);;;
    write_loop_src "output" [t].

  (** action.hpp 53-59 and 62-69 *)
  Definition call_src (s : signature) : stmt :=
    tuple_src "input_args" (sig_params s) None;;;
    read_loop_src "input_args" (sig_params s);;;
    let invoke := Call [("src", begin_src "input_args" (sig_params s))] (invoke_src Pointer (sig_params s)) in
    match sig_ret s with
    | None => Expr invoke
    | Some t => Expr (Call [("value", invoke)] (insert_src t))
    end.

  (** action.hpp 122-128 and 133-141 *)
  Definition static_wrapper_src (s : signature) : stmt :=
    tuple_src "parameters_tuple" (sig_params s) None;;;
    read_loop_src "parameters_tuple" (sig_params s);;;
    let invoke :=
      Call [("src", begin_src "parameters_tuple" (sig_params s))] (invoke_src Pointer (sig_params s)) in
    match sig_ret s with
    | None => Expr invoke
    | Some t =>
        Auto "result" invoke;;;
        tuple_src "return_tuple" [t] (Some [Var "result"]);;;
        write_loop_src "return_tuple" [t]
    end.

  (** key.hpp 108-111; serialized_message.hpp 19, 31-36: [k(args...).write_to(dest)] *)
  Definition key_write_src (index_size index : nat) (params : list ty) : stmt :=
    let ts := TUns index_size :: params in
    tuple_src "content" ts
      (Some (Literal (VInt (Z.of_nat index))
             :: map (fun i => Member (Var "args") i) (seq 0 (List.length params))));;;
    write_loop_src "content" ts.

  (** key.hpp 121-131 *)
  Definition key_read_src (ret : option ty) : stmt :=
    match ret with
    | None => Skip
    | Some t =>
        tuple_src "retval" [t] None;;;
        read_loop_src "retval" [t];;;
        Return (Call [("src", begin_src "retval" [t])] (tuple_get_src Pointer [t] 0 t))
    end.

  (** dispatcher.hpp 141-149 *)
  Definition get_index_src (index_size : nat) : stmt :=
    let t := TUns index_size in
    tuple_src "index_tuple" [t] None;;;
    read_loop_src "index_tuple" [t];;;
    Return (Call [("src", begin_src "index_tuple" [t])] (tuple_get_src Pointer [t] 0 t)).
End Format.

Section Run.
  Variable p : platform.
  Variable sz : nat.
  Variable fuel : nat.
  Context {X : Type}.

  (** No getter in the functions of serialization.hpp and tuple.hpp
      101-178. *)
  Definition no_source : source X := fun _ => Fault TypeMismatch.
  (** The same for putters (tuple.hpp 101-178). *)
  Definition no_destination : destination X := fun _ _ => Fault TypeMismatch.
  (** The same for functors (tuple.hpp 101-178). *)
  Definition no_functor : list val -> X -> X * val := fun _ x => (x, VList []).

  (** A call with arguments, in a memory made of one array of bytes [mem], and what
      it returns (action.hpp 113, 141; key.hpp 110, 122; dispatcher.hpp 142). *)
  Definition run_body (src : source X) (dest : destination X) (ftor : list val -> X -> X * val) (body : stmt)
      (args : list (string * value)) (mem : list Z) (x : X) : res (list Z * X * value) :=
    '(st, v) <- back (mk_state [] [mem] x) (exec p sz fuel src dest ftor body (mk_state args [mem] x));;
    bs <- region 0 (st_memory st);;
    Ok (bs, st_world st, v).
End Run.
