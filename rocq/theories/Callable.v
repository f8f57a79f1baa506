(** Model of the types of callbacks, byte getters and byte putters:
    detail/type_traits/signature.hpp 22-98 and 130-143, require.hpp 73-79 and
    93-95, detail/function_reference.hpp 22-70, and the places where they are
    used (action.hpp, key.hpp 22-24, typelist.hpp 25-33, dispatcher.hpp
    155-187).  Whether a program compiles is a boolean.  No proofs in this
    file. *)

From Coq Require Import List ZArith Bool Arith.
From Verif Require Import Base CInt IntModel TypeLevel Serial TupleModel Convert.
Import ListNotations.
Open Scope nat_scope.

(** Before C++17 [noexcept] is not a part of the type of a function. *)
Inductive standard : Type := Cpp11 | Cpp17.

(** The type of a parameter.  A top-level [const] is not a part of the type of
    the function; a reference which is [volatile] is not modelled.
    [Args] of signature.hpp 24-71. *)
Inductive param : Type :=
| ByValue (t : ty)
| ByRef (t : ty)
| ByConstRef (t : ty)
| ByRvalueRef (t : ty).

(** [remove_cv_ref_t] (remove_cv_ref.hpp 8-10) of the type of a parameter. *)
Definition param_ty (q : param) : ty :=
  match q with ByValue t | ByRef t | ByConstRef t | ByRvalueRef t => t end.

(** The declaration of a function: return type ([None]: void; a function which
    returns a reference is not modelled), parameters, C ellipsis, [noexcept].
    [R] and [Args] of signature.hpp 24-71. *)
Record fn : Type := mk_fn {
  fn_ret : option ty;
  fn_params : list param;
  fn_ellipsis : bool;
  fn_noexcept : bool
}.

(** The [&] and [&&] of signature.hpp 56-71. *)
Inductive refq : Type := NoRef | LvalueRef | RvalueRef.

(** The qualifiers of a member function.
    signature.hpp 48-71. *)
Record quals : Type := mk_quals {
  q_const : bool;
  q_volatile : bool;
  q_ref : refq
}.

(** How an object is designated: [const], [volatile], lvalue.
    (The expressions called: tuple.hpp 184, function_reference.hpp 45.) *)
Record designation : Type := mk_designation {
  d_const : bool;
  d_volatile : bool;
  d_lvalue : bool
}.

(** C++ types.

    - [Functor f q]: a class with one accessible [operator()], which is not a
      template, declared as [f] with the qualifiers [q];
    - [Class resolve]: any other class (no [operator()], an overloaded or
      private one, a template, a conversion to a function pointer...);
      [resolve d args] is the return type of the call found by overload
      resolution for an object designated as [d] and rvalues of types [args],
      [None] if there is none.
    (The types [F] of signature.hpp 44-98.) *)
Inductive ctype : Type :=
| Object (t : ty)
| Function (f : fn)
| PointerTo (t : ctype)
| MemberPointer (f : fn) (q : quals)
| Functor (f : fn) (q : quals)
| Class (resolve : designation -> list ty -> option (option ty))
| Const (t : ctype)
| Volatile (t : ctype)
| Lref (t : ctype)
| Rref (t : ctype)
| NoSignature.

(** [std::remove_reference] (used by [std::decay], signature.hpp 81). *)
Definition remove_reference (t : ctype) : ctype :=
  match t with Lref u | Rref u => u | _ => t end.

(** [std::remove_cv] (used by [std::decay], signature.hpp 81). *)
Fixpoint remove_cv (t : ctype) : ctype :=
  match t with Const u | Volatile u => remove_cv u | _ => t end.

(** [std::decay].  Arrays, which are not callable, are left as they are.
    signature.hpp 81. *)
Definition decay (t : ctype) : ctype :=
  match remove_reference t with
  | Function f => PointerTo (Function f)
  | u => remove_cv u
  end.

(** A signature [R(Args...)] (signature.hpp 24-28). *)
Record sig : Type := mk_signature {
  s_ret : option ty;
  s_params : list param
}.

(** The specialisations match neither a C ellipsis nor [noexcept], when it is a
    part of the type.
    signature.hpp 46-71. *)
Definition plain (std : standard) (f : fn) : option sig :=
  if fn_ellipsis f then None
  else match std, fn_noexcept f with
       | Cpp17, true => None
       | _, _ => Some (mk_signature (fn_ret f) (fn_params f))
       end.

(** signature.hpp 48-71: the qualifiers for which there is a specialisation, in
    the order of the file. *)
Definition specialised : list quals :=
  [ mk_quals false false NoRef; mk_quals true false NoRef;
    mk_quals false true NoRef; mk_quals true true NoRef;
    mk_quals false false LvalueRef; mk_quals true false LvalueRef;
    mk_quals false true LvalueRef; mk_quals true true LvalueRef;
    mk_quals false false RvalueRef; mk_quals true false RvalueRef;
    mk_quals false true RvalueRef; mk_quals true true RvalueRef ].

(** Same qualifiers; to find the specialisation among signature.hpp 46-71. *)
Definition refq_eqb (a b : refq) : bool :=
  match a, b with
  | NoRef, NoRef | LvalueRef, LvalueRef | RvalueRef, RvalueRef => true
  | _, _ => false
  end.
(** The same (signature.hpp 46-71). *)
Definition quals_eqb (a b : quals) : bool :=
  Bool.eqb (q_const a) (q_const b) && Bool.eqb (q_volatile a) (q_volatile b)
  && refq_eqb (q_ref a) (q_ref b).

(** signature.hpp 38-42: [&F::operator()] is ill-formed unless it names one
    accessible function. *)
Definition try_get_call_member (t : ctype) : ctype :=
  match t with
  | Functor f q => MemberPointer f q
  | _ => NoSignature
  end.

(** signature.hpp 44-73: the partial specialisation which matches, else the
    primary template, which derives from another instance.  [None]: more than
    [depth] nested instances; [Some None]: [no_signature]. *)
Fixpoint examine_impl (std : standard) (depth : nat) (t : ctype) : option (option sig) :=
  match depth with
  | 0 => None
  | S depth' =>
      let primary := examine_impl std depth' (try_get_call_member t) in
      match t with
      | PointerTo (Function f) =>
          match plain std f with Some s => Some (Some s) | None => primary end
      | MemberPointer f q =>
          if existsb (quals_eqb q) specialised
          then match plain std f with Some s => Some (Some s) | None => primary end
          else primary
      | NoSignature => Some None
      | _ => primary
      end
  end.

(** signature.hpp 80-81.  The compilers allow more nested instances than these. *)
Definition instances : nat := 3.
(** signature.hpp 80-81. *)
Definition examine (std : standard) (t : ctype) : option (option sig) :=
  examine_impl std instances (decay t).

(** signature.hpp 91-98 *)
Definition is_invocable (std : standard) (t : ctype) : bool :=
  match examine std t with Some (Some _) => true | _ => false end.

(** ** Calls *)

(** The object an expression of a type designates, with its qualifiers
    (language rule; the expressions are those of tuple.hpp 184 and
    function_reference.hpp 45). *)
Fixpoint designate (t : ctype) (d : designation) : ctype * designation :=
  match t with
  | Const u => designate u (mk_designation true (d_volatile d) (d_lvalue d))
  | Volatile u => designate u (mk_designation (d_const d) true (d_lvalue d))
  | _ => (t, d)
  end.

(** A member function with the qualifiers [q] can be called on an object.
    (Language rule; the calls are those of tuple.hpp 184 and
    function_reference.hpp 45.) *)
Definition accepts (q : quals) (d : designation) : bool :=
  implb (d_const d) (q_const q) && implb (d_volatile d) (q_volatile q)
  && match q_ref q with
     | NoRef => true
     | LvalueRef => d_lvalue d || (q_const q && negb (q_volatile q))
     | RvalueRef => negb (d_lvalue d)
     end.

(** An rvalue of type [u] can be given for a parameter.
    (Language rule; tuple.hpp 184 gives rvalues.) *)
Definition binds (u : ty) (q : param) : bool :=
  match q with
  | ByValue t | ByConstRef t | ByRvalueRef t => converts u t
  | ByRef _ => false
  end.

(** The same for all the parameters (tuple.hpp 184). *)
Fixpoint all_bind (args : list ty) (qs : list param) (ellipsis : bool) : bool :=
  match args, qs with
  | [], [] => true
  | u :: args', q :: qs' => binds u q && all_bind args' qs' ellipsis
  | _ :: _, [] => ellipsis
  | [], _ :: _ => false
  end.

(** The type of [e(args...)] for an expression [e] of type [t] (not a
    reference), lvalue or not, and rvalues of types [args]; [None]: it does not
    compile.
    (Language rule; tuple.hpp 184, function_reference.hpp 45, signature.hpp
    130-143.) *)
Definition call_type (t : ctype) (lvalue : bool) (args : list ty) : option (option ty) :=
  match designate t (mk_designation false false lvalue) with
  | (Function f, _) | (PointerTo (Function f), _) =>
      if all_bind args (fn_params f) (fn_ellipsis f) then Some (fn_ret f) else None
  | (Functor f q, d) =>
      if accepts q d && all_bind args (fn_params f) (fn_ellipsis f)
      then Some (fn_ret f) else None
  | (Class resolve, d) => resolve d args
  | _ => None
  end.

(** [std::declval<F>()] is an lvalue when [F] is an lvalue reference; the same
    holds of [UPD_FWD] (upd.hpp 5). *)
Definition is_lvalue (t : ctype) : bool := match t with Lref _ => true | _ => false end.
(** [std::declval<t>()(args...)] (signature.hpp 130-143). *)
Definition call_of (t : ctype) (args : list ty) : option (option ty) :=
  call_type (remove_reference t) (is_lvalue t) args.

(** [std::is_convertible] for results.
    (signature.hpp 130-143.) *)
Definition result_converts (r r' : option ty) : bool :=
  match r, r' with
  | None, None => true
  | Some u, Some t => converts u t
  | _, _ => false
  end.

(** signature.hpp 130-143 *)
Definition has_signature (t : ctype) (ret : option ty) (args : list ty) : bool :=
  match call_of t args with
  | Some r => result_converts r ret
  | None => false
  end.

(** [byte_t] (type.hpp)
    (type.hpp 12.) *)
Definition byte_ty : ty := TUns 1.

(** require.hpp 73-79 *)
Definition input_invocable (t : ctype) : bool := has_signature t (Some byte_ty) [].
(** require.hpp 77-79. *)
Definition output_invocable (t : ctype) : bool := has_signature t None [byte_ty].

(** Same types; to compare signatures (function_reference.hpp 40-49,
    action.hpp 175-179). *)
Definition param_eqb (a b : param) : bool :=
  match a, b with
  | ByValue t, ByValue u | ByRef t, ByRef u | ByConstRef t, ByConstRef u
  | ByRvalueRef t, ByRvalueRef u => ty_eqb t u
  | _, _ => false
  end.
(** The same for lists of parameters.  (No counterpart in /repo: lines as
    for [param_eqb].) *)
Fixpoint params_eqb (l l' : list param) : bool :=
  match l, l' with
  | [], [] => true
  | a :: l1, b :: l2 => param_eqb a b && params_eqb l1 l2
  | _, _ => false
  end.
(** The same for results.  (Lines as for [param_eqb]: function_reference.hpp
    40-50.) *)
Definition ret_eqb (a b : option ty) : bool :=
  match a, b with
  | None, None => true
  | Some t, Some u => ty_eqb t u
  | _, _ => false
  end.
(** The same for signatures.  (Lines as for [param_eqb]:
    function_reference.hpp 40-49.) *)
Definition sig_eqb (a b : sig) : bool :=
  ret_eqb (s_ret a) (s_ret b) && params_eqb (s_params a) (s_params b).

(** An lvalue of type [t] is called with its own parameters, forwarded by
    [static_cast<Args &&>(args)] (function_reference.hpp 45): these always bind,
    so the object only has to accept the call. *)
Definition calls_itself (t : ctype) : bool :=
  match designate t (mk_designation false false true) with
  | (Function _, _) | (PointerTo (Function _), _) => true
  | (Functor _ q, d) => accepts q d
  | _ => false
  end.

(** function_reference.hpp 41-70: [make_function_reference(ftor)], for an lvalue
    of type [t], converted to [abstract_function<S> &&]: [signature_t<F>] has to
    be [S] (else [abstract_function<S>] is not a base), and the body of the
    virtual function is instantiated. *)
Definition function_reference (std : standard) (t : ctype) (s : sig) : bool :=
  match examine std t with
  | Some (Some s') => sig_eqb s' s && calls_itself t
  | _ => false
  end.

(** action.hpp 28 and 31 *)
Definition src_sig : sig := mk_signature (Some byte_ty) [].
(** [dest_t] (action.hpp 31): [void(byte_t)]. *)
Definition dest_sig : sig := mk_signature None [ByValue byte_ty].

(** action.hpp 175-179, 220-223 and dispatcher.hpp 119-127:
    [action(src, dest)], [dispatcher(src, dest)], with [src] of the deduced type
    [src] and [dest] of the deduced type [dest].  The dispatcher gives them, as
    lvalues, to [get_index] (dispatcher.hpp 141-148) and to the action. *)
Definition process_compiles (std : standard) (src dest : ctype) : bool :=
  input_invocable src && output_invocable dest
  && function_reference std (remove_reference src) src_sig
  && function_reference std (remove_reference dest) dest_sig
  && input_invocable (Lref (remove_reference src))
  && output_invocable (Lref (remove_reference dest)).

(** buffered_dispatcher.hpp 109-117: [read_from(src)]; [src()] is a call on an
    lvalue whose result is given to [put(byte_t)]. *)
Definition buffered_read_compiles (src : ctype) : bool :=
  input_invocable src && input_invocable (Lref (remove_reference src)).

(** buffered_dispatcher.hpp 165-169 and serialized_message.hpp 32-36:
    [write_to(dest)]; the result of [dest(byte)] is discarded.  [byte] is a
    variable in serialized_message.hpp: a parameter [byte_t &] would do there,
    but not for the requirement. *)
Definition write_compiles (dest : ctype) : bool :=
  output_invocable dest
  && match call_of (Lref (remove_reference dest)) [byte_ty] with Some _ => true | None => false end.

(** key.hpp 121-128: [key.read_from(src)]; [UPD_FWD(src)()] is assigned to a
    byte. *)
Definition key_read_compiles (src : ctype) : bool :=
  input_invocable src
  && match call_of src [] with
     | Some r => result_converts r (Some byte_ty)
     | None => false
     end.

(** ** Callbacks *)

(** action.hpp 158-160 with 62-69, 110 and tuple.hpp 161-162, 183-185:
    [action{ftor, ...}] for a deduced type [t]: the callback is called, as
    [UPD_FWD(ftor)], with values of the types of its parameters without
    reference.  The result is given to [insert] if it is not void, and is
    serialisable. *)
Definition action_compiles (std : standard) (t : ctype) : bool :=
  match examine std t with
  | Some (Some s) =>
      match call_of t (map param_ty (s_params s)) with
      | Some r => ret_eqb r (s_ret s)
      | None => false
      end
  | _ => false
  end.

(** typelist.hpp 29-33: [flist_t<unevaluated<F *, &x>...>] is instantiated, for
    a variable or function [x] of type [t] ([decltype( *&x)] is an lvalue
    reference). *)
Definition flist_compiles (std : standard) (t : ctype) : bool := is_invocable std (Lref t).

(** keyring.hpp 57-62 and key.hpp 22-24: [keyring.get(...)]:
    [std::remove_pointer<F *>] is given to [key]. *)
Definition key_compiles (std : standard) (t : ctype) : bool := is_invocable std t.

(** dispatcher.hpp 35-47, 59-63, 108 and action.hpp 122-141, 158-160, 214-217:
    the constructor of the dispatcher makes an action from the pointer [&x]. *)
Definition dispatcher_compiles (std : standard) (t : ctype) : bool :=
  action_compiles std (PointerTo t).

(** dispatcher.hpp 180-187: [replace<Index>(ftor)] for a deduced type [t], where
    [s] is the signature of the callback number [Index] of the keyring. *)
Definition replace_compiles (std : standard) (s : sig) (t : ctype) : bool :=
  match examine std t with
  | Some (Some s') => sig_eqb s s' && action_compiles std t
  | _ => false
  end.
