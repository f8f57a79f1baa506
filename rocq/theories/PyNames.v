(** Model of the generation of the Python modules: the names of the keys
    (python.hpp 34-68) and the classes they are exposed with (python.hpp 71-125,
    160-177).  No proofs in this file. *)

From Coq Require Import Ascii String List ZArith Bool Arith.
From Verif Require Import Base Serial TypeLevel TupleModel SpecRpc Rpc.
Import ListNotations.
Open Scope nat_scope.

Definition text : Type := list ascii.
(** Text constants (python.hpp 34, 50). *)
Definition txt (s : string) : text := list_ascii_of_string s.

(** ** Regular expressions

    The part of the ECMAScript grammar of [std::regex] which is used in
    python.hpp 50: single characters, [x*] and [x+] for a single character [x],
    [r?], concatenation, groups. *)
Inductive regex : Type :=
| One (ok : ascii -> bool)
| Many (ok : ascii -> bool)
| Maybe (r : regex)
| Then (r1 r2 : regex)
| Group (n : nat) (r : regex).

(** [match] (python.hpp 51-53). *)
Definition groups : Type := list (nat * text).

(** The text of a group; the last time it matched.
    [match[n]] (python.hpp 53). *)
Fixpoint group (n : nat) (g : groups) : option text :=
  match g with
  | [] => None
  | (n', s) :: g' => if n =? n' then Some s else group n g'
  end.

(** Matching with backtracking, in the order required by ECMAScript: [x*] and
    [r?] take as much as they can first.  [k] is what comes after.
    (python.hpp 52.) *)
Definition continuation : Type := text -> groups -> option groups.

(** [x*] (python.hpp 50, [.*] and [\w+]). *)
Fixpoint many (ok : ascii -> bool) (k : continuation) (s : text) (g : groups) : option groups :=
  match s with
  | [] => k [] g
  | c :: s' =>
      if ok c then
        match many ok k s' g with
        | Some r => Some r
        | None => k s g
        end
      else k s g
  end.

(** Matching of a regular expression (python.hpp 52). *)
Fixpoint run_regex (r : regex) (k : continuation) (s : text) (g : groups) : option groups :=
  match r with
  | One ok =>
      match s with
      | c :: s' => if ok c then k s' g else None
      | [] => None
      end
  | Many ok => many ok k s g
  | Maybe r1 =>
      match run_regex r1 k s g with
      | Some x => Some x
      | None => k s g
      end
  | Then r1 r2 => run_regex r1 (run_regex r2 k) s g
  | Group n r1 =>
      run_regex r1 (fun s' g' => k s' ((n, firstn (length s - length s') s) :: g')) s g
  end.

(** [std::regex_match]: the whole text has to match.
    (python.hpp 52.) *)
Definition regex_match (r : regex) (s : text) : option groups :=
  run_regex r (fun s' g => match s' with [] => Some g | _ :: _ => None end) s [].

(** A given character, [.], [\w] (in the classic locale) and [\s].
    (python.hpp 50.) *)
Definition this (c : ascii) : ascii -> bool := Ascii.eqb c.
(** [.] (python.hpp 50). *)
Definition dot (c : ascii) : bool := negb (Ascii.eqb c "010" || Ascii.eqb c "013").
(** A range of characters, for [\w] (python.hpp 50). *)
Definition between (lo c hi : ascii) : bool :=
  (nat_of_ascii lo <=? nat_of_ascii c) && (nat_of_ascii c <=? nat_of_ascii hi).
(** [\w] (python.hpp 50). *)
Definition word (c : ascii) : bool :=
  between "a" c "z" || between "A" c "Z" || between "0" c "9" || Ascii.eqb c "_".
(** [\s] (python.hpp 50). *)
Definition space (c : ascii) : bool := Ascii.eqb c " " || between "009" c "013".

(** A sequence of characters (python.hpp 50, [upd::unevaluated<]). *)
Fixpoint literal (s : text) (r : regex) : regex :=
  match s with
  | [] => r
  | c :: s' => Then (One (this c)) (literal s' r)
  end.

(** python.hpp 50: [upd::unevaluated<.*,\s\&\(?(\w+)(\(.*\))?\)?>$].  [$] adds
    nothing to [regex_match]. *)
Definition callback_name_re : regex :=
  literal (txt "upd::unevaluated<")
    (Then (Many dot)
    (Then (One (this ","))
    (Then (One space)
    (Then (One (this "&"))
    (Then (Maybe (One (this "(")))
    (Then (Group 1 (Then (One word) (Many word)))
    (Then (Maybe (Group 2 (Then (One (this "(")) (Then (Many dot) (One (this ")"))))))
    (Then (Maybe (One (this ")")))
          (One (this ">")))))))))).

(** python.hpp 49-57, where [name] is what [__cxa_demangle] returned.  [None]:
    [std::invalid_argument] is thrown.  When the text matches, [match.size()] is
    always 3. *)
Definition demangle (name : text) : option text :=
  match regex_match callback_name_re name with
  | Some g => group 1 g
  | None => None
  end.

(** ** What [__cxa_demangle] returns (not a part of the library)

    How the demangler of GCC writes the address of a callback in a template
    argument:

    - a function of the global namespace, with the types of its parameters;
    - a variable (functor, lambda) of the global namespace;
    - a function or variable of a namespace or class, without its parameters;
    - an instance of a function template, with its return type, its template
      arguments and the types of its parameters.
    (python.hpp 40, 48-49.) *)
Inductive reference : Type :=
| FunctionRef (name params : text)
| VariableRef (name : text)
| ScopedRef (scope name : text)
| TemplateRef (ret name targs params : text).

(** The text of a reference (python.hpp 40, 48-49). *)
Definition render_reference (r : reference) : text :=
  match r with
  | FunctionRef name params => txt "&(" ++ name ++ txt "(" ++ params ++ txt "))"
  | VariableRef name => txt "&" ++ name
  | ScopedRef scope name => txt "&" ++ scope ++ txt "::" ++ name
  | TemplateRef ret name targs params =>
      txt "&(" ++ ret ++ txt " " ++ name ++ txt "<" ++ targs ++ txt ">(" ++ params ++ txt "))"
  end.

(** The type of the callback as it is written, and its address.
    (unevaluated.hpp 18-21.) *)
Record symbol : Type := mk_symbol {
  sy_type : text;
  sy_ref : reference
}.

(** [unevaluated<F *, &x>] (unevaluated.hpp 18-21) *)
Definition render (s : symbol) : text :=
  txt "upd::unevaluated<" ++ sy_type s ++ txt ", " ++ render_reference (sy_ref s) ++ txt ">".

(** ** Modules *)

(** The attributes the library gives to a module.
    (python.hpp 76, 105, 165.) *)
Inductive attribute : Type :=
| KeyClass (k : key)
| Key (k : key)
| DispatcherClass (fs : list nat) (e : endianess) (m : signed_mode).

(** The attributes of the module and the C++ types registered by pybind11 so
    far: keys and dispatchers.  A key type is [key<Index_T, I, R(Args...), E, S>]
    (key.hpp 65-72), a dispatcher type is that of the keyring it is made from: the
    callbacks and the format.  Two parameters which differ by [const] and
    references are not distinguished.  The attributes which every module has
    ([__name__]...) are left out. *)
Record pymodule : Type := mk_pymodule {
  pm_attributes : list (text * attribute);
  pm_types : list attribute
}.

(** Comparison of names (pybind11, called at python.hpp 76, 105, 165). *)
Definition text_dec : forall a b : text, {a = b} + {a <> b} := list_eq_dec ascii_dec.

(** The attribute of a module with a given name (the imports of
    test/py/test.py 13). *)
Fixpoint getattr (a : list (text * attribute)) (name : text) : option attribute :=
  match a with
  | [] => None
  | (n, v) :: a' => if text_dec name n then Some v else getattr a' name
  end.

(** [pymodule.attr(name) = v]
    (python.hpp 105.) *)
Definition setattr (name : text) (v : attribute) (pm : pymodule) : pymodule :=
  mk_pymodule ((name, v) :: pm_attributes pm) (pm_types pm).

(** Same key type (key.hpp 67-68). *)
Definition key_eqb (a b : key) : bool :=
  (k_index_size a =? k_index_size b) && (k_index a =? k_index b) && sig_eqb (k_sig a) (k_sig b)
  && endianess_eqb (k_e a) (k_e b) && signed_mode_eqb (k_m a) (k_m b).
(** Same callbacks (keyring.hpp 40-41). *)
Fixpoint names_eqb (l l' : list nat) : bool :=
  match l, l' with
  | [], [] => true
  | a :: l1, b :: l2 => (a =? b) && names_eqb l1 l2
  | _, _ => false
  end.

(** Same C++ type.
    (The registration of types by python.hpp 76, 165.) *)
Definition type_eqb (a b : attribute) : bool :=
  match a, b with
  | KeyClass k, KeyClass k' => key_eqb k k'
  | DispatcherClass fs e m, DispatcherClass fs' e' m' =>
      names_eqb fs fs' && endianess_eqb e e' && signed_mode_eqb m m'
  | _, _ => false
  end.

(** What stops the initialisation of a module.
    (python.hpp 43, 55, 76, 118, 165.) *)
Inductive import_error : Type := NoName | NameTaken | TypeRegistered | NoSuchKey.
(** How the initialisation of a module ends (python.hpp 136-137, 161-177). *)
Inductive outcome (A : Type) : Type := Done (a : A) | Failed (e : import_error).
Arguments Done {A} a.
Arguments Failed {A} e.

(** [pybind11::class_<T>{pymodule, name}] (pybind11.h, [generic_type::initialize]):
    the name must not be an attribute of the module yet, the type must not be
    registered yet. *)
Definition class_ (name : text) (c : attribute) (pm : pymodule) : outcome pymodule :=
  if getattr (pm_attributes pm) name then Failed NameTaken
  else if existsb (type_eqb c) (pm_types pm) then Failed TypeRegistered
  else Done (mk_pymodule ((name, c) :: pm_attributes pm) (c :: pm_types pm)).

(** python.hpp 34, 64-68 *)
Definition demangled_fname (s : symbol) : option text :=
  option_map (fun name => txt "__" ++ name) (demangle (render s)).

(** python.hpp 71-106: the class, then [pymodule.attr(name + 2) = k]. *)
Definition define_pykey (name : text) (k : key) (pm : pymodule) : outcome pymodule :=
  match class_ name (KeyClass k) pm with
  | Done pm1 => Done (setattr (skipn 2 name) (Key k) pm1)
  | Failed e => Failed e
  end.

Section Modules.
  Context {X : Type}.
  (** How the callbacks, which are identified by numbers, are written. *)
  Variable sym : nat -> symbol.

  (** python.hpp 109-121, for the callbacks [fs], in order.  [NoSuchKey]:
      [keyring.get] does not compile. *)
  Fixpoint define_pykeys (kr : keyring X) (fs : list (nat * func X)) (pm : pymodule) : outcome pymodule :=
    match fs with
    | [] => Done pm
    | (name, f) :: fs' =>
        match demangled_fname (sym name) with
        | None => Failed NoName
        | Some s =>
            match kr_get kr name f with
            | None => Failed NoSuchKey
            | Some k =>
                match define_pykey s k pm with
                | Done pm1 => define_pykeys kr fs' pm1
                | Failed e => Failed e
                end
            end
        end
    end.

  (** python.hpp 136-139 *)
  Definition unpack_keyring (kr : keyring X) (pm : pymodule) : outcome pymodule :=
    define_pykeys kr (kr_funcs kr) pm.

  (** python.hpp 160-177 *)
  Definition declare_dispatcher (name : text) (kr : keyring X) (pm : pymodule) : outcome pymodule :=
    match class_ name (DispatcherClass (map fst (kr_funcs kr)) (kr_e kr) (kr_m kr)) pm with
    | Done pm1 => unpack_keyring kr pm1
    | Failed e => Failed e
    end.

  (** The body of [PYBIND11_MODULE] (test/py/module.cpp 26-29): keyrings which
      are unpacked, and those which a dispatcher is declared for, under a name. *)
  Fixpoint init_module (ds : list (option text * keyring X)) (pm : pymodule) : outcome pymodule :=
    match ds with
    | [] => Done pm
    | (d, kr) :: ds' =>
        match (match d with Some name => declare_dispatcher name kr pm | None => unpack_keyring kr pm end) with
        | Done pm1 => init_module ds' pm1
        | Failed e => Failed e
        end
    end.
End Modules.

(** [pymodule] at the beginning of test/py/module.cpp 26-29. *)
Definition empty_module : pymodule := mk_pymodule [] [].
