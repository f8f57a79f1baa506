(** Model of the import of the Python package: py/unpadded/hook.py and
    py/unpadded/__init__.py.  No proofs in this file. *)

From Coq Require Import Ascii String List Bool Arith.
Import ListNotations.
Open Scope nat_scope.

(** ** hook.py *)

(** The exceptions which are caught on line 37 (with those which derive from
    it), and the others. *)
Inductive python_exception : Type := ImportError | OtherError.

(** A piece of Python code, from the standpoint of the hook: it returns, raises
    an exception, acts on the world, looks at it, or an import reaches the hook
    while it runs (an import statement, or one in another thread), with what the
    hook answers.
    (hook.py 27-36.) *)
Inductive script (W M A : Type) : Type :=
| Returns (a : A)
| Raises (e : python_exception)
| Does (f : W -> W) (next : script W M A)
| Looks (next : W -> script W M A)
| Imports (name : string) (next : option M -> script W M A).
Arguments Returns {W M A} a.
Arguments Raises {W M A} e.
Arguments Does {W M A} f next.
Arguments Looks {W M A} next.
Arguments Imports {W M A} name next.

(** One piece of code after the other (hook.py 27-36). *)
Fixpoint andthen {W M A B : Type} (s : script W M A) (k : A -> script W M B) : script W M B :=
  match s with
  | Returns a => k a
  | Raises e => Raises e
  | Does f s' => Does f (andthen s' k)
  | Looks s' => Looks (fun w => andthen (s' w) k)
  | Imports name s' => Imports name (fun m => andthen (s' m) k)
  end.

(** What hook.py calls: the functions of cppimport and [os].  [M]: modules;
    paths are strings.
    (hook.py 7-9, 27, 30, 32-35.) *)
Record library (W M : Type) : Type := mk_library {
  find_module_cpppath : string -> script W M string;
  setup_module_data : string -> string -> script W M string;
  path_exists : string -> W -> bool;
  remove : string -> script W M unit;
  build_safely : string -> string -> script W M unit;
  load_module : string -> script W M M
}.
Arguments find_module_cpppath {W M} l.
Arguments setup_module_data {W M} l.
Arguments path_exists {W M} l.
Arguments remove {W M} l.
Arguments build_safely {W M} l.
Arguments load_module {W M} l.

(** hook.py 27-36.  [module_data] is its ["ext_path"]; lines 28-29 are
    never executed by the import system, which gives a name. *)
Definition try_body {W M : Type} (lib : library W M) (fullname : string) : script W M M :=
  andthen (find_module_cpppath lib fullname) (fun filepath =>
  andthen (setup_module_data lib fullname filepath) (fun ext_path =>
  andthen (Looks (fun w => if path_exists lib ext_path w then remove lib ext_path else Returns tt)) (fun _ =>
  andthen (build_safely lib filepath ext_path) (fun _ =>
  load_module lib fullname)))).

(** [self._running] and the rest of the world.
    (hook.py 19.) *)
Definition hook_state (W : Type) : Type := bool * W.

(** How a piece of code ends (hook.py 36-40); [TooDeep]: the recursion of
    the imports was not followed further. *)
Inductive result (A : Type) : Type :=
| Value (a : A)
| Exception (e : python_exception)
| TooDeep.
Arguments Value {A} a.
Arguments Exception {A} e.
Arguments TooDeep {A}.

(** [hook]: what an import which reaches the hook does.
    (hook.py 21-40.) *)
Fixpoint run_script {W M A : Type} (hook : string -> hook_state W -> result (option M) * hook_state W)
    (s : script W M A) (st : hook_state W) : result A * hook_state W :=
  match s with
  | Returns a => (Value a, st)
  | Raises e => (Exception e, st)
  | Does f s' => run_script hook s' (fst st, f (snd st))
  | Looks s' => run_script hook (s' (snd st)) st
  | Imports name s' =>
      match hook name st with
      | (Value m, st') => run_script hook (s' m) st'
      | (Exception e, st') => (Exception e, st')
      | (TooDeep, st') => (TooDeep, st')
      end
  end.

(** hook.py 21-40: [if self._running: return], then [self._running = True], the
    body, [except ImportError], [finally: self._running = False].  [None] is
    returned unless the end of the body is reached.  [depth]: how many nested
    calls there may be. *)
Fixpoint find_spec {W M : Type} (lib : library W M) (depth : nat) (fullname : string) (st : hook_state W)
    : result (option M) * hook_state W :=
  match depth with
  | 0 => (TooDeep, st)
  | S depth' =>
      if fst st then (Value None, st)
      else
        match run_script (find_spec lib depth') (try_body lib fullname) (true, snd st) with
        | (Value m, st') => (Value (Some m), (false, snd st'))
        | (Exception ImportError, st') => (Value None, (false, snd st'))
        | (Exception OtherError, st') => (Exception OtherError, (false, snd st'))
        | (TooDeep, st') => (TooDeep, (false, snd st'))
        end
  end.

(** Imports, one after the other.
    (hook.py 54: the hook is called by each import.) *)
Fixpoint imports {W M : Type} (lib : library W M) (depth : nat) (names : list string) (st : hook_state W)
    : list (result (option M)) * hook_state W :=
  match names with
  | [] => ([], st)
  | name :: names' =>
      let (r, st1) := find_spec lib depth name st in
      let (rs, st2) := imports lib depth names' st1 in
      (r :: rs, st2)
  end.

(** ** __init__.py *)

(** [os.environ]
    (__init__.py 9-14.) *)
Definition environment : Type := string -> option string.
(** [os.environ[name] = value] (__init__.py 10, 11, 14). *)
Definition put_env (name value : string) (e : environment) : environment :=
  fun n => if String.eqb n name then Some value else e n.

(** __init__.py 9-16.  [cc] and [cxx]: [get_config_var] ([None] when there is no
    such variable: [os.environ] refuses it); [ccache]: whether it is installed.
    The second component is whether an exception is raised. *)
Definition init_package (cc cxx : option string) (ccache : bool) (e : environment) : environment * bool :=
  let both := match e "CC"%string, e "CXX"%string with Some _, Some _ => true | _, _ => false end in
  let set :=
    if both then (e, false)
    else match cc with
         | None => (e, true)
         | Some c =>
             let e1 := put_env "CC" c e in
             match cxx with
             | None => (e1, true)
             | Some x => (put_env "CXX" x e1, false)
             end
         end in
  if snd set then set
  else if ccache then
    match fst set "CC"%string with
    | Some c => (put_env "CC" ("ccache " ++ c) (fst set), false)
    | None => (fst set, true)
    end
  else (fst set, true).
