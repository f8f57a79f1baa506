(** Model of the build options: CMakeLists.txt 6-9, include/CMakeLists.txt 11-21 and
    upd.hpp 15-33.  No proofs in this file.

    The value of an option is a string given with [-D] or in the cache.  Strings
    are made of letters, digits, [_] and [-]: what spaces, semicolons and
    generator expressions would do is not modelled. *)

From Coq Require Import List ZArith Bool Arith Ascii String.
From Verif Require Import Base.
Import ListNotations.
Open Scope string_scope.

(** Letters in upper case, other characters as they are (rule of CMake on
    constants, used by include/CMakeLists.txt 11 and 17). *)
Definition upper (c : ascii) : ascii :=
  let n := nat_of_ascii c in
  if Nat.leb 97 n && Nat.leb n 122 then ascii_of_nat (n - 32) else c.

(** The same for a string. *)
Fixpoint upper_case (s : string) : string :=
  match s with
  | "" => ""
  | String c s' => String (upper c) (upper_case s')
  end.

(** [s] ends with [t] (the same rule). *)
Fixpoint ends_with (t s : string) : bool :=
  String.eqb s t || match s with "" => false | String _ s' => ends_with t s' end.

(** [if(variable)] is false: include/CMakeLists.txt 11, 17.  The constants are those of
    the documentation of [if]; [NOTFOUND] is written in upper case. *)
Definition cmake_off (s : string) : bool :=
  existsb (String.eqb (upper_case s)) [""; "0"; "N"; "NO"; "OFF"; "FALSE"; "IGNORE"]
  || String.eqb s "NOTFOUND" || ends_with "-NOTFOUND" s.

(** CMakeLists.txt 6-9: [option(... OFF)], for an option which is given or not. *)
Definition option_value (given : option string) : string :=
  match given with Some s => s | None => "OFF" end.

(** include/CMakeLists.txt 11-15, 17-21: the macro defined for the users of the
    library. *)
Definition compile_definition (given : option string) : option string :=
  let s := option_value given in
  if cmake_off s then None else Some s.

(** upd.hpp 17: [upd::endianess::] followed by the macro.  [None]: does not
    compile.  format.hpp 10. *)
Definition endianess_named (s : string) : option endianess :=
  if String.eqb s "LITTLE" then Some LITTLE
  else if String.eqb s "BIG" then Some BIG
  else None.

(** upd.hpp 26: [upd::signed_mode::] followed by the macro.  format.hpp 13. *)
Definition signed_mode_named (s : string) : option signed_mode :=
  if String.eqb s "SIGNED_MAGNITUDE" then Some SIGNED_MAGNITUDE
  else if String.eqb s "ONES_COMPLEMENT" then Some ONES_COMPLEMENT
  else if String.eqb s "TWOS_COMPLEMENT" then Some TWOS_COMPLEMENT
  else if String.eqb s "OFFSET_BINARY" then Some OFFSET_BINARY
  else None.

(** A member of [platform_info] (upd.hpp 15-33): [None] when it does not compile,
    [Some None] when the macro is not defined. *)
Definition member {A : Type} (named : string -> option A) (macro : option string) : option (option A) :=
  match macro with
  | None => Some None
  | Some s => match named s with Some a => Some (Some a) | None => None end
  end.

(** A program compiled for the host [h] with the library configured so.  [None]: it
    does not compile.  (CMakeLists.txt 6-9, include/CMakeLists.txt 11-21,
    upd.hpp 15-33.) *)
Definition configure (h : platform) (endianess_option signed_mode_option : option string) : option platform :=
  match member endianess_named (compile_definition endianess_option),
        member signed_mode_named (compile_definition signed_mode_option) with
  | Some e, Some m => Some (mk_platform (p_int_size h) (p_endianess h) e m (p_indet h))
  | _, _ => None
  end.
