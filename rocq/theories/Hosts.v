(** Concrete hosts used by the examples and by the refutations. *)

From Coq Require Import List ZArith Lia.
From Verif Require Import Base.
Open Scope Z_scope.

(** Content of the memory which is not initialised (serialization.hpp 71,
    signed_representation.hpp 38). *)
Definition garbage (i : nat) : Z := 170.

(** 4-byte int, little endian; both macros, or none, defined. *)
Definition pc_native : platform := mk_platform 4 LITTLE (Some LITTLE) (Some TWOS_COMPLEMENT) garbage.
(** The same host without the macros of upd.hpp. *)
Definition pc_portable : platform := mk_platform 4 LITTLE None None garbage.

(** 2-byte int, little endian, no macro. *)
Definition avr_portable : platform := mk_platform 2 LITTLE None None garbage.

(** 4-byte int, big endian; both, none or one of the macros defined. *)
Definition ppc_native : platform := mk_platform 4 BIG (Some BIG) (Some TWOS_COMPLEMENT) garbage.
(** (Without the macros of upd.hpp.) *)
Definition ppc_portable : platform := mk_platform 4 BIG None None garbage.
(** With [UPD_PLATFORM_ENDIANESS] only. *)
Definition ppc_endianess_only : platform := mk_platform 4 BIG (Some BIG) None garbage.
(** With [UPD_PLATFORM_SIGNED_MODE] only. *)
Definition ppc_signed_only : platform := mk_platform 4 BIG None (Some TWOS_COMPLEMENT) garbage.

Lemma garbage_byte : forall i, is_byte (garbage i).
Proof. intros. unfold is_byte, garbage. lia. Qed.

Lemma pc_native_wf : wf_platform pc_native.
Proof. constructor; cbn; auto using garbage_byte; lia. Qed.
Lemma pc_portable_wf : wf_platform pc_portable.
Proof. constructor; cbn; auto using garbage_byte; lia. Qed.
Lemma avr_portable_wf : wf_platform avr_portable.
Proof. constructor; cbn; auto using garbage_byte; lia. Qed.
Lemma ppc_native_wf : wf_platform ppc_native.
Proof. constructor; cbn; auto using garbage_byte; lia. Qed.
Lemma ppc_portable_wf : wf_platform ppc_portable.
Proof. constructor; cbn; auto using garbage_byte; lia. Qed.
Lemma ppc_endianess_only_wf : wf_platform ppc_endianess_only.
Proof. constructor; cbn; auto using garbage_byte; lia. Qed.
Lemma ppc_signed_only_wf : wf_platform ppc_signed_only.
Proof. constructor; cbn; auto using garbage_byte; lia. Qed.

(** Closed inequalities. *)
Ltac range := vm_compute; intuition (try discriminate; try reflexivity; try congruence).
