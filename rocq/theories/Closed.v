(** Tactics for the side conditions of closed examples. *)

From Coq Require Import List ZArith Lia.
From Verif Require Import Base Spec Conditions SerialProofs Hosts.

Ltac list_cases := repeat first [apply Forall_nil | apply Forall_cons | apply Forall2_nil | apply Forall2_cons].

(** [encodable p m t v] and lists of them. *)
Ltac encs :=
  repeat first
    [ apply Forall_nil | apply Forall_cons | apply Forall2_nil | apply Forall2_cons
    | apply encodable_arr; split; [reflexivity|]
    | apply encodable_user
    | split; range ].

(** [ty_ok p e m t] and lists of them. *)
Ltac tyoks :=
  list_cases; unfold ty_ok; cbn;
  repeat match goal with
         | |- _ /\ _ => split
         | |- sig_host_ok _ _ _ _ =>
             first [left; reflexivity | right; left; reflexivity | right; right; reflexivity]
         end; try exact I; try reflexivity; try lia; try (intros; reflexivity); try discriminate.
