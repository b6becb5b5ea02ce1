(** Property C02: normalising angles. *)
From Coq Require Import Reals Lra.
From Verif Require Import Angle AngleSpec AngleProofs.
Open Scope R_scope.

(** C02: the result is in [-pi, pi), is the same angle, and is the only such number. *)
Theorem C02_wrap_normalises : forall x,
  - PI <= wrap_to_pi x < PI /\ same_angle (wrap_to_pi x) x /\
  forall y, - PI <= y < PI -> same_angle y x -> y = wrap_to_pi x.
Proof. intros x. split; [apply wrap_range|]. split; [apply wrap_same|]. intros y. apply wrap_unique. Qed.
Theorem C02_wrap_idempotent : forall x, wrap_to_pi (wrap_to_pi x) = wrap_to_pi x.
Proof. intros x. apply wrap_id. apply wrap_range. Qed.

(** The boundary: pi becomes -pi, and three half turns a quarter turn back. *)
Example wrap_pi : wrap_to_pi PI = - PI.
Proof. symmetry. apply C02_wrap_normalises; [pose proof PI_RGT_0; lra|]. exists (-1)%Z. ring. Qed.
Example wrap_three_halves : wrap_to_pi (3 * PI / 2) = - (PI / 2).
Proof. symmetry. apply C02_wrap_normalises; [pose proof PI_RGT_0; lra|]. exists (-1)%Z. field. Qed.

Print Assumptions C02_wrap_normalises.
Print Assumptions C02_wrap_idempotent.
