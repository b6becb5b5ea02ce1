(** Solutions of differential equations, and integrators that return them. *)
From Coq Require Import Reals Lra.
From Verif Require Import Base ExampleAgents.
Set Implicit Arguments.
Open Scope R_scope.

(** [phi] solves the differential equation of [f] from time 0 to [T]. *)
Definition solution (f : field) (phi : R -> vec) (T : R) : Prop :=
  forall t, 0 <= t <= T ->
    length (phi t) = length (phi 0) /\
    exists d, f (phi t) = Some d /\
      forall i, (i < length (phi 0%R))%nat -> derivable_pt_lim (fun u => nth i (phi u) 0) t (nth i d 0).

(** What the integrators return is on a solution. *)
Definition steps_exactly (ode : field -> vec -> R -> option vec) (f : field) : Prop :=
  forall x h y, ode f x h = Some y -> exists phi, phi 0 = x /\ phi h = y /\ solution f phi h.
Definition integrates_exactly (odeint : field -> vec -> list R -> option (list vec)) (f : field) : Prop :=
  forall x ts rows, odeint f x ts = Some rows ->
    exists phi, phi 0 = x /\ rows = map phi ts /\ forall t, In t ts -> solution f phi t.

(** Rounding to ten digits does not change the multiples of the step. *)
Definition keeps_multiples (rnd : R -> R) (h : R) : Prop := forall k, rnd (INR k * h) = INR k * h.
