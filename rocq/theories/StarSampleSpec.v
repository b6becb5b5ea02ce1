(** Specification vocabulary for StarSampleProps.v. *)
From Coq Require Import Ascii String.
From Verif Require Import Base PyText Star StarSpec Runs.
Set Implicit Arguments.
Open Scope nat_scope.

(** The generator after [k] points of the rectangle were drawn, and the point drawn then. *)
Fixpoint after {rng} (draw : rng -> Q * rng) (rect : list (Q * Q)) (k : nat) (g : rng) : rng :=
  match k with 0 => g | S k' => after draw rect k' (snd (uniform draw rect g)) end.
Definition drawn {rng} (draw : rng -> Q * rng) (rect : list (Q * Q)) (g : rng) (k : nat) : vec :=
  fst (uniform draw rect (after draw rect k g)).

(** z3 decides membership of every point in the star. *)
Definition decides (sat : nat -> list (Q * vec * Q) -> list (vec * Q) -> bool) (s : star) : Prop :=
  wf_star s /\ forall x, length x = dim s -> exact_sat sat (gens s) (equations s x) (inequalities s).

(** [center c] and factor [u] put all points into the scaled star: what z3 is asked to minimise [u] for. *)
Definition fits (A : list vec) (b : vec) (basis points : list vec) (c : vec) (u : Q) : Prop :=
  forall p, In p points -> exists alpha, length alpha = length basis /\
    (forall j, j < length c -> (nth j p 0 == nth j c 0 + inner alpha (map (fun v => nth j v 0) basis))%Q) /\
    Forall2 (fun row r => (inner row alpha <= u * r)%Q) A b.
Definition least (optimise : list vec -> vec -> list vec -> list vec -> option (vec * Q)) (d : nat) : Prop :=
  forall A b basis points c u, optimise A b basis points = Some (c, u) ->
    forall c' u', length c' = d -> fits A b basis points c' u' -> (u <= u')%Q.

(** The numbers of the list grow. *)
Fixpoint increasing (l : list nat) : Prop :=
  match l with [] => True | a :: l' => (forall b, In b l' -> a < b) /\ increasing l' end.

(** One round of [sim_star]: [N] points of the old star whose states after a step are in the new star. *)
Definition stepped (sim : option word -> vec -> Q -> Q -> option (list vec)) (ts : Q) (N : nat) (old new : star) : Prop :=
  exists points, length points = N /\
    forall p, In p points -> in_star old p /\ exists rows t x, sim None p ts ts = Some rows /\ nth_error rows 1 = Some (t :: x) /\ in_star new x.
