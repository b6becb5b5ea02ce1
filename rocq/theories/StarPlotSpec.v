(** What a plot of stars shows, for StarPlotProps.v. *)
From Coq Require Import Ascii String.
From Verif Require Import Base Dict PyText Tree TreeSpec Star StarSpec Plot StarPlot.
Set Implicit Arguments.
Open Scope nat_scope.

(** The two dimensions that are drawn. *)
Definition drawn_dims (dims : option (nat * nat)) : nat * nat := match dims with None => (0, 1) | Some d => d end.
(** Point [k] of a path. *)
Definition vertex (path : vec * vec) (k : nat) (x y : Q) : Prop := nth_error (fst path) k = Some x /\ nth_error (snd path) k = Some y.
(** [(x, y)] is the projection of a point of the star. *)
Definition projects (s : star) (d1 d2 : nat) (x y : Q) : Prop := exists p, in_star s p /\ (x == nth d1 p 0 /\ y == nth d2 p 0)%Q.
(** No point of the star is further than [(x, y)] in the direction [(c, sn)]. *)
Definition extreme (s : star) (d1 d2 : nat) (c sn x y : Q) : Prop := forall p, in_star s p -> (c * nth d1 p 0 + sn * nth d2 p 0 <= c * x + sn * y)%Q.
(** As many generators as dimensions, and the matrix of the generators is symmetric. *)
Definition symmetric_star (s : star) : Prop :=
  gens s = dim s /\ forall i j, i < dim s -> j < dim s -> (nth j (nth i (basis s) []) 0 == nth i (nth j (basis s) []) 0)%Q.
(** The trace of agent [a] at the node [q]; and agent [a] has a trace at every node above. *)
Definition star_trace (t : stree) (q : list nat) (a : word) (tr : list (Q * star)) : Prop :=
  exists n, at_path (s_root t) q = Some n /\ dget word_eqb a (content n) = Some tr.
Definition present_above (t : stree) (q : list nat) (a : word) : Prop :=
  forall q1 i q2, q = q1 ++ i :: q2 -> exists tr, star_trace t q1 a tr.
