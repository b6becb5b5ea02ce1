(** C84: which coordinates count as on a 3d lane. *)
From Coq Require Import Reals Lra.
From Verif Require Import Base Lane3d Lane3dProps.
Open Scope R_scope.

(** C84.  When the coordinates are given, on_lane answers; a wider lane or a larger margin accepts all that a smaller one
    accepts; the whole axis is on the lane; and the half width, the margin and the length bound what is accepted. *)
Theorem C84_on_lane_known : forall L width margin p lon lat, exists P, on_lane L width p (Some (lon, lat)) margin = Some P /\
  (P -> Rabs lat <= width / 2 + margin /\ -5 <= lon < seg_length L + 5) /\
  (0 <= width / 2 + margin -> lat = 0 -> 0 <= lon <= seg_length L -> P) /\
  (forall width' margin' P', width <= width' -> margin <= margin' -> on_lane L width' p (Some (lon, lat)) margin' = Some P' -> P -> P').
Proof.
  intros L width margin p lon lat. eexists. split; [reflexivity|]. unfold VEHICLE_LENGTH. split; [lra|]. split.
  - intros H -> B. rewrite Rabs_R0. lra.
  - intros w' m' P' Hw Hm [= <-]. unfold VEHICLE_LENGTH. lra.
Qed.
Print Assumptions C84_on_lane_known.
(** A point beside a lane of length 100 and width 4. *)
Example on_case : exists P, on_lane (Straight (V 0 0 0) (V 100 0 0) (V 1 0 0) 100) 4 (V 20 0 0) (Some (20, 0)) 0 = Some P /\ P.
Proof.
  destruct (C84_on_lane_known (Straight (V 0 0 0) (V 100 0 0) (V 1 0 0) 100) 4 0 (V 20 0 0) 20 0) as (P & E & _ & H & _). exists P. split; [exact E|]. apply H; cbn; lra.
Qed.
