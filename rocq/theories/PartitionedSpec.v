(** Specification vocabulary for PartitionedProps.v. *)
From Coq Require Import Ascii String.
From Verif Require Import Base Dict PyText Boxes OverlaySpec Scan Step StepSpec.
Set Implicit Arguments.
Open Scope nat_scope.

(** Some box of the list contains the state. *)
Definition starts_from (inits : list box) (x : vec) : Prop := exists b, In b inits /\ in_box (fst b) (snd b) x.

(** Applying resets to a joint box covers their image: [image modes future a ps s x] says that agent [a], taking
    the paths [ps] in the joint state [s], ends up in [x]. *)
Definition reset_covers {path : Type} (image : list mode -> list mode -> nat -> list path -> list vec -> vec -> Prop)
    (p_reset : list mode -> list mode -> list box -> nat -> list path -> option (list mode * box)) : Prop :=
  forall modes future bs a ps ds r s x, p_reset modes future bs a ps = Some (ds, r) ->
    in_joint bs s -> image modes future a ps s x -> in_box (fst r) (snd r) x.

(** The lower corner of a step of a tube is not later than the upper one. *)
Definition timed (trs : list (list vec)) : Prop :=
  forall tr k lo hi, In tr trs -> nth_error tr (2 * k) = Some lo -> nth_error tr (2 * k + 1) = Some hi -> (nth 0 lo 0 <= nth 0 hi 0)%Q.

(** The joint mode in which the continuous variables of a transition are sensed: the agent is already in its
    destination. *)
Definition moved {path : Type} (modes : list mode) (t : transition path box) (d : mode) : list mode :=
  map (fun k => if k =? t_agent t then d else nth k modes []) (seq 0 (length modes)).
