(** Specification vocabulary for StarLaneProps.v. *)
From Coq Require Import Ascii String.
From Verif Require Import Base Dict PyText Guard GuardSpec Sensor Star StarSpec StarReset StarResetSpec StarGuard StarGuardSpec StarLane.
Set Implicit Arguments.
Open Scope nat_scope.

(** Nothing is named like the variables the code makes up for coordinates. *)
Definition no_made_up (W : world) (dd : dict word word) : Prop :=
  forall k, In k (names_of W ++ list_names W ++ map fst dd) -> prefix_of (w "tmp_variable") (under k) = false.

(** The ego's variables come first in the dictionary, before those of other agents. *)
Definition ego_first (W : world) (cd : sdict) : Prop := exists rest, one_names cd = map ego_name (ego_vars W) ++ rest.

(** The other agents have the first variables of the ego, in the same order. *)
Definition alike (W : world) : Prop := exists more, ego_vars W = oth_vars W ++ more.
