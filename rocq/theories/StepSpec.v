(** Specification vocabulary for StepProps.v and CoverProps.v. *)
From Coq Require Import Ascii String.
From Verif Require Import Base Dict PyText Boxes OverlaySpec Scan ScanSpec Round Step.
Set Implicit Arguments.
Open Scope nat_scope.

(** The joint state [s] (one vector per agent) lies in the joint box [bs]. *)
Definition in_joint (bs : list box) (s : list vec) : Prop := Forall2 (fun b x => in_box (fst b) (snd b) x) bs s.

(** The joint state [s] lies in the tubes at step [i]. *)
Definition state_at (trs : list (list vec)) (i : nat) (s : list vec) : Prop := Forall2 (fun tr x => covers tr i x) trs s.

(** [tr'] is the beginning of [tr], [n] rows long. *)
Definition prefix_of {A : Type} (n : nat) (tr tr' : list A) : Prop :=
  length tr' = n /\ forall k, k < n -> nth_error tr' k = nth_error tr k.

(** All tubes have rows of the same width, at least the time column. *)
Definition rectangular (trs : list (list vec)) : Prop :=
  forall tr, In tr trs -> exists d, forall row, In row tr -> length row = S d.

(** A node of [n] agents. *)
Definition node_ok (n : nat) (nd : node) : Prop :=
  length (n_trace nd) = n /\ length (n_init nd) = n /\ length (n_mode nd) = n.

(** Row [r'] is row [r] with [t] added to the time. *)
Definition later (t : Q) (r r' : vec) : Prop := exists x rest, r = x :: rest /\ r' = (x + t)%Q :: rest.

Section Child.
  Variable path : Type.

  (** [c] is the child of [nd], whose full tubes are [trs], for the transition [t]. *)
  Definition is_child (digits : nat) (nd : node) (trs : list (list vec)) (t : transition path box) (c : node) : Prop :=
    exists d i0, t_dest t = Some d /\ nth_error (t_idx t) 0 = Some i0 /\
    (** it starts at the time of the first hit row *)
    (exists tr row time, nth_error trs 0 = Some tr /\ nth_error tr (2 * i0) = Some row /\ nth_error row 0 = Some time /\
                         n_start c = py_round digits (py_round 10 time)) /\
    n_height c = S (n_height nd) /\
    (** the transiting agent is in the destination mode, the others are in their old one *)
    nth_error (n_mode c) (t_agent t) = Some d /\
    (forall a, a <> t_agent t -> nth_error (n_mode c) a = nth_error (n_mode nd) a) /\
    length (n_trace c) = length trs /\ length (n_init c) = length trs /\ length (n_mode c) = length (n_mode nd) /\
    (** the transiting agent starts from the reset sets, with no tube yet *)
    nth_error (n_trace c) (t_agent t) = Some None /\ nth_error (n_init c) (t_agent t) = Some (t_inits t) /\
    (** the others inherit the rest of their tube, and start from its first step *)
    forall a tr, a <> t_agent t -> nth_error trs a = Some tr ->
      exists suffix lo hi, nth_error (n_trace c) a = Some (Some suffix) /\
        (forall k, nth_error suffix k = nth_error tr (2 * i0 + k)) /\
        nth_error tr (2 * i0) = Some lo /\ nth_error tr (2 * i0 + 1) = Some hi /\
        nth_error (n_init c) a = Some [(tl lo, tl hi)].
End Child.
