(** Specification vocabulary for StarStepProps.v. *)
From Coq Require Import Ascii String.
From Verif Require Import Base Dict PyText Scan ScanSpec Round Star StarSpec StarStep.
Set Implicit Arguments.
Open Scope nat_scope.

(** The joint state [s] (one vector per agent) lies in the joint entry [js], or in the tubes at step [i]. *)
Definition in_stars (js : list (Q * star)) (s : list vec) : Prop := Forall2 (fun e x => in_star (snd e) x) js s.
Definition star_state_at (trs : list stube) (i : nat) (s : list vec) : Prop :=
  Forall2 (fun tr x => exists e, nth_error tr i = Some e /\ in_star (snd e) x) trs s.

Section Evaluation.
  Variables path cond : Type.
  Variable pvar : path -> word.
  Variable agents : list (dlogic path cond).
  Variable g_disc : list mode -> list (Q * star) -> nat -> path -> bool.
  Variable g_hyb : list mode -> list (Q * star) -> nat -> path -> bool.
  Variable g_cont : list mode -> list (Q * star) -> nat -> path -> bool * bool.
  Variable g_reset : list mode -> list (Q * star) -> nat -> list path -> option (list mode * star).
  Variable maph : option word -> option mode -> option mode -> option word.
  (** Path [p] of agent [a] is enabled in a joint state, and resets the agent to mode [d] and state [x]. *)
  Variable enabled : list mode -> nat -> path -> list vec -> Prop.
  Variable resets : list mode -> nat -> path -> list vec -> mode -> vec -> Prop.

  (** An enabled path is found. *)
  Definition guards_found : Prop := forall modes js0 js a p s, in_stars js s -> enabled modes a p s ->
    g_disc modes js0 a p = true /\ g_hyb modes js a p = true /\ fst (g_cont modes js a p) = true.
  (** The reset star contains the reset states. *)
  Definition star_resets_sound : Prop := forall modes js a p s d x ds r, g_reset modes js a [p] = Some (ds, r) -> in_stars js s ->
    enabled modes a p s -> resets modes a p s d x -> In d ds /\ in_star r x.
  Definition same_variable : Prop := forall a lg p q, nth_error agents a = Some lg -> In p (d_paths lg) -> In q (d_paths lg) -> pvar p = pvar q.
  Definition star_map_permits : Prop := forall a lg modes js ps ds r d, nth_error agents a = Some lg -> g_reset modes js a ps = Some (ds, r) -> In d ds ->
    permitted (d_types lg) maph (nth a modes []) d.
End Evaluation.

(** [c] is a child of [nd], whose tubes are [trs], entered from step [i0] by agent [a] in mode [d]: the child starts at the
    time of that step, the other agents keep their modes and the rest of their tubes. *)
Definition enters (digits : nat) (nd : snode) (trs : list stube) (a : nat) (d : mode) (i0 : nat) (c : snode) : Prop :=
  (exists tr e, nth_error trs 0 = Some tr /\ nth_error tr i0 = Some e /\ s_start c = py_round digits (py_round 10 (fst e))) /\
  s_height c = S (s_height nd) /\
  nth_error (s_mode c) a = Some d /\ (forall b, b <> a -> nth_error (s_mode c) b = nth_error (s_mode nd) b) /\
  nth_error (s_trace c) a = Some None /\
  forall b tr, b <> a -> nth_error trs b = Some tr ->
    exists suffix, nth_error (s_trace c) b = Some (Some suffix) /\ forall k, nth_error suffix k = nth_error tr (i0 + k).
