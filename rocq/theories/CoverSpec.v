(** Specification vocabulary for CoverProps.v: executions of a scenario, and what a tree of nodes shows of them. *)
From Coq Require Import Ascii String.
From Verif Require Import Base Dict PyText Boxes OverlaySpec Scan ScanSpec Round Step StepSpec Scheduler SchedulerSpec.
Set Implicit Arguments.
Open Scope nat_scope.

(** A node with content [c], trace [r] and assertion hits [h] occurs in a tree. *)
Inductive occurs {content trace hits : Type} (c : content) (r : option trace) (h : option hits) : tree content trace hits -> Prop :=
| O_here ts : occurs c r h (Tree c r h ts)
| O_below c' r' h' ts t : In t ts -> occurs c r h t -> occurs c r h (Tree c' r' h' ts).

Section Executions.
  Variables path cond : Type.
  Variable agents : list (dlogic path cond).
  (** The instants within a row: any set, e.g. the reals between 0 and 1. *)
  Variable inst : Type.
  (** [traj a m x tau]: agent [a] in mode [m], started in state [x], can be in state [tau j q] at instant [q] of its [j]-th row. *)
  Variable traj : nat -> mode -> vec -> (nat -> inst -> vec) -> Prop.
  (** Path [p] of agent [a] is enabled in a joint state, and resets the agent to mode [d] and state [x]. *)
  Variable enabled : list mode -> nat -> path -> list vec -> Prop.
  Variable resets : list mode -> nat -> path -> list vec -> mode -> vec -> Prop.

  (** What an agent is doing: the trajectory it follows, and the row in which it began. *)
  Record phase := mk_phase { ph_traj : nat -> inst -> vec; ph_row : nat }.
  Definition joint (ps : list phase) (h : nat) (q : inst) : list vec := map (fun p => ph_traj p (h - ph_row p) q) ps.

  (** Nothing is enabled in the rows from [h] up to, not including, [h']. *)
  Definition waits (modes : list mode) (ps : list phase) (h h' : nat) : Prop :=
    forall k q a lg p, h <= k -> k < h' -> checked agents a lg -> In p (d_paths lg) -> ~ enabled modes a p (joint ps k q).

  (** The executions with [N] rows: modes, phases, the row of the last transition and the number of transitions.  A
      transition is taken in the first row in which a path is enabled. *)
  Inductive execution (N : nat) (modes0 : list mode) (start : list (vec * vec)) : list mode -> list phase -> nat -> nat -> Prop :=
  | E_start ps : length ps = length agents ->
      (forall a p, nth_error ps a = Some p -> ph_row p = 0 /\ exists m b x, nth_error modes0 a = Some m /\
         nth_error start a = Some b /\ in_box (fst b) (snd b) x /\ traj a m x (ph_traj p)) ->
      execution N modes0 start modes0 ps 0 0
  | E_jump modes ps h k h' q a lg p d x tau : execution N modes0 start modes ps h k ->
      h <= h' -> h' < N -> waits modes ps h h' ->
      checked agents a lg -> In p (d_paths lg) -> enabled modes a p (joint ps h' q) ->
      resets modes a p (joint ps h' q) d x -> traj a d x tau ->
      execution N modes0 start (set_nth a d modes) (set_nth a (mk_phase tau h') ps) h' (S k).

  (** The tree has a node, in the joint mode [modes], whose tubes contain the joint state [s] in the [h]-th row of
      the run, the rows being [dt] apart. *)
  Definition shows {hits : Type} (dt : Q) (t : tree node (list (list vec)) hits) (modes : list mode) (h : nat) (s : list vec) : Prop :=
    exists nd trs asr g, occurs nd (Some trs) asr t /\ n_mode nd = modes /\ (n_start nd == inject_Z (Z.of_nat g) * dt)%Q /\ g <= h /\
      state_at trs (h - g) s.
End Executions.

Section Evaluation.
  Variables path cond : Type.
  Variable pvar : path -> word.
  Variable agents : list (dlogic path cond).
  Variable dim : nat -> nat.
  Variable tube_of : nat -> mode -> list (vec * vec) -> Q -> option (list vec).
  Variable g_disc : list mode -> list (vec * vec) -> nat -> path -> bool.
  Variable g_hyb : list mode -> list (vec * vec) -> nat -> path -> bool.
  Variable g_cont : list mode -> list (vec * vec) -> nat -> path -> bool * bool.
  Variable g_reset : list mode -> list (vec * vec) -> nat -> list path -> option (list mode * (vec * vec)).
  Variable maph : option word -> option mode -> option mode -> option word.
  Variable inst : Type.
  Variable traj : nat -> mode -> vec -> (nat -> inst -> vec) -> Prop.
  Variable enabled : list mode -> nat -> path -> list vec -> Prop.
  Variable resets : list mode -> nat -> path -> list vec -> mode -> vec -> Prop.
  Variable dt : Q.
  Variables (horizon : Q) (N digits : nat).

  (** The rows are at multiples of [dt], which the roundings of times respect, and the horizon is [N] rows. *)
  Definition on_rows : Prop :=
    (0 < dt)%Q /\ (horizon == inject_Z (Z.of_nat N) * dt)%Q /\
    forall i, i <= N -> (py_round 10 (inject_Z (Z.of_nat i) * dt) == inject_Z (Z.of_nat i) * dt)%Q /\
                        (py_round digits (inject_Z (Z.of_nat i) * dt) == inject_Z (Z.of_nat i) * dt)%Q.

  (** The tubes are sound: for a list of initial sets, the [k]-th entered [k] rows late. *)
  Definition tubes_sound : Prop :=
    forall a m inits remain r, 0 < r -> r <= N -> (remain == inject_Z (Z.of_nat r) * dt)%Q -> inits <> [] ->
      (forall b, In b inits -> length (fst b) = dim a /\ length (snd b) = dim a) ->
      exists t, tube_of a m inits remain = Some t /\ tube_shape r (dim a) t /\
        (forall k row, nth_error t (2 * k) = Some row -> exists x, nth_error row 0 = Some x /\ (x == inject_Z (Z.of_nat k) * dt)%Q) /\
        forall k b x tau j q, nth_error inits k = Some b -> in_box (fst b) (snd b) x -> traj a m x tau -> k + j < r ->
          covers t (k + j) (tau j q).

  (** The guards are evaluated soundly: an enabled path is found, and a path found certain is enabled everywhere. *)
  Definition guards_sound : Prop :=
    (forall modes bs0 bs a p s, in_joint bs s -> enabled modes a p s ->
       g_disc modes bs0 a p = true /\ g_hyb modes bs a p = true /\ fst (g_cont modes bs a p) = true) /\
    (forall modes bs0 bs a p s, in_joint bs s -> g_disc modes bs0 a p = true -> g_hyb modes bs a p = true ->
       snd (g_cont modes bs a p) = true -> enabled modes a p s).

  (** The resets are evaluated soundly, into boxes of the right dimension. *)
  Definition resets_sound : Prop :=
    (forall modes bs a p s d x ds r, g_reset modes bs a [p] = Some (ds, r) -> in_joint bs s -> enabled modes a p s ->
       resets modes a p s d x -> In d ds /\ in_box (fst r) (snd r) x) /\
    (forall modes bs a ps ds r, a < length bs -> (forall b bx, nth_error bs b = Some bx -> length (fst bx) = dim b /\ length (snd bx) = dim b) ->
       g_reset modes bs a ps = Some (ds, r) -> length (fst r) = dim a /\ length (snd r) = dim a).

  (** The paths of an agent all assign the same variable. *)
  Definition one_variable : Prop := forall a lg p q, nth_error agents a = Some lg -> In p (d_paths lg) -> In q (d_paths lg) -> pvar p = pvar q.
  (** The map permits every destination. *)
  Definition map_permits : Prop := forall a lg modes bs ps ds r d, nth_error agents a = Some lg -> g_reset modes bs a ps = Some (ds, r) -> In d ds ->
    permitted (d_types lg) maph (nth a modes []) d.

  (** Some path may fire / is certain in step [i] of the tubes. *)
  Definition may_leave (modes : list mode) (trs : list (list vec)) (i : nat) : Prop :=
    exists bs0 bs a lg p, box_at trs 0 = Some bs0 /\ box_at trs i = Some bs /\ checked agents a lg /\ In p (d_paths lg) /\
      g_disc modes bs0 a p = true /\ g_hyb modes bs a p = true /\ fst (g_cont modes bs a p) = true.
  Definition must_leave (modes : list mode) (trs : list (list vec)) (i : nat) : Prop :=
    exists bs0 bs a lg p, box_at trs 0 = Some bs0 /\ box_at trs i = Some bs /\ checked agents a lg /\ In p (d_paths lg) /\
      g_disc modes bs0 a p = true /\ g_hyb modes bs a p = true /\ snd (g_cont modes bs a p) = true.

  (** The three conditions on the nodes of the tree.  Once a path may fire, one may fire in every later step, up to a
      step where one is certain. *)
  Definition no_gap (modes : list mode) (trs : list (list vec)) : Prop :=
    forall i j, i < j -> (forall tr, In tr trs -> 2 * j + 1 < length tr) -> may_leave modes trs i ->
      may_leave modes trs j \/ exists k, i <= k /\ k < j /\ must_leave modes trs k.
  (** No path is certain before all initial sets of the node have been entered. *)
  Definition patient (nd : node) (trs : list (list vec)) : Prop :=
    forall i inits, must_leave (n_mode nd) trs i -> In inits (n_init nd) -> length inits <= i + 1.
  (** The hits of every transition are in consecutive steps, one reset set in each. *)
  Definition aligned (ts : list (transition path (vec * vec))) : Prop :=
    forall t, In t ts -> exists i0, t_idx t = seq i0 (length (t_inits t)).
End Evaluation.
