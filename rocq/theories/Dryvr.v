(** The DryVR tubes: verse/analysis/dryvr.py and verse/analysis/dryvr_disc.py, for the piecewise ("PW")
    discrepancy, which is the method [verify] uses.  The global method (convex hulls of logarithms) is
    in DryvrGlobal.v; the guard-based truncation of the traces ([guard_checker], always None in the library) is not modelled.

    A trace is a list of rows [time :: state].  Numbers are rationals. *)
From Verif Require Import Base Boxes.
From Coq Require Import Qabs.
Set Implicit Arguments.
Open Scope nat_scope.

(** verse/analysis/dryvr.py:7, [_SMALL_EPSILON] (also dryvr_disc.py). *)
Definition small_eps : Q := 1 # 10000000000.

(** verse/analysis/dryvr.py:21 and dryvr_disc.py:21-22: a radius of 0 (below 1e-10 in [dryvr_disc]) is replaced by 1. *)
Definition norm_radius (disc : bool) (r : Q) : Q :=
  if disc then (if Qle_bool small_eps r then r else 1%Q) else (if Qeq_bool r 0 then 1%Q else r).

(** [spatial.distance.pdist]: the pairs in order. *)
Fixpoint pairs {A : Type} (l : list A) : list (A * A) :=
  match l with
  | [] => []
  | x :: r => map (pair x) r ++ pairs r
  end.

(** The Chebyshev distance. *)
Definition dist_inf (a b : vec) : Q := fold_left Qmax (zipw (fun x y => Qabs (x - y)) a b) 0%Q.

(** [np.max]; a ValueError without elements. *)
Definition list_qmax (l : list Q) : option Q := match l with [] => None | v :: vs => Some (fold_left Qmax vs v) end.

Section Segment.
  Variable disc : bool.
  Variable traces : list (list vec).
  Variable radii : vec.

  Definition norms : vec := map (norm_radius disc) radii.
  (** verse/analysis/dryvr.py:63 and dryvr_disc.py:49: for scaling back, only a radius of 0 is replaced, also in [dryvr_disc]. *)
  Definition scales : vec := map (norm_radius false) radii.
  Definition row (t : list vec) (k : nat) : vec := nth k t [].
  Definition entry (t : list vec) (k d : nat) : Q := nth (S d) (row t k) 0%Q.

  (** verse/analysis/dryvr.py:14-43, [all_sensitivities_calc], the element for dimension [d] and time [k]. *)
  Definition sensitivity (d k : nat) : option Q :=
    list_qmax (map (fun p =>
      ((Qabs (entry (fst p) k d - entry (snd p) k d) / nth d norms 1)
       / (dist_inf (zipw Qdiv (tl (row (fst p) 0)) norms) (zipw Qdiv (tl (row (snd p) 0)) norms) + small_eps))%Q) (pairs traces)).

  (** verse/analysis/dryvr.py:55-70: row [k] of [df]; column 0 (time) is 0. *)
  Definition df (k : nat) : option vec :=
    match k with
    | 0 => Some (0%Q :: zipw (fun r n => (if Qeq_bool r 0 then 0 else 1) * n)%Q radii scales)
    | _ => do ys <- mapM (fun d => sensitivity d k) (seq 0 (length radii)); Some (0%Q :: zipw Qmult ys scales)
    end.

  (** The arrays are rectangular ([np.array] of the traces, broadcasting with the radii); line 54 asserts that
      all traces have the times of the first. *)
  Definition shaped : bool :=
    match traces with
    | [] => false
    | c :: ts =>
      negb (length c =? 0) && forallb (fun t => (length t =? length c) && forallb (fun r => length r =? S (length radii)) t) traces &&
      forallb (fun t => forallb (fun k => Qeq_bool (nth 0 (row t k) 0%Q) (nth 0 (row c k) 0%Q)) (seq 0 (length c))) ts
    end.

  (** verse/analysis/dryvr.py:46-165 with [method="PW"], [get_reachtube_segment], and lines 316-318 of
      [calc_bloated_tube], which interleave the bounds.  [dryvr_disc] (lines 113-115) bloats each row by itself. *)
  Definition reachtube_segment : option (list vec) :=
    if shaped then
      match traces with
      | [] => None
      | c :: _ =>
        do dfs <- mapM df (seq 0 (length c));
        if forallb (forallb (fun q => Qle_bool 0 q)) dfs then
          let lower k := zipw Qminus (row c k) (nth k dfs []) in
          let upper k := zipw Qplus (row c k) (nth k dfs []) in
          Some (if disc then flat_map (fun k => [lower k; upper k]) (seq 0 (length c))
                else flat_map (fun k => [zipw Qmin (lower (S k)) (lower k); zipw Qmax (upper (S k)) (upper k)]) (seq 0 (length c - 1)))
        else None
      end
    else None.
End Segment.

(** verse/analysis/dryvr.py:168-209, [calcCenterPoint] and [calcDelta]. *)
Definition center_point (lower upper : vec) : option vec :=
  if length lower =? length upper then Some (zipw (fun u l => (u + l) / 2)%Q upper lower) else None.
Definition delta (lower upper : vec) : option vec :=
  if length lower =? length upper then Some (zipw (fun u l => (u - l) / 2)%Q upper lower) else None.

(** verse/analysis/dryvr.py:234-246, [trimTraces]. *)
Definition trim_traces (traces : list (list vec)) : list (list vec) :=
  match traces with
  | [] => []
  | t :: ts => let n := fold_left (fun m x => Nat.min m (length x)) ts (length t) in map (firstn n) traces
  end.

(** verse/analysis/dryvr.py:249-320, [calc_bloated_tube] with [bloating_method = PW]: [sim] is the simulation
    function in the mode of the agent for the given horizon, [samples] the points drawn by [randomPoint]. *)
Definition calc_bloated_tube (disc : bool) (sim : vec -> list vec) (samples : list vec) (lower upper : vec) : option (list vec) :=
  do c <- center_point lower upper;
  do r <- delta lower upper;
  reachtube_segment disc (trim_traces (sim c :: map sim samples)) r.
