(** The DryVR tubes with the global discrepancy: verse/analysis/dryvr.py and verse/analysis/dryvr_disc.py with
    [bloating_method="GLOBAL"] ([method="PWGlobal"] of [get_reachtube_segment]).  The logarithms of the sensitivities are enclosed
    by a convex hull, whose upper edges give an exponential bound for every interval of time.

    Numbers are reals.  [hull] is [spatial.ConvexHull(points).vertices], None for a QhullError.  As in Dryvr.v the traces are not truncated
    by a guard checker.  The separators are sorted by their starting times only: if two of these are equal, the assertions
    on the indices fail in every order. *)
From Coq Require Import Reals.
From Verif Require Import Base Dryvr.
Set Implicit Arguments.
Open Scope R_scope.

Notation rvec := (list R).
(** dryvr.py:6-7, [_EPSILON] and [_SMALL_EPSILON] *)
Definition eps : R := 1 / 1000000.
Definition small : R := 1 / 10000000000.
(** dryvr.py:21 and dryvr_disc.py:21-22 *)
Definition norm_sens (disc : bool) (r : R) : R :=
  if disc then (if Rlt_dec r small then 1 else r) else (if Req_EM_T r 0 then 1 else r).
(** dryvr.py:64, dryvr_disc.py:49 *)
Definition norm_scale (r : R) : R := if Req_EM_T r 0 then 1 else r.
(** [pdist] with the Chebyshev distance, [np.max] and [np.min] *)
Definition rdist (a b : rvec) : R := fold_left Rmax (zipw (fun x y => Rabs (x - y)) a b) 0.
Definition rmax (l : rvec) : option R := match l with [] => None | v :: vs => Some (fold_left Rmax vs v) end.
Definition rmin (l : rvec) : option R := match l with [] => None | v :: vs => Some (fold_left Rmin vs v) end.

(** dryvr.py:99-126: start time, end time, slope, intercept, and the indices of the rows. *)
Record separator := mks { s_start : R; s_end : R; s_slope : R; s_base : R; s_from : nat; s_to : nat }.
Fixpoint sort_in (s : separator) (l : list separator) : list separator :=
  match l with [] => [s] | x :: l' => if Rle_dec (s_start s) (s_start x) then s :: l else x :: sort_in s l' end.
Definition sort_seps (l : list separator) : list separator := fold_right sort_in [] l.

Section Segment.
  Variable disc : bool.
  Variable hull : list (R * R) -> option (list nat).
  Variable c : list rvec.
  Variable ts : list (list rvec).
  Variable radii : rvec.
  Notation traces := (c :: ts).
  Notation n := (length c).
  Definition rrow (t : list rvec) (k : nat) : rvec := nth k t [].
  Definition rentry (t : list rvec) (k d : nat) : R := nth (S d) (rrow t k) 0.
  Definition time (k : nat) : R := nth 0 (rrow c k) 0.
  Definition rnorms : rvec := map (norm_sens disc) radii.

  (** dryvr.py:14-43, [all_sensitivities_calc] *)
  Definition rsens (d k : nat) : option R :=
    rmax (map (fun p => Rabs (rentry (fst p) k d - rentry (snd p) k d) / nth d rnorms 1
                        / (rdist (zipw Rdiv (tl (rrow (fst p) 0)) rnorms) (zipw Rdiv (tl (rrow (snd p) 0)) rnorms) + small)) (pairs traces)).
  (** dryvr.py:56-62 and 76-77: the logarithm of the sensitivity *)
  Definition level (d k : nat) : option R :=
    do y <- match k with O => Some (if Req_EM_T (nth d radii 0) 0 then 0 else 1) | _ => rsens d k end;
    Some (ln (Rmax y eps)).
  (** [x_points]: times relative to the first *)
  Definition rel (k : nat) : R := time k - time 0.
  (** dryvr.py:78-96: the points of dimension [d] and the level below all of them *)
  Definition hull_points (d : nat) : option (R * list (R * R)) :=
    do ls <- mapM (level d) (seq 0 n);
    do m <- rmin (tl ls);
    let new_min := Rmin (m - 10) (-10) in
    let new_points := if Req_EM_T (nth d radii 0) 0 then [(rel 1, new_min); (rel (n - 1), new_min)]
                      else [(rel 0, nth 0 ls 0); (rel 0, new_min); (rel (n - 1), new_min)] in
    Some (new_min, map (fun k => (rel k, nth k ls 0)) (seq 1 (n - 1)) ++ new_points).
  (** dryvr.py:99-126; the edges lead from right to left *)
  Definition separator_of (new_min : R) (pts : list (R * R)) (edge : nat * nat) : option (list separator) :=
    let (e, s) := edge in
    do pe <- nth_error pts e; do ps <- nth_error pts s;
    if Req_EM_T (snd ps) new_min then Some [] else if Req_EM_T (snd pe) new_min then Some [] else
    let slope := (snd pe - snd ps) / (fst pe - fst ps) in
    if Rlt_dec (fst ps) (fst pe) then
      Some [mks (fst ps) (fst pe) slope (snd ps - fst ps * slope) (if Req_EM_T (fst ps) 0 then O else S s) (S e)]
    else None.
  (** [zip(vertices[:-1], vertices[1:])] and the edge from the last vertex to the first *)
  Definition edges (vs : list nat) : list (nat * nat) := combine vs (tl vs ++ firstn 1 vs).
  (** dryvr.py:131-144; the times of the rows are those of the trace, not relative to the first *)
  Definition seg (scale : R) (s : separator) (k : nat) : R := scale * exp (s_base s) * exp (s_slope s * time k).
  Definition fill (scale : R) (st : R * nat * rvec) (s : separator) : option (R * nat * rvec) :=
    let '(prev_val, prev_ind, col) := st in
    if (prev_ind =? s_from s)%nat && (s_from s <? s_to s)%nat && (s_from s <? n)%nat then
      let v k := if (k =? s_from s)%nat then Rmax (seg scale s k) prev_val else seg scale s k in
      Some (v (Nat.min (s_to s) (n - 1)), s_to s,
            map (fun k => if (s_from s <=? k)%nat && (k <=? s_to s)%nat then v k else nth k col 0) (seq 0 n))
    else None.
  Fixpoint fills (scale : R) (seps : list separator) (st : R * nat * rvec) : option (R * nat * rvec) :=
    match seps with [] => Some st | s :: seps' => do st' <- fill scale st s; fills scale seps' st' end.
  (** Column [d] of [df] *)
  Definition column (d : nat) : option rvec :=
    let r := nth d radii 0 in
    do mp <- hull_points d;
    do vs <- hull (snd mp);
    do seps <- mapM (separator_of (fst mp) (snd mp)) (edges vs);
    do st <- fills (norm_scale r) (sort_seps (concat seps)) (0, if Req_EM_T r 0 then 1%nat else 0%nat, r :: repeat 0 (n - 1));
    Some (snd st).
  (** dryvr.py:150-158 and 316-318, dryvr_disc.py 109-115 and 263-266 *)
  Definition global_segment : option (list rvec) :=
    do cols <- mapM column (seq 0 (length radii));
    if forallb (forallb (fun v => if Rle_dec 0 v then true else false)) cols then
      let df k := 0 :: map (fun col => nth k col 0) cols in
      let lower k := zipw Rminus (rrow c k) (df k) in
      let upper k := zipw Rplus (rrow c k) (df k) in
      Some (if disc then flat_map (fun k => [lower k; upper k]) (seq 0 n)
            else flat_map (fun k => [zipw Rmin (lower (S k)) (lower k); zipw Rmax (upper (S k)) (upper k)]) (seq 0 (n - 1)))
    else None.
End Segment.

(** dryvr.py:168-209, 234-246 and 249-320 with [bloating_method = GLOBAL].  The arrays are rectangular; dryvr.py:54 asserts that all
    traces have the times of the first. *)
Definition rshaped (c : list rvec) (ts : list (list rvec)) (radii : rvec) : bool :=
  negb (length c =? 0)%nat && forallb (fun t => (length t =? length c)%nat && forallb (fun r => length r =? S (length radii))%nat t) (c :: ts) &&
  forallb (fun t => forallb (fun k => if Req_EM_T (nth 0 (rrow t k) 0) (nth 0 (rrow c k) 0) then true else false) (seq 0 (length c))) ts.
Definition global_tube (disc : bool) (hull : list (R * R) -> option (list nat)) (sim : rvec -> list rvec) (samples : list rvec) (lower upper : rvec)
  : option (list rvec) :=
  if (length lower =? length upper)%nat then
    let center := zipw (fun u l => (u + l) / 2) upper lower in
    let radii := zipw (fun u l => (u - l) / 2) upper lower in
    let n := fold_left (fun m x => Nat.min m (length x)) (map sim samples) (length (sim center)) in
    let c := firstn n (sim center) in
    let ts := map (fun p => firstn n (sim p)) samples in
    if rshaped c ts radii then global_segment disc hull c ts radii else None
  else None.
