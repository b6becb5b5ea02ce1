(** The DryVR tubes with the global discrepancy: property C107.

    [global_tube disc hull sim samples lo hi] is the tube computed with [bloating_method="GLOBAL"] for the box [lo, hi] from the simulation
    from its centre and the simulations from the points [samples]; [disc] selects verse/analysis/dryvr_disc.py; [hull] is the
    library that computes convex hulls. *)
From Coq Require Import Reals Lra.
From Verif Require Import Base BaseFacts Dryvr DryvrProofs DryvrGlobal DryvrGlobalSpec DryvrGlobalProofs DryvrGlobalMain.
Set Implicit Arguments.
Open Scope R_scope.

(** C107: if the library returns convex hulls, then every tube that is returned contains the whole initial box at time 0. *)
Theorem C107_initial_box :
  forall disc hull d tm sim samples lo hi tb, (forall pts vs, hull pts = Some vs -> corners_of pts vs) ->
  rbox_of d lo hi -> rsimulates d 2 tm sim -> (forall p, In p samples -> length p = d) -> (forall k, tm k < tm (S k)) -> tm 0%nat = 0 ->
  global_tube disc hull sim samples lo hi = Some tb -> forall s, rin_box lo hi s -> rin_step tb 0 0 s.
Proof.
  intros disc hull d tm sim samples lo hi tb H B S D T T0 E. destruct (@whole_tube disc hull d tm sim samples lo hi H B S D T T0 tb E) as (n & _ & _ & _ & _ & G & _). rewrite T0 in G. exact G.
Qed.
Print Assumptions C107_initial_box.

(** C107, training traces: the tube has a step for every row of the shortest trace (between every two rows), and contains, at every sampled
    time, the trace from the centre and every trace that starts in the inner part of the box.  Missing: traces from the outermost 1e-10th
    of the box ([C107_boundary_trace_refuted]), with the method for discrete time boxes with a side shorter than 2e-10 that is not a point,
    and traces that do not start at time 0 ([C107_late_refuted]). *)
Theorem C107_training_traces_partial :
  forall disc hull d tm sim samples lo hi tb, (forall pts vs, hull pts = Some vs -> corners_of pts vs) ->
  rbox_of d lo hi -> rsimulates d 2 tm sim -> (forall p, In p samples -> length p = d) -> (forall k, tm k < tm (S k)) -> tm 0%nat = 0 ->
  global_tube disc hull sim samples lo hi = Some tb ->
  exists n, (2 <= n)%nat /\ (forall p, p = rmiddle lo hi \/ In p samples -> (n <= length (sim p))%nat) /\
    (exists p, (p = rmiddle lo hi \/ In p samples) /\ n = length (sim p)) /\
    length tb = (2 * (if disc then n else n - 1))%nat /\
    forall p k s j, p = rmiddle lo hi \/ In p samples /\ rinner lo hi p /\ (disc = true -> rsized lo hi) ->
      nth_error (sim p) k = Some (tm k :: s) -> (k < n)%nat -> rsteps disc n k j -> rin_step tb j (tm k) s.
Proof.
  intros disc hull d tm sim samples lo hi tb H B S D T T0 E. destruct (@whole_tube disc hull d tm sim samples lo hi H B S D T T0 tb E) as (n & N & A1 & A2 & L & _ & G). exists n. auto.
Qed.
Print Assumptions C107_training_traces_partial.

(** ** Concrete tubes: x' = f x over one step from [-1, 1], one sample *)
(** A hull of the points that one step leads to; None for other points. *)
Definition hull2 (pts : list (R * R)) : option (list nat) :=
  match pts with
  | [a; b; p; e] =>
      if Req_EM_T (fst a) 1 then if Req_EM_T (fst b) 0 then if Req_EM_T (fst p) 0 then if Req_EM_T (fst e) 1 then
        if Req_EM_T (snd p) (snd e) then if Rlt_dec (snd p) (snd b) then if Rlt_dec (snd p) (snd a) then Some [0; 1; 2; 3]%nat
        else None else None else None else None else None else None else None
  | _ => None
  end.
Lemma hull2_ok pts vs : hull2 pts = Some vs -> corners_of pts vs.
Proof.
  destruct pts as [|[a1 a2] [|[b1 b2] [|[p1 p2] [|[e1 e2] [|x pts]]]]]; try discriminate. unfold hull2. cbn [fst snd].
  destruct (Req_EM_T a1 1) as [->|]; [|discriminate]. destruct (Req_EM_T b1 0) as [->|]; [|discriminate]. destruct (Req_EM_T p1 0) as [->|]; [|discriminate]. destruct (Req_EM_T e1 1) as [->|]; [|discriminate].
  destruct (Req_EM_T p2 e2) as [->|]; [|discriminate]. destruct (Rlt_dec e2 b2); [|discriminate]. destruct (Rlt_dec e2 a2); [|discriminate]. intros [= <-]. split; [|split; [|split]].
  - exists (1, a2), (0, e2), (0, b2). cbn [In]. split; [auto|]. split; [auto|]. split; [auto|]. unfold left_of. cbn [fst snd]. lra.
  - intros v [<-|[<-|[<-|[<-|[]]]]]; cbn; lia.
  - intros p [<-|[<-|[<-|[<-|[]]]]]; [exists (fun v => if (v =? 0)%nat then 1 else 0)|exists (fun v => if (v =? 1)%nat then 1 else 0)|exists (fun v => if (v =? 2)%nat then 1 else 0)|exists (fun v => if (v =? 3)%nat then 1 else 0)];
      (split; [intros v _; destruct (v =? _)%nat; lra|]); cbn; repeat split; lra.
  - intros a b p (i & A & B) Hp. assert (Hi : (i < 4)%nat) by (apply (nth_error_Some [0; 1; 2; 3]%nat); congruence). destruct i as [|[|[|[|i]]]]; [| | | |lia]; cbn in A; injection A as <-; cbn in B; injection B as <-; cbn [nth]; unfold left_of;
      destruct Hp as [<-|[<-|[<-|[<-|[]]]]]; cbn [fst snd]; lra.
Qed.

Definition one_step (t0 f : R) (p : list R) : list (list R) := [t0 :: p; (t0 + 1) :: map (Rmult f) p].
Definition clock (t0 : R) (k : nat) : R := t0 + INR k.
Lemma one_step_simulates t0 f d : rsimulates d 2 (clock t0) (one_step t0 f).
Proof.
  intros p Lp. split; [cbn; lia|]. unfold clock. split; [cbn; do 2 f_equal; ring|]. intros [|[|k]] row E; cbn in E.
  - injection E as <-. exists p. split; [cbn; f_equal; ring|exact Lp].
  - injection E as <-. exists (map (Rmult f) p). split; [reflexivity|]. rewrite map_length. exact Lp.
  - destruct k; discriminate.
Qed.
Lemma clock_rising t0 k : clock t0 k < clock t0 (S k).
Proof. unfold clock. rewrite S_INR. lra. Qed.
Lemma unit_box : rbox_of 1 [-(1)] [1].
Proof. split; [reflexivity|]. split; [reflexivity|]. intros [|i] Hi; [cbn; lra|lia]. Qed.

Section Concrete.
  Variables (disc : bool) (t0 f x0 : R).
  Hypothesis f_pos : 0 < f.
  Hypothesis x_pos : 0 < x0.
  Notation c := [[t0; 0]; [t0 + 1; 0]].
  Notation ts := [[[t0; x0]; [t0 + 1; f * x0]]].
  Definition sens2 : R := f * x0 / (x0 + small).
  Definition level2 : R := ln (Rmax sens2 eps).

  Lemma rsens2 : rsens disc c ts [1] 0 1 = Some sens2.
  Proof.
    unfold rsens, rnorms, rdist, rentry, rrow. cbn. f_equal. unfold sens2.
    assert (N : norm_sens disc 1 = 1) by (unfold norm_sens, small; destruct disc; [destruct (Rlt_dec _ _); [lra|reflexivity]|destruct (Req_EM_T _ _); [lra|reflexivity]]). rewrite N.
    replace (0 - f * x0) with (- (f * x0)) by ring. rewrite Rabs_Ropp, (Rabs_pos_eq (f * x0)) by (apply Rmult_le_pos; lra).
    replace (0 / 1 - x0 / 1) with (- x0) by field. rewrite Rabs_Ropp, (Rabs_pos_eq x0) by lra. rewrite Rmax_right by lra. field. unfold small. lra.
  Qed.
  Lemma level_0 : ln (Rmax 1 eps) = 0.
  Proof. rewrite Rmax_left by (unfold eps; lra). apply ln_1. Qed.
  Lemma column2 : exists v0 v1, column disc hull2 c ts [1] 0 = Some [v0; v1] /\ v0 = exp (level2 * t0) /\ v1 = exp (level2 * (t0 + 1)).
  Proof.
    unfold column, hull_points. cbn [length nth seq mapM obind]. unfold level at 1 2. cbn [nth]. destruct (Req_EM_T 1 0); [lra|]. rewrite rsens2. cbn [obind tl rmin fold_left]. fold level2. rewrite level_0.
    unfold rel, time, rrow. cbn [nth Nat.sub seq map app]. set (nm := Rmin (level2 - 10) (-10)).
    assert (N1 : nm < 0) by (unfold nm; pose proof (Rmin_r (level2 - 10) (-10)); lra). assert (N2 : nm < level2) by (unfold nm; pose proof (Rmin_l (level2 - 10) (-10)); lra).
    replace (t0 + 1 - t0) with 1 by ring. replace (t0 - t0) with 0 by ring. cbn [obind fst snd]. unfold hull2. cbn [fst snd].
    destruct (Req_EM_T 1 1); [|lra]. destruct (Req_EM_T 0 0); [|lra]. destruct (Req_EM_T nm nm); [|lra]. destruct (Rlt_dec nm 0); [|lra]. destruct (Rlt_dec nm level2); [|lra]. cbn [obind edges tl firstn app combine mapM].
    unfold separator_of at 1. cbn [nth_error obind fst snd]. destruct (Req_EM_T 0 nm); [lra|]. destruct (Req_EM_T level2 nm); [lra|]. destruct (Rlt_dec 0 1); [|lra]. destruct (Req_EM_T 0 0); [|lra]. cbn [obind].
    unfold separator_of at 1. cbn [nth_error obind fst snd]. destruct (Req_EM_T nm nm); [|lra]. cbn [obind].
    unfold separator_of at 1. cbn [nth_error obind fst snd]. destruct (Req_EM_T nm nm); [|lra]. cbn [obind].
    unfold separator_of at 1. cbn [nth_error obind fst snd]. destruct (Req_EM_T level2 nm); [lra|]. destruct (Req_EM_T nm nm); [|lra]. cbn [obind concat app sort_seps fold_right sort_in fills fill s_from s_to Nat.eqb Nat.ltb Nat.leb andb Nat.min seq map length Nat.sub repeat snd].
    eexists _, _. split; [reflexivity|]. unfold seg, time, rrow, norm_scale. cbn [s_base s_slope nth]. destruct (Req_EM_T 1 0); [lra|].
    replace ((level2 - 0) / (1 - 0)) with level2 by field. rewrite Rmult_0_l, Rminus_0_r, exp_0. split; [|ring]. replace (1 * 1 * exp (level2 * t0)) with (exp (level2 * t0)) by ring. apply Rmax_left. left. apply exp_pos.
  Qed.
  Lemma tube2 : let u0 := exp (level2 * t0) in let u1 := exp (level2 * (t0 + 1)) in
    global_tube disc hull2 (one_step t0 f) [[x0]] [-(1)] [1] =
      Some (if disc then [[t0 - 0; 0 - u0]; [t0 + 0; 0 + u0]; [t0 + 1 - 0; 0 - u1]; [t0 + 1 + 0; 0 + u1]]
            else [[Rmin (t0 + 1 - 0) (t0 - 0); Rmin (0 - u1) (0 - u0)]; [Rmax (t0 + 1 + 0) (t0 + 0); Rmax (0 + u1) (0 + u0)]]).
  Proof.
    cbv zeta. unfold global_tube, one_step. cbn [length Nat.eqb zipw map fold_left Nat.min firstn]. replace ((1 + - (1)) / 2) with 0 by field. replace ((1 - - (1)) / 2) with 1 by field. rewrite (Rmult_0_r f).
    assert (Sh : rshaped c ts [1] = true). { unfold rshaped, rrow. cbn. destruct (Req_EM_T t0 t0); [|lra]. destruct (Req_EM_T (t0 + 1) (t0 + 1)); [reflexivity|lra]. }
    rewrite Sh. unfold global_segment. cbn [length seq mapM]. destruct column2 as (v0 & v1 & -> & E0 & E1). cbn [obind forallb]. rewrite <- E0, <- E1.
    assert (P0 : 0 <= v0) by (rewrite E0; left; apply exp_pos). assert (P1 : 0 <= v1) by (rewrite E1; left; apply exp_pos). destruct (Rle_dec 0 v0); [|contradiction]. destruct (Rle_dec 0 v1); [|contradiction]. cbn [andb].
    unfold rrow. destruct disc; reflexivity.
  Qed.
End Concrete.

(** C107 is false for traces that do not start at time 0: the exponentials are evaluated at the times of the rows, but were fitted to the
    times since the first row.  x' = x / 4 from [-1, 1] between the times 1 and 2, with the sample 1/2: the tube does not contain
    the initial state 1. *)
Theorem C107_late_refuted :
  forall disc, exists hull d tm sim samples lo hi tb s, (forall pts vs, hull pts = Some vs -> corners_of pts vs) /\
  rbox_of d lo hi /\ rsimulates d 2 tm sim /\ (forall p, In p samples -> length p = d /\ rinner lo hi p) /\ (forall k, tm k < tm (S k)) /\ tm 0%nat = 1 /\
  global_tube disc hull sim samples lo hi = Some tb /\ rin_box lo hi s /\ ~ rin_step tb 0 1 s.
Proof.
  intros disc. exists hull2, 1%nat, (clock 1), (one_step 1 (1 / 4)), [[1 / 2]], [-(1)], [1]. eexists. exists [1].
  split; [apply hull2_ok|]. split; [apply unit_box|]. split; [apply one_step_simulates|]. split.
  { intros p [<-|[]]. split; [reflexivity|]. split; [reflexivity|]. intros [|i] Hi; [|cbn in Hi; lia]. cbn [nth]. replace (1 / 2 - (1 + - (1)) / 2) with (1 / 2) by field. rewrite Rabs_pos_eq by lra. lra. }
  split; [apply clock_rising|]. split; [unfold clock; cbn; ring|]. split; [apply tube2; lra|]. split; [split; [reflexivity|]; split; [reflexivity|]; intros [|i] Hi; [cbn; lra|cbn in Hi; lia]|].
  assert (S1 : sens2 (1 / 4) (1 / 2) <= 1 / 4) by (unfold sens2, small; lra). assert (M : Rmax (sens2 (1 / 4) (1 / 2)) eps <= 1 / 4) by (apply Rmax_lub; [exact S1|unfold eps; lra]).
  assert (Mp : 0 < Rmax (sens2 (1 / 4) (1 / 2)) eps) by (apply Rlt_le_trans with eps; [unfold eps; lra|apply Rmax_r]).
  assert (U0 : exp (level2 (1 / 4) (1 / 2) * 1) <= 1 / 4) by (rewrite Rmult_1_r; unfold level2; rewrite exp_ln by exact Mp; exact M).
  assert (U1 : exp (level2 (1 / 4) (1 / 2) * (1 + 1)) <= 1 / 4).
  { replace (level2 (1 / 4) (1 / 2) * (1 + 1)) with (level2 (1 / 4) (1 / 2) * 1 + level2 (1 / 4) (1 / 2) * 1) by ring. rewrite exp_plus. pose proof (exp_pos (level2 (1 / 4) (1 / 2) * 1)). nra. }
  intros (l & h & E1 & E2 & (_ & _ & HB)). specialize (HB 1%nat). destruct disc; cbn in E1, E2; injection E1 as <-; injection E2 as <-; cbn [length nth] in HB; destruct HB as [_ HB]; try lia; [lra|].
  apply (Rle_not_lt _ _ HB). apply Rmax_lub_lt; lra.
Qed.
Print Assumptions C107_late_refuted.

(** C107 is false for a training trace that starts on the boundary: x' = 2 x from [-1, 1] with the sample 1, which reaches 2. *)
Theorem C107_boundary_trace_refuted :
  forall disc, exists hull d tm sim samples lo hi tb p s, (forall pts vs, hull pts = Some vs -> corners_of pts vs) /\
  rbox_of d lo hi /\ rsized lo hi /\ rsimulates d 2 tm sim /\ In p samples /\ rin_box lo hi p /\ (forall q, In q samples -> length q = d) /\ (forall k, tm k < tm (S k)) /\ tm 0%nat = 0 /\
  global_tube disc hull sim samples lo hi = Some tb /\ nth_error (sim p) 1 = Some (tm 1%nat :: s) /\ forall j, rsteps disc 2 1 j -> ~ rin_step tb j (tm 1%nat) s.
Proof.
  intros disc. exists hull2, 1%nat, (clock 0), (one_step 0 2), [[1]], [-(1)], [1]. eexists. exists [1], [2 * 1].
  split; [apply hull2_ok|]. split; [apply unit_box|]. split; [intros [|i] Hi; [right; cbn; lra|cbn in Hi; lia]|]. split; [apply one_step_simulates|]. split; [left; reflexivity|]. split; [split; [reflexivity|]; split; [reflexivity|]; intros [|i] Hi; [cbn; lra|cbn in Hi; lia]|].
  split; [intros q [<-|[]]; reflexivity|]. split; [apply clock_rising|]. split; [unfold clock; cbn; ring|]. split; [apply tube2; lra|]. split; [cbn; unfold clock; cbn; do 3 f_equal; ring|].
  assert (S1 : sens2 2 1 < 2). { unfold sens2. apply Rmult_lt_reg_r with (1 + small); [unfold small; lra|]. unfold Rdiv. rewrite Rmult_assoc, Rinv_l by (unfold small; lra). unfold small. lra. }
  assert (M : Rmax (sens2 2 1) eps < 2) by (apply Rmax_lub_lt; [exact S1|unfold eps; lra]). assert (Mp : 0 < Rmax (sens2 2 1) eps) by (apply Rlt_le_trans with eps; [unfold eps; lra|apply Rmax_r]).
  assert (U1 : exp (level2 2 1 * (0 + 1)) < 2) by (rewrite Rplus_0_l, Rmult_1_r; unfold level2; rewrite exp_ln by exact Mp; exact M). assert (U0 : exp (level2 2 1 * 0) = 1) by (rewrite Rmult_0_r; apply exp_0).
  intros j Hj (l & h & E1 & E2 & (_ & _ & HB)). specialize (HB 1%nat). assert (j = if disc then 1%nat else 0%nat) as -> by (unfold rsteps in Hj; destruct disc; lia).
  destruct disc; cbn in E1, E2; injection E1 as <-; injection E2 as <-; cbn [length nth] in HB; destruct HB as [_ HB]; try lia; [lra|].
  apply (Rle_not_lt _ _ HB). apply Rmax_lub_lt; lra.
Qed.
Print Assumptions C107_boundary_trace_refuted.

(** A case that meets the hypotheses: x' = 2 x from [-1, 1] with the inner sample 1/2; both modules return a tube. *)
Example ex_C107 : forall disc, (forall pts vs, hull2 pts = Some vs -> corners_of pts vs) /\ rbox_of 1 [-(1)] [1] /\ rsized [-(1)] [1] /\ rsimulates 1 2 (clock 0) (one_step 0 2) /\
  (forall k, clock 0 k < clock 0 (S k)) /\ clock 0 0 = 0 /\ rinner [-(1)] [1] [1 / 2] /\ exists tb, global_tube disc hull2 (one_step 0 2) [[1 / 2]] [-(1)] [1] = Some tb.
Proof.
  intros disc. split; [apply hull2_ok|]. split; [apply unit_box|]. split; [intros [|i] Hi; [right; cbn; lra|cbn in Hi; lia]|]. split; [apply one_step_simulates|]. split; [apply clock_rising|]. split; [unfold clock; cbn; ring|].
  split; [|eexists; apply tube2; lra]. split; [reflexivity|]. intros [|i] Hi; [|cbn in Hi; lia]. cbn [nth]. replace (1 / 2 - (1 + - (1)) / 2) with (1 / 2) by field. rewrite Rabs_pos_eq by lra. lra.
Qed.
