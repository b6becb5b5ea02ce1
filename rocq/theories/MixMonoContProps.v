(** C108: mixed-monotone reachability in continuous time. *)
From Coq Require Import Reals Qreals Qround Qabs Lia Lra.
From Verif Require Import Base Round MixMonoCont MixMonoContSpec MixMonoContProofs MixMonoContMain.
Set Implicit Arguments.
Open Scope R_scope.

(** At the sampled times every run is in the tube: a run is in step [k] both at [k * dt] and at [(k+1) * dt], and these are the times of the rows
    (up to half a unit of the tenth decimal).  Missing: the times between the samples, see below. *)
Theorem C108_sampled_states_partial n m f d w what dt solve lo hi rest T :
  decomposes n m f d -> length w = m -> length lo = n -> length hi = n -> (0 < dt)%Q -> exact n solve (embedded d w what) (lo, hi) ->
  exists tube, compute_reachtube_mixmono_cont d w what dt solve ((lo, hi) :: rest) T = Some tube /\
    length tube = (2 * Z.to_nat (Qceiling (T / dt)))%nat /\
    forall k, (k < Z.to_nat (Qceiling (T / dt)))%nat ->
      (exists r1 r2, nth_error tube (2 * k) = Some r1 /\ nth_error tube (2 * k + 1) = Some r2 /\
         (Qabs (fst r1 - inject_Z (Z.of_nat k) * dt) <= (1 # 2) / pow10 10)%Q /\
         (Qabs (fst r2 - inject_Z (Z.of_nat (S k)) * dt) <= (1 # 2) / pow10 10)%Q) /\
      forall s, run_of n f w what lo hi s ->
        cont_step tube k (s (INR k * Q2R dt)) /\ cont_step tube k (s (INR (S k) * Q2R dt)).
Proof.
  intros Dec Lw Ll Lh Dt Ex. eexists. split; [apply tube_is with (n := n); assumption|].
  split; [unfold cont_rows; rewrite flat2_len, seq_length; reflexivity|]. intros k Hk. split.
  - destruct (step_is d w what dt solve lo hi Hk) as [A B]. eexists. eexists. split; [exact A|]. split; [exact B|]. split; apply row_time.
  - intros s R. apply (sampled Dec Lw Dt Ex Hk R).
Qed.

(** Between two samples a run is in the step too if both bounding curves only rise or only fall during the step. *)
Theorem C108_between_partial n m f d w what dt solve lo hi rest T tube :
  decomposes n m f d -> length w = m -> length lo = n -> length hi = n -> (0 < dt)%Q -> exact n solve (embedded d w what) (lo, hi) ->
  compute_reachtube_mixmono_cont d w what dt solve ((lo, hi) :: rest) T = Some tube ->
  forall k t s, (k < Z.to_nat (Qceiling (T / dt)))%nat -> run_of n f w what lo hi s -> INR k * Q2R dt <= t <= INR (S k) * Q2R dt ->
    one_way (fun u => fst (solve (embedded d w what) (lo, hi) u)) (INR k * Q2R dt) (INR (S k) * Q2R dt) ->
    one_way (fun u => snd (solve (embedded d w what) (lo, hi) u)) (INR k * Q2R dt) (INR (S k) * Q2R dt) ->
    cont_step tube k (s t).
Proof.
  intros Dec Lw Ll Lh Dt Ex E k t s Hk R Ht O1 O2. rewrite (@tube_is n) in E by assumption. injection E as <-.
  apply (between Dec Lw Dt Ex Hk R Ht O1 O2).
Qed.

(** A point that goes round: in half a turn per step, the tube of one step is the segment between the two ends, and the run is below it in between. *)
Module Turn.
  Definition f (x w : list R) : list R := [PI * nth 1 x 0; - PI * nth 0 x 0].
  Definition d (x w xh wh : list R) : list R := [PI * nth 1 x 0; - PI * nth 0 xh 0].
  Definition at_time (t : R) : list R := [cos (PI * t); - sin (PI * t)].
  Definition solve (F : list R * list R -> list R * list R) (y0 : list R * list R) (t : R) := (at_time t, at_time t).

  Lemma dec : decomposes 2 0 f d.
  Proof.
    pose proof PI_RGT_0 as P. split; [|split].
    - reflexivity.
    - intros i x x' xh xh' w w' wh wh' Hi _ _ _ _ [_ A] _ _ [_ B] _. destruct i as [|[|i]]; [| |lia]; cbn.
      + apply Rmult_le_compat_l; [lra|apply A].
      + specialize (B 0%nat). assert (PI * nth 0 xh' 0 <= PI * nth 0 xh 0) by (apply Rmult_le_compat_l; lra). lra.
    - intros B. exists PI. intros i x x' xh xh' w wh r Hi _ _ _ _ _ _ _ H. destruct i as [|[|i]]; [| |lia]; cbn.
      + rewrite <- Rmult_minus_distr_l, Rabs_mult, (Rabs_right PI) by lra. apply Rmult_le_compat_l; [lra|apply (H 1%nat)].
      + rewrite <- Rmult_minus_distr_l, Rabs_mult, Rabs_Ropp, (Rabs_right PI) by lra. apply Rmult_le_compat_l; [lra|apply (H 0%nat)].
  Qed.
  Lemma lin t : derivable_pt_lim (fun u => PI * u) t PI.
  Proof. pose proof (derivable_pt_lim_scal id PI t 1 (derivable_pt_lim_id t)) as H. rewrite Rmult_1_r in H. exact H. Qed.
  Lemma turns : moves 2 at_time (fun t => [PI * (- sin (PI * t)); - PI * cos (PI * t)]).
  Proof.
    split; [reflexivity|]. intros i t Hi _. destruct i as [|[|i]]; [| |lia]; cbn.
    - replace (PI * - sin (PI * t)) with (- sin (PI * t) * PI) by ring. apply (derivable_pt_lim_comp (fun u => PI * u) cos); [apply lin|apply derivable_pt_lim_cos].
    - replace (- PI * cos (PI * t)) with (- (cos (PI * t) * PI)) by ring. apply (derivable_pt_lim_opp (fun u => sin (PI * u))).
      apply (derivable_pt_lim_comp (fun u => PI * u) sin); [apply lin|apply derivable_pt_lim_sin].
  Qed.
  Lemma start : at_time 0 = [1; 0].
  Proof. unfold at_time. rewrite Rmult_0_r, cos_0, sin_0, Ropp_0. reflexivity. Qed.
  Lemma ex : exact 2 solve (embedded d [] []) ([1; 0], [1; 0]).
  Proof. split; [|split]; [unfold solve; rewrite start; reflexivity|exact turns|exact turns]. Qed.
  Lemma rle_refl v : rle v v. Proof. split; [reflexivity|intros; lra]. Qed.
  Lemma run : run_of 2 f [] [] [1; 0] [1; 0] at_time.
  Proof.
    split; [rewrite start; split; apply rle_refl|]. exists (fun _ => []). split; [intros; split; apply rle_refl|exact turns].
  Qed.
End Turn.

Theorem C108_between_refuted : exists n m f d w what dt solve lo hi T tube s t k,
  decomposes n m f d /\ length w = m /\ length lo = n /\ length hi = n /\ (0 < dt)%Q /\ exact n solve (embedded d w what) (lo, hi) /\
  compute_reachtube_mixmono_cont d w what dt solve [(lo, hi)] T = Some tube /\ run_of n f w what lo hi s /\
  INR k * Q2R dt <= t <= INR (S k) * Q2R dt /\ forall j, ~ cont_step tube j (s t).
Proof.
  exists 2%nat, 0%nat, Turn.f, Turn.d, [], [], 1%Q, Turn.solve, [1; 0], [1; 0], 1%Q. eexists. exists Turn.at_time, (1 / 2), 0%nat.
  split; [exact Turn.dec|]. do 3 (split; [reflexivity|]). split; [reflexivity|]. split; [exact Turn.ex|].
  split; [apply tube_is with (n := 2%nat); reflexivity|]. split; [exact Turn.run|].
  split; [unfold Q2R; cbn; lra|]. change (Z.to_nat (Qceiling (1 / 1))) with 1%nat. intros j (a & b & Ha & Hb & [[_ W] _]).
  destruct j as [|j]; [|rewrite (proj2 (nth_error_None _ _)) in Ha; [discriminate|unfold cont_rows; rewrite flat2_len, seq_length; lia]].
  destruct (step_is Turn.d [] [] 1 Turn.solve [1; 0] [1; 0] (N := 1) (k := 0) ltac:(lia)) as [A _]. cbn [Nat.mul Nat.add] in A, Ha. rewrite A in Ha. injection Ha as <-.
  specialize (W 1%nat). cbn [snd] in W.
  rewrite (@rhull_nth Rmin _ _ 2) in W; [|reflexivity|reflexivity|reflexivity|reflexivity|lia].
  cbn in W. rewrite Rmult_1_l in W. replace (Q2R 1) with 1 in W by (unfold Q2R; cbn; lra). rewrite Rmult_1_r, sin_PI in W.
  replace (PI * (1 / 2)) with (PI / 2) in W by field. rewrite sin_PI2 in W. unfold Rmin in W. repeat destruct Rle_dec; lra.
Qed.

(** The turning point sampled twice in half a turn: the ends of both steps are in the tube. *)
Example ex_C108_turn : exists tube, compute_reachtube_mixmono_cont Turn.d [] [] (1 # 2) Turn.solve [([1; 0], [1; 0])] 1 = Some tube /\ length tube = 4%nat /\
  cont_step tube 1 [-1; 0].
Proof.
  destruct (@C108_sampled_states_partial 2 0 Turn.f Turn.d [] [] (1 # 2) Turn.solve [1; 0] [1; 0] [] 1 Turn.dec eq_refl eq_refl eq_refl eq_refl Turn.ex) as (tube & E & L & H).
  exists tube. split; [exact E|]. split; [exact L|]. destruct (H 1%nat) as [_ K]; [cbn; lia|]. destruct (K _ Turn.run) as [_ K2].
  replace (Turn.at_time (INR 2 * Q2R (1 # 2))) with [-1; 0] in K2; [exact K2|].
  unfold Turn.at_time, Q2R. cbn. replace (PI * ((1 + 1) * (1 * / 2))) with PI by field. rewrite cos_PI, sin_PI, Ropp_0. reflexivity.
Qed.

(** x' = w - x with a disturbance between 0 and 1, from the states between 0 and 2: the bounding curves are 0 and 1 + exp (-t), and the run exp (-t) is
    in the tube at all times. *)
Module Example_decay.
  Definition f (x w : list R) : list R := [nth 0 w 0 - nth 0 x 0].
  Definition d (x w xh wh : list R) : list R := [nth 0 w 0 - nth 0 x 0].
  Definition solve (F : list R * list R -> list R * list R) (y0 : list R * list R) (t : R) : list R * list R := ([0], [1 + exp (- t)]).

  Example ex_dec : decomposes 1 1 f d.
  Proof.
    split; [|split].
    - reflexivity.
    - intros i x x' xh xh' w w' wh wh' Hi _ _ _ _ _ E [_ A] _ _. destruct i as [|i]; [|lia]. cbn in *. specialize (A 0%nat). lra.
    - intros B. exists 1. intros i x x' xh xh' w wh r Hi _ _ _ _ _ _ _ H. destruct i as [|i]; [|lia]. cbn. destruct (H 0%nat) as [H' _].
      replace (nth 0 w 0 - nth 0 x 0 - (nth 0 w 0 - nth 0 x' 0)) with (- (nth 0 x 0 - nth 0 x' 0)) by ring. rewrite Rabs_Ropp. lra.
  Qed.
  Lemma neg_exp t : derivable_pt_lim (fun u => exp (- u)) t (- exp (- t)).
  Proof.
    replace (- exp (- t)) with (exp (- t) * - (1)) by ring.
    apply (derivable_pt_lim_comp (fun u => - u) exp); [apply (derivable_pt_lim_opp id), derivable_pt_lim_id|apply derivable_pt_lim_exp].
  Qed.
  Example ex_exact : exact 1 solve (embedded d [0] [1]) ([0], [2]).
  Proof.
    split; [|split].
    - unfold solve. rewrite Ropp_0, exp_0. replace (1 + 1) with 2 by ring. reflexivity.
    - split; [reflexivity|]. intros i t Hi _. destruct i as [|i]; [|lia]. cbn. replace (0 - 0) with 0 by ring. apply derivable_pt_lim_const.
    - split; [reflexivity|]. intros i t Hi _. destruct i as [|i]; [|lia]. cbn. replace (1 - (1 + exp (- t))) with (0 + - exp (- t)) by ring.
      apply (derivable_pt_lim_plus (fun _ => 1) (fun u => exp (- u))); [apply derivable_pt_lim_const|apply neg_exp].
  Qed.
  Lemma rle1 a b : a <= b -> rle [a] [b].
  Proof. intros H. split; [reflexivity|]. intros [|[|i]]; cbn; lra. Qed.
  Example ex_run : run_of 1 f [0] [1] [0] [2] (fun t => [exp (- t)]).
  Proof.
    split; [rewrite Ropp_0, exp_0; split; apply rle1; lra|]. exists (fun _ => [0]). split; [intros; split; apply rle1; lra|].
    split; [reflexivity|]. intros i t Hi _. destruct i as [|i]; [|lia]. cbn. replace (0 - exp (- t)) with (- exp (- t)) by ring. apply neg_exp.
  Qed.
  Lemma falls a b : one_way (fun u => [1 + exp (- u)]) a b.
  Proof.
    intros i. right. intros u v _ H _. destruct i as [|[|i]]; cbn; try lra.
    destruct (Req_EM_T u v) as [->|N]; [lra|]. assert (exp (- v) < exp (- u)) by (apply exp_increasing; lra). lra.
  Qed.
  Example ex_C108 : exists tube, compute_reachtube_mixmono_cont d [0] [1] (1 # 2) solve [([0], [2])] 2 = Some tube /\ length tube = 8%nat /\
    forall k t, (k < 4)%nat -> INR k * Q2R (1 # 2) <= t <= INR (S k) * Q2R (1 # 2) -> cont_step tube k [exp (- t)].
  Proof.
    destruct (@C108_sampled_states_partial 1 1 f d [0] [1] (1 # 2) solve [0] [2] [] 2 ex_dec eq_refl eq_refl eq_refl eq_refl ex_exact) as (tube & E & L & _).
    exists tube. split; [exact E|]. split; [exact L|]. intros k t Hk Ht.
    apply (@C108_between_partial 1 1 f d [0] [1] (1 # 2) solve [0] [2] [] 2 tube ex_dec eq_refl eq_refl eq_refl eq_refl ex_exact E k t (fun t => [exp (- t)]) Hk ex_run Ht).
    - intros i. left. intros. apply Rle_refl.
    - apply falls.
  Qed.
End Example_decay.
