(** Property C118: simulations of the example agents. *)
From Coq Require Import Ascii String Reals Lra Lia.
From Verif Require Import Base BaseFacts PyText ResetProofs ExampleAgents ExampleAgentsSpec ExampleAgentsProofs.
Set Implicit Arguments.
Open Scope R_scope.

(** ** C118: the temperature of the thermostat grows or falls by a tenth of itself per unit of time; both clocks run. *)
Theorem C118_thermo : forall ode rnd mode rest (r T a b bound h : R) trace,
  (mode = w "ON" /\ r = 1 / 10 \/ mode = w "OFF" /\ r = - (1 / 10)) -> 0 < h -> keeps_multiples rnd h ->
  steps_exactly ode (thermo_dynamics r) -> thermo_simulate ode rnd (mode :: rest) [T; a; b] bound h = Some trace ->
  length trace = S (ceil (bound / h)) /\
  forall i row, nth_error trace i = Some row -> let t := INR i * h in row = [t; T * exp (r * t); a + t; b + t].
Proof.
  intros ode rnd mode rest r T a b bound h trace M H K Ex Run. unfold thermo_simulate in Run.
  assert (Er : first_mode thermo_rate (mode :: rest) = Some r) by (destruct M as [[-> ->] | [-> ->]]; reflexivity). rewrite Er in Run. cbn [option_map] in Run.
  destruct (@simulate_inv ode rnd (fun i y => y = [T * exp (r * (INR i * h)); a + INR i * h; b + INR i * h]) _ h _ _ _ K Run) as [L Q].
  - cbn [INR]. rewrite Rmult_0_l, Rmult_0_r, exp_0, Rmult_1_r, !Rplus_0_r. reflexivity.
  - intros i x y -> Ey. destruct (Ex _ _ _ Ey) as (phi & P0 & <- & S). rewrite (thermo_step H P0 S), S_INR.
    replace (r * ((INR i + 1) * h)) with (r * (INR i * h) + r * h) by ring. rewrite exp_plus. f_equal; [ring|]. f_equal; [ring|]. f_equal; ring.
  - split; [exact L|]. intros i row Hi. destruct (Q i row Hi) as (y & -> & ->). reflexivity.
Qed.
Print Assumptions C118_thermo.

(** ** C118: other modes are an error, for the thermostat and for the spacecraft. *)
Theorem C118_modes : forall ode rnd mode rest init bound h, 0 < h -> 0 < bound ->
  (mode <> w "ON" -> mode <> w "OFF" -> thermo_simulate ode rnd (mode :: rest) init bound h = None) /\
  (mode <> w "ProxA" -> mode <> w "ProxB" -> mode <> w "Passive" -> craft_simulate ode rnd (mode :: rest) init bound h = None).
Proof.
  intros ode rnd mode rest init bound h H B.
  assert (W : forall x, mode <> x -> word_eqb mode x = false) by (intros x Hx; destruct (word_eqb mode x) eqn:E; [destruct (Hx (proj1 (word_eqb_eq _ _) E))|reflexivity]).
  assert (N : exists n, ceil (bound / h) = S n).
  { assert (P : 0 < bound / h) by (apply Rdiv_lt_0_compat; assumption). pose proof (ceil_le (Rlt_le _ _ P)) as C.
    destruct (ceil (bound / h)) as [|n]; [cbn [INR] in C; lra|exists n; reflexivity]. }
  destruct N as [n N]. split.
  - intros H1 H2. unfold thermo_simulate, first_mode, thermo_rate. rewrite (W _ H1), (W _ H2). unfold simulate. rewrite N. reflexivity.
  - intros H1 H2 H3. unfold craft_simulate, first_mode, craft_dynamics. rewrite (W _ H1), (W _ H2), (W _ H3). unfold simulate. rewrite N. reflexivity.
Qed.
Print Assumptions C118_modes.

(** ** C118: the distance of the Van der Pol oscillator from the origin grows at most like exp t. *)
Theorem C118_vanderpol : forall ode rnd (x y bound h : R) trace, 0 < h -> keeps_multiples rnd h -> steps_exactly ode vanderpol_dynamics ->
  vanderpol_simulate ode rnd [x; y] bound h = Some trace ->
  length trace = S (ceil (bound / h)) /\
  forall i row, nth_error trace i = Some row -> let t := INR i * h in
    exists x' y', row = [t; x'; y'] /\ x' ^ 2 + y' ^ 2 <= (x ^ 2 + y ^ 2) * exp (2 * t).
Proof.
  intros ode rnd x y bound h trace H K Ex Run.
  destruct (@simulate_inv ode rnd (fun i s => exists x' y', s = [x'; y'] /\ x' ^ 2 + y' ^ 2 <= (x ^ 2 + y ^ 2) * exp (2 * (INR i * h))) _ h _ _ _ K Run) as [L Q].
  - exists x, y. split; [reflexivity|]. cbn [INR]. rewrite Rmult_0_l, Rmult_0_r, exp_0. lra.
  - intros i s s' (u & v & -> & B) E. destruct (Ex _ _ _ E) as (phi & P0 & <- & S). destruct (vanderpol_step H P0 S) as (u' & v' & E' & B').
    exists u', v'. split; [exact E'|]. rewrite S_INR. replace (2 * ((INR i + 1) * h)) with (2 * (INR i * h) + 2 * h) by ring. rewrite exp_plus, <- Rmult_assoc.
    apply Rle_trans with (1 := B'). apply Rmult_le_compat_r; [left; apply exp_pos|exact B].
  - split; [exact L|]. intros i row Hi. destruct (Q i row Hi) as (s & -> & u & v & -> & B). exists u, v. split; [reflexivity|exact B].
Qed.
Print Assumptions C118_vanderpol.

(** ** C118: both clocks of the spacecraft run in each of its modes. *)
Theorem C118_craft_clocks : forall ode rnd mode rest f (xp yp xd yd a b bound h : R) trace, 0 < h -> keeps_multiples rnd h ->
  In (mode, f) [(w "ProxA", proxA_dynamics); (w "ProxB", proxB_dynamics); (w "Passive", passive_dynamics)] -> steps_exactly ode f ->
  craft_simulate ode rnd (mode :: rest) [xp; yp; xd; yd; a; b] bound h = Some trace ->
  length trace = S (ceil (bound / h)) /\
  forall i row, nth_error trace i = Some row -> let t := INR i * h in
    exists xp' yp' xd' yd', row = [t; xp'; yp'; xd'; yd'; a + t; b + t].
Proof.
  intros ode rnd mode rest f xp yp xd yd a b bound h trace H K M Ex Run. unfold craft_simulate in Run.
  assert (Ef : craft_dynamics mode = Some f) by (destruct M as [M | [M | [M | []]]]; injection M as <- <-; reflexivity). unfold first_mode in Run. rewrite Ef in Run.
  destruct (@simulate_inv ode rnd (fun i s => exists xp' yp' xd' yd', s = [xp'; yp'; xd'; yd'; a + INR i * h; b + INR i * h]) _ h _ _ _ K Run) as [L Q].
  - exists xp, yp, xd, yd. cbn [INR]. rewrite Rmult_0_l, !Rplus_0_r. reflexivity.
  - intros i s s' (u & v & ud & vd & ->) E. destruct (Ex _ _ _ E) as (phi & P0 & <- & S). destruct (@craft_step mode f phi h _ _ _ _ _ _ Ef H P0 S) as (u' & v' & ud' & vd' & E').
    exists u', v', ud', vd'. rewrite E', S_INR. do 4 f_equal. f_equal; [ring|]. f_equal; ring.
  - split; [exact L|]. intros i row Hi. destruct (Q i row Hi) as (s & -> & u & v & ud & vd & ->). exists u, v, ud, vd. reflexivity.
Qed.
Print Assumptions C118_craft_clocks.

(** ** C118: a passive spacecraft keeps the two integrals of its linear equations of motion. *)
Theorem C118_craft_passive : forall ode rnd rest (xp yp xd yd a b bound h : R) trace, 0 < h -> keeps_multiples rnd h ->
  steps_exactly ode passive_dynamics ->
  craft_simulate ode rnd (w "Passive" :: rest) [xp; yp; xd; yd; a; b] bound h = Some trace ->
  forall i row, nth_error trace i = Some row -> exists t xp' yp' xd' yd' a' b', row = [t; xp'; yp'; xd'; yd'; a'; b'] /\
    yd' + 0.00876276 * xp' = yd + 0.00876276 * xp /\
    xd' ^ 2 + yd' ^ 2 - 0.0000575894721132 * xp' ^ 2 = xd ^ 2 + yd ^ 2 - 0.0000575894721132 * xp ^ 2.
Proof.
  intros ode rnd rest xp yp xd yd a b bound h trace H K Ex Run. unfold craft_simulate in Run.
  change (first_mode craft_dynamics (w "Passive" :: rest)) with (Some passive_dynamics) in Run.
  assert (Ek : kx = 0.0000575894721132) by (unfold kx; lra).
  destruct (@simulate_inv ode rnd (fun i s => exists xp' yp' xd' yd' a' b', s = [xp'; yp'; xd'; yd'; a'; b'] /\
    yd' + cx * xp' = yd + cx * xp /\ xd' ^ 2 + yd' ^ 2 - kx * xp' ^ 2 = xd ^ 2 + yd ^ 2 - kx * xp ^ 2) _ h _ _ _ K Run) as [L Q].
  - exists xp, yp, xd, yd, a, b. split; [reflexivity|split; reflexivity].
  - intros i s s' (u & v & ud & vd & a' & b' & -> & I1 & I2) E. destruct (Ex _ _ _ E) as (phi & P0 & <- & S). destruct (passive_step H P0 S) as (u' & v' & ud' & vd' & E' & J1 & J2).
    exists u', v', ud', vd', (a' + h), (b' + h). split; [exact E'|]. split; [rewrite J1; exact I1|rewrite J2; exact I2].
  - intros i row Hi. destruct (Q i row Hi) as (s & -> & u & v & ud & vd & a' & b' & -> & I1 & I2). exists (INR i * h), u, v, ud, vd, a', b'. split; [reflexivity|].
    unfold cx in I1. rewrite Ek in I2. split; [exact I1|exact I2].
Qed.
Print Assumptions C118_craft_passive.

(** ** C118: robots, balls and points on a line move uniformly. *)
Theorem C118_robot : forall ode rnd (x bound h : R) trace, 0 < h -> keeps_multiples rnd h -> steps_exactly ode robot_dynamics ->
  robot_simulate ode rnd [x] bound h = Some trace ->
  length trace = S (ceil (bound / h)) /\ forall i row, nth_error trace i = Some row -> row = [INR i * h; x + INR i * h].
Proof.
  intros ode rnd x bound h trace H K Ex Run.
  destruct (@simulate_inv ode rnd (fun i s => s = [x + INR i * h]) _ h _ _ _ K Run) as [L Q].
  - cbn [INR]. rewrite Rmult_0_l, Rplus_0_r. reflexivity.
  - intros i s s' -> E. destruct (Ex _ _ _ E) as (phi & P0 & <- & S). rewrite (robot_step H P0 S), S_INR. f_equal. ring.
  - split; [exact L|]. intros i row Hi. destruct (Q i row Hi) as (s & -> & ->). reflexivity.
Qed.
Print Assumptions C118_robot.

Theorem C118_ball : forall odeint rnd (x y vx vy horizon h : R) trace, 0 < h -> keeps_multiples rnd h -> integrates_exactly odeint ball_dynamics ->
  ball_simulate odeint rnd [x; y; vx; vy] horizon h = Some trace ->
  length trace = ceil ((horizon + h / 2) / h) /\
  forall i row, nth_error trace i = Some row -> let t := INR i * h in row = [t; x + vx * t; y + vy * t; vx; vy].
Proof.
  intros odeint rnd x y vx vy horizon h trace H K Ex Run. destruct (base_rows _ _ Ex K Run) as (phi & P0 & L & Q). split; [exact L|].
  intros i row Hi. destruct (Q i row Hi) as [-> S]. cbv zeta. f_equal. apply ball_flow; [|exact P0|exact S]. apply Rmult_le_pos; [apply pos_INR|lra].
Qed.
Print Assumptions C118_ball.

Theorem C118_line : forall odeint rnd (x vx horizon h : R) trace, 0 < h -> keeps_multiples rnd h -> integrates_exactly odeint line_dynamics ->
  line_simulate odeint rnd [x; vx] horizon h = Some trace ->
  length trace = ceil ((horizon + h / 2) / h) /\
  forall i row, nth_error trace i = Some row -> let t := INR i * h in row = [t; x + vx * t; vx].
Proof.
  intros odeint rnd x vx horizon h trace H K Ex Run. destruct (base_rows _ _ Ex K Run) as (phi & P0 & L & Q). split; [exact L|].
  intros i row Hi. destruct (Q i row Hi) as [-> S]. cbv zeta. f_equal. apply line_flow; [|exact P0|exact S]. apply Rmult_le_pos; [apply pos_INR|lra].
Qed.
Print Assumptions C118_line.

(** ** C118 is false of the ball under gravity: it cannot be simulated. *)
Theorem C118_ball_g_refuted : forall odeint rnd t init horizon h, 0 < h -> 0 <= horizon -> keeps_multiples rnd h ->
  integrates_exactly odeint (ball_g_dynamics t) -> ball_g_simulate odeint rnd t init horizon h = None.
Proof.
  intros odeint rnd t init horizon h H T K Ex. destruct (ball_g_simulate odeint rnd t init horizon h) as [trace|] eqn:E; [|reflexivity]. exfalso.
  destruct (base_rows _ _ Ex K E) as (phi & P0 & L & Q).
  assert (P : 0 < (horizon + h / 2) / h) by (apply Rdiv_lt_0_compat; lra). pose proof (ceil_le (Rlt_le _ _ P)) as C.
  destruct trace as [|row trace]; [cbn [length] in L; rewrite <- L in C; cbn [INR] in C; lra|].
  destruct (Q 0%nat row eq_refl) as [_ S]. cbn [INR] in S. rewrite Rmult_0_l in S. destruct (S 0 ltac:(lra)) as [_ (d & F & _)]. discriminate F.
Qed.
Print Assumptions C118_ball_g_refuted.

(** The hypotheses are met: integrators that return the exact solution, and the simulations they give. *)
Module Example_thermo.
  Definition ode (f : field) (x : vec) (h : R) : option vec :=
    match x with [T; a; b] => match f [1; 0; 0] with Some (r :: _) => Some [T * exp (r * h); a + h; b + h] | _ => None end | _ => None end.
  Example exact r : steps_exactly ode (thermo_dynamics r).
  Proof.
    intros [|T [|a [|b [|]]]] h y E; cbn in E; try discriminate. rewrite Rmult_1_l in E. injection E as <-.
    exists (fun t => [T * exp (r * t); a + t; b + t]). rewrite Rmult_0_r, exp_0, Rmult_1_r, !Rplus_0_r. split; [reflexivity|]. split; [reflexivity|].
    intros t _. split; [reflexivity|]. eexists. split; [reflexivity|].
    assert (C : forall c, derivable_pt_lim (fun u => c + u) t 1).
    { intros c. pose proof (derivable_pt_lim_plus (fct_cte c) id t 0 1 (derivable_pt_lim_const c t) (derivable_pt_lim_id t)) as Dk. rewrite Rplus_0_l in Dk. exact Dk. }
    intros [|[|[|i]]] Hi; cbn [nth length] in *; try lia; [|apply C|apply C].
    replace (T * exp (r * t) * r) with (T * (exp (r * t) * r)) by ring. apply (derivable_pt_lim_scal (fun u => exp (r * u))). apply der_exp.
  Qed.
  Example kept h : keeps_multiples (fun x => x) h. Proof. intros k. reflexivity. Qed.
  Example runs : exists trace, thermo_simulate ode (fun x => x) [w "ON"] [20; 0; 0] 1 (1 / 2) = Some trace.
  Proof. unfold thermo_simulate. cbn [first_mode]. change (thermo_rate (w "ON")) with (Some (1 / 10)). unfold simulate, option_map.
    generalize (ceil (1 / (1 / 2))). intros n. generalize 0%nat at 1. generalize 20 as T. generalize 0 at 1 3 as a. generalize 0 at 1 as b.
    enough (R : forall n a b T k, exists rows, rounds ode (Some (thermo_dynamics (1 / 10))) (1 / 2) (map (fun i => INR i * (1 / 2)) (seq k n)) [T; a; b] = Some rows).
    { intros b a T k. destruct (R n a b T k) as [rows E]. rewrite E. eexists. reflexivity. }
    clear. induction n as [|n IH]; intros a b T k; [eexists; reflexivity|]. cbn [seq map rounds obind]. unfold ode at 1. cbn [thermo_dynamics].
    cbn [obind]. edestruct IH as [rows E]. rewrite E. eexists. reflexivity. Qed.
End Example_thermo.

Module Example_drift.
  (** A spacecraft that drifts along y: xp = 4381.38, yd = - 3 n xp / 2 for the constants of the code. *)
  Definition drift (xp : R) : R := - (0.0000575894721132000 * xp) / 0.00876276.
  Definition ode (f : field) (x : vec) (h : R) : option vec :=
    match x with
    | [xp; yp; xd; yd; a; b] => if Req_EM_T xd 0 then if Req_EM_T yd (drift xp) then Some [xp; yp + yd * h; 0; yd; a + h; b + h] else None else None
    | _ => None
    end.
  Example exact : steps_exactly ode passive_dynamics.
  Proof.
    intros [|xp [|yp [|xd [|yd [|a [|b [|]]]]]]] h y E; cbn in E; try discriminate.
    destruct (Req_EM_T xd 0) as [-> |]; [|discriminate]. destruct (Req_EM_T yd (drift xp)) as [D|]; [|discriminate]. apply (f_equal (fun o => match o with Some v => v | None => y end)) in E. subst y.
    exists (fun t => [xp; yp + yd * t; 0; yd; a + t; b + t]). split; [rewrite Rmult_0_r, !Rplus_0_r; reflexivity|]. split; [reflexivity|].
    intros t _. split; [reflexivity|]. eexists. split; [reflexivity|].
    assert (C : forall c k, derivable_pt_lim (fun u => c + k * u) t k).
    { intros c k. pose proof (derivable_pt_lim_plus (fct_cte c) (fun u => k * u) t 0 k (derivable_pt_lim_const c t) (der_lin k t)) as Dk. rewrite Rplus_0_l in Dk. exact Dk. }
    assert (C1 : forall c, derivable_pt_lim (fun u => c + u) t 1).
    { intros c. pose proof (derivable_pt_lim_plus (fct_cte c) id t 0 1 (derivable_pt_lim_const c t) (derivable_pt_lim_id t)) as Dk. rewrite Rplus_0_l in Dk. exact Dk. }
    intros [|[|[|[|[|[|i]]]]]] Hi; cbn [nth length] in *; try lia.
    - apply derivable_pt_lim_const.
    - apply C.
    - replace (0.0000575894721132000 * xp + 0.00876276 * yd) with 0 by (rewrite D; unfold drift; field; lra). apply derivable_pt_lim_const.
    - rewrite Rmult_0_r. apply derivable_pt_lim_const.
    - apply C1.
    - apply C1.
  Qed.
End Example_drift.

Module Example_ball.
  Definition odeint (f : field) (x : vec) (ts : list R) : option (list vec) :=
    match x with [x; y; vx; vy] => Some (map (fun t => [x + vx * t; y + vy * t; vx; vy]) ts) | _ => None end.
  Example exact : integrates_exactly odeint ball_dynamics.
  Proof.
    intros [|x [|y [|vx [|vy [|]]]]] ts rows E; cbn in E; try discriminate. injection E as <-.
    exists (fun t => [x + vx * t; y + vy * t; vx; vy]). rewrite !Rmult_0_r, !Rplus_0_r. split; [reflexivity|]. split; [reflexivity|].
    intros T _ t _. split; [reflexivity|]. eexists. split; [reflexivity|].
    assert (C : forall c k, derivable_pt_lim (fun u => c + k * u) t k).
    { intros c k. pose proof (derivable_pt_lim_plus (fct_cte c) (fun u => k * u) t 0 k (derivable_pt_lim_const c t) (der_lin k t)) as Dk. rewrite Rplus_0_l in Dk. exact Dk. }
    intros [|[|[|[|i]]]] Hi; cbn [nth length] in *; try lia; [apply C|apply C|apply derivable_pt_lim_const|apply derivable_pt_lim_const].
  Qed.
  Example runs : exists trace, ball_simulate odeint (fun x => x) [5; 10; 2; 2] 10 (1 / 20) = Some trace.
  Proof. eexists. reflexivity. Qed.
End Example_ball.
