(** C59: the rows of [TC_simulate]. *)
From Coq Require Import Qround Lqa.
From Verif Require Import Base BaseFacts TimeGrid TimeGridProofs TimeGridSpec.
Set Implicit Arguments.
Open Scope nat_scope.

Lemma decimal_grid d q : (0 <= d)%Z -> decimal d q -> on_grid d q.
Proof. intros Hd [z E]. exists z. rewrite E. unfold pow10. field. assert (P := pow10_pos Hd). unfold pow10 in P. lra. Qed.
Lemma stamped_on_time S dt n (tr : list (Q * S)) : stamped dt 0 n tr -> on_time dt n tr.
Proof.
  intros H. split; [apply (stamped_len H)|]. intros i r E. unfold stamped in H.
  assert (Hi : i < n) by (rewrite <- (stamped_len H); apply nth_error_Some; congruence).
  destruct (Forall2_nth_r _ H E) as [i' [E' Hr]].
  rewrite (nth_error_nth' _ 0) in E' by (rewrite seq_length; exact Hi). rewrite seq_nth in E' by exact Hi. inversion E'; subst. exact Hr.
Qed.
Lemma on_time_same S S' dt n (a : list (Q * S)) (b : list (Q * S')) : on_time dt n a -> on_time dt n b -> same_times a b.
Proof.
  intros [La Ha] [Lb Hb]. unfold same_times. assert (L : length a = length b) by lia. clear La Lb.
  assert (G : forall i x y, nth_error a i = Some x -> nth_error b i = Some y -> (fst x == fst y)%Q).
  { intros i x y E1 E2. rewrite (Ha _ _ E1), (Hb _ _ E2). reflexivity. }
  clear Ha Hb. revert b L G. induction a as [|x a IH]; intros [|y b] L G; try discriminate; constructor.
  - apply (G 0); reflexivity.
  - apply IH; [simpl in L; lia|]. intros i. apply (G (Datatypes.S i)).
Qed.

(** If the step is a multiple of 10^-8 and the horizon [k] steps, every agent class with a loop of its own, and the
    base class, gives [k + 1] rows stamped 0, dt, ..., k dt, whatever the dynamics. *)
Theorem C59_grid S (flow : S -> Q -> S) (step : S -> S) (y0 : S) T dt k :
  (0 < dt)%Q -> decimal 8 dt -> (T == inject_Z (Z.of_nat k) * dt)%Q ->
  on_time dt (k + 1) (base_trace flow y0 T dt) /\ on_time dt (k + 1) (car_trace step y0 T dt) /\
  on_time dt (k + 1) (origin_trace step y0 T dt) /\ on_time dt (k + 1) (sign_trace y0 T dt).
Proof.
  intros P D E. assert (G := @decimal_grid 8 dt ltac:(lia) D). assert (C := proj1 (@ceil_horizon T dt k P E)).
  split; [apply stamped_on_time, base_stamped; assumption|]. unfold car_trace, origin_trace, sign_trace. rewrite C.
  split; [|split]; apply stamped_on_time, stamped_cons.
  - apply car_rows_stamped with (i := 0).
  - apply origin_rows_stamped with (i := 0). apply grid_finer, G.
  - apply sign_rows_stamped with (i := 0).
Qed.
Print Assumptions C59_grid.

(** The quadrotor, whose trace is put together from segments of at most [limit] seconds: the same rows, if the
    segment length is a positive number of steps and the step a multiple of 10^-4. *)
Theorem C59_quadrotor S (step : nat -> nat -> S -> S) arrived (y0 : S) limit T dt k m fuel :
  (0 < dt)%Q -> decimal 4 dt -> 0 < k -> 0 < m -> (T == inject_Z (Z.of_nat k) * dt)%Q -> (limit == inject_Z (Z.of_nat m) * dt)%Q ->
  k + m < fuel -> exists tr, quad_trace step arrived fuel limit y0 T dt = Some tr /\ on_time dt (k + 1) tr.
Proof.
  intros P D Hk Hm ET EL Hf. assert (G := @decimal_grid 4 dt ltac:(lia) D).
  destruct (@quad_rows_stamped S limit dt m P G Hm EL step arrived T k ET fuel k 0 0%Q y0 0) as [tr [E St]]; [lia|lia|lia|change (qn 0) with 0%Q; ring|].
  exists tr. split; [exact E|]. destruct k as [|k]; [lia|]. apply stamped_on_time, St.
Qed.
Print Assumptions C59_quadrotor.

(** So the rows of any two agents of a scenario line up. *)
Theorem C59_agents S S' S'' (flow : S -> Q -> S) (step : S' -> S') y0 y0' (z0 : S'') T dt k :
  (0 < dt)%Q -> decimal 8 dt -> (T == inject_Z (Z.of_nat k) * dt)%Q ->
  same_times (base_trace flow y0 T dt) (car_trace step y0' T dt) /\
  same_times (car_trace step y0' T dt) (origin_trace step y0' T dt) /\
  same_times (base_trace flow y0 T dt) (sign_trace z0 T dt).
Proof.
  intros P D E. destruct (C59_grid flow (fun s => s) y0 k P D E) as [A _].
  destruct (C59_grid (fun s (_ : Q) => s) step y0' k P D E) as [_ [B [C _]]].
  destruct (C59_grid (fun s (_ : Q) => s) (fun s => s) z0 k P D E) as [_ [_ [_ F]]].
  split; [|split]; eapply on_time_same; eassumption.
Qed.
Print Assumptions C59_agents.

(** For other horizons, [k + f] steps with 0 <= f < 1, the base class and the cars give as many rows exactly when
    f is 0 or more than a half. *)
Theorem C59_counts S S' (flow : S -> Q -> S) (step : S' -> S') y0 y0' T dt k f :
  (0 < dt)%Q -> (0 <= f < 1)%Q -> (T == (inject_Z (Z.of_nat k) + f) * dt)%Q ->
  (length (base_trace flow y0 T dt) = length (car_trace step y0' T dt) <-> (f == 0)%Q \/ (1 # 2 < f)%Q).
Proof.
  intros P F E. assert (D : (T / dt == qn k + f)%Q) by (rewrite E; unfold qn; field; lra).
  assert (D2 : ((T + dt / 2) / dt == qn k + f + (1 # 2))%Q) by (rewrite E; unfold qn; field; lra).
  unfold base_trace, base_times. rewrite !map_length, seq_length. unfold car_trace. cbn [length].
  assert (L : forall n s i, length (car_rows step dt s n i) = n) by (induction n; intros; simpl; congruence). rewrite L.
  assert (SK := qn_S k). assert (SSK := qn_S (Datatypes.S k)).
  destruct (Qlt_le_dec 0 f) as [F0|F0].
  - rewrite (@ceil_is (T / dt) (Datatypes.S k)) by (rewrite D; lra). destruct (Qlt_le_dec (1 # 2) f) as [F1|F1].
    + rewrite (@ceil_is _ (Datatypes.S (Datatypes.S k))) by (rewrite D2; lra). split; [intros _; right; exact F1|reflexivity].
    + rewrite (@ceil_is _ (Datatypes.S k)) by (rewrite D2; lra). split; [lia|]. intros [H|H]; exfalso; lra.
  - rewrite (@ceil_is (T / dt) k) by (rewrite D; lra). rewrite (@ceil_is _ (Datatypes.S k)) by (rewrite D2; lra).
    split; [intros _; left; lra|reflexivity].
Qed.
Print Assumptions C59_counts.

(** A horizon of 1 and a step of 2/5: 3 rows against 4, whatever the dynamics. *)
Theorem C59_horizon_refuted : exists T dt : Q, (0 < dt)%Q /\ (0 < T)%Q /\ decimal 8 dt /\ decimal 8 T /\
  forall S S' (flow : S -> Q -> S) (step : S' -> S') y0 y0',
  length (base_trace flow y0 T dt) = 3 /\ length (car_trace step y0' T dt) = 4.
Proof.
  exists 1%Q, (2 # 5). split; [reflexivity|]. split; [reflexivity|]. split; [exists 40000000%Z; reflexivity|]. split; [exists 100000000%Z; reflexivity|].
  intros. split; reflexivity.
Qed.
Print Assumptions C59_horizon_refuted.

(** The base class rounds stamps: for any step they are within 5 * 10^-9 of [i * dt]. *)
Theorem C59_rounding S (flow : S -> Q -> S) y0 T dt i t s :
  nth_error (base_trace flow y0 T dt) i = Some (t, s) ->
  (- (5 # 1000000000) <= t - inject_Z (Z.of_nat i) * dt <= 5 # 1000000000)%Q /\ s = flow y0 t.
Proof.
  unfold base_trace, base_times. rewrite map_map, nth_error_map. intros E.
  destruct (nth_error (seq 0 _) i) as [i'|] eqn:Ei; [|discriminate]. cbn in E. injection E as <- <-.
  assert (Hi := proj1 (nth_error_Some (seq 0 (ceil ((T + dt / 2) / dt))) i) ltac:(congruence)). rewrite seq_length in Hi.
  rewrite (nth_error_nth' _ 0) in Ei by (rewrite seq_length; exact Hi). rewrite seq_nth in Ei by exact Hi. injection Ei as <-. cbn [plus].
  split; [|reflexivity]. assert (N := @rnd_near 8 (qn i * dt) ltac:(lia)). unfold qn in *.
  assert (Q1 : (- (1 # 2) / pow10 8 == - (5 # 1000000000))%Q) by reflexivity.
  assert (Q2 : ((1 # 2) / pow10 8 == 5 # 1000000000)%Q) by reflexivity. rewrite Q1, Q2 in N. exact N.
Qed.
Print Assumptions C59_rounding.

(** Row [i] of a car, van der Pol or robot agent is its integrator applied [i] times to the initial state. *)
Theorem C59_states S (step : S -> S) y0 T dt i : i <= ceil (T / dt) ->
  option_map snd (nth_error (car_trace step y0 T dt) i) = Some (Nat.iter i step y0) /\
  option_map snd (nth_error (origin_trace step y0 T dt) i) = Some (Nat.iter i step y0).
Proof.
  unfold car_trace, origin_trace. destruct i as [|i]; [split; reflexivity|]. cbn [nth_error]. generalize (ceil (T / dt)). intros n Hi.
  assert (G : forall n s i j, i < n -> option_map snd (nth_error (car_rows step dt s n j) i) = Some (Nat.iter (Datatypes.S i) step s) /\
    option_map snd (nth_error (origin_rows step dt s n j) i) = Some (Nat.iter (Datatypes.S i) step s)).
  { clear. induction n as [|n IH]; intros s i j Hi; [lia|]. cbn [car_rows origin_rows]. destruct i as [|i]; [split; reflexivity|]. cbn [nth_error].
    assert (R : forall i, Nat.iter (Datatypes.S i) step s = Nat.iter i step (step s)) by (clear; induction i; simpl in *; congruence).
    rewrite R. apply IH. lia. }
  apply G. lia.
Qed.
Print Assumptions C59_states.

Module Example_timegrid.
  Example dec : decimal 8 (1 # 20) /\ decimal 4 (1 # 20).
  Proof. split; [exists 5000000%Z|exists 500%Z]; reflexivity. Qed.
  Example four_rows : map fst (base_trace (fun s t => s + t)%Q 7%Q (3 # 20) (1 # 20)) = [rnd 8 0; rnd 8 (1 # 20); rnd 8 (2 # 20); rnd 8 (3 # 20)].
  Proof. reflexivity. Qed.
  Example grid := @C59_grid Q (fun s t => (s + t)%Q) (fun s => (s + (1 # 20))%Q) 7%Q (3 # 20) (1 # 20) 3 eq_refl (proj1 dec) eq_refl.
  (** Two and a half segments. *)
  Example quad : exists tr, quad_trace (fun _ _ s => S s) (fun _ _ => false) 10 (2 # 20) 0 (5 # 20) (1 # 20) = Some tr /\
    map snd tr = [0; 1; 2; 3; 4; 5].
  Proof. eexists. split; [vm_compute; reflexivity|reflexivity]. Qed.
  Example quad_hyps := @C59_quadrotor nat (fun _ _ s => S s) (fun _ _ => false) 0 (2 # 20) (5 # 20) (1 # 20) 5 2 10 eq_refl (proj2 dec) ltac:(lia) ltac:(lia) eq_refl eq_refl ltac:(lia).
  Example counts : (0 <= (1 # 2) < 1)%Q /\ (1 == (inject_Z (Z.of_nat 2) + (1 # 2)) * (2 # 5))%Q.
  Proof. split; [split; [discriminate|reflexivity]|reflexivity]. Qed.
  Example states : 2 <= ceil (1 / (2 # 5)).
  Proof. vm_compute. lia. Qed.
End Example_timegrid.
