From Coq Require Import Ascii String Reals Lra Lia.
From Verif Require Import Base BaseFacts PyText ExampleAgents ExampleAgentsSpec.
Set Implicit Arguments.
Open Scope R_scope.

Lemma ceil_le x : 0 <= x -> x <= INR (ceil x) < x + 1.
Proof.
  intros H. unfold ceil. destruct (archimed (- x)) as [A B].
  assert (0 <= 1 - up (- x))%Z. { assert (IZR (up (- x)) < IZR 2) by lra. apply lt_IZR in H0. lia. }
  rewrite INR_IZR_INZ, Z2Nat.id by exact H0. rewrite minus_IZR. lra.
Qed.

Section Rounds.
  Variable ode : field -> vec -> R -> option vec.
  Variable rnd : R -> R.
  Variable P : nat -> vec -> Prop.

  Lemma rounds_inv f h n : forall k init rows, P k init -> (forall i x y, P i x -> ode f x h = Some y -> P (S i) y) ->
    rounds ode (Some f) h (map (fun i => rnd (INR i * h)) (seq k n)) init = Some rows ->
    length rows = n /\ forall i row, nth_error rows i = Some row -> exists y, row = (rnd (INR (k + i) * h) + h) :: y /\ P (k + S i) y.
  Proof.
    induction n as [|n IH]; intros k init rows P0 St H; cbn [seq map rounds] in H.
    - injection H as <-. split; [reflexivity|]. intros [|i] row E; discriminate.
    - cbn [obind] in H. destruct (ode f init h) as [y|] eqn:Ey; [|discriminate]. cbn [obind] in H.
      destruct (rounds ode (Some f) h _ y) as [r|] eqn:Er; [|discriminate]. injection H as <-.
      destruct (IH (S k) y r (St _ _ _ P0 Ey) St Er) as [L Q]. split; [cbn; f_equal; exact L|].
      intros [|i] row E; cbn [nth_error] in E.
      + injection E as <-. exists y. rewrite Nat.add_0_r, Nat.add_1_r. split; [reflexivity|exact (St _ _ _ P0 Ey)].
      + destruct (Q i row E) as (z & -> & Pz). exists z. replace (k + S i)%nat with (S k + i)%nat by lia. replace (k + S (S i))%nat with (S k + S i)%nat by lia. split; [reflexivity|exact Pz].
  Qed.

  Lemma simulate_inv f h init T trace : keeps_multiples rnd h -> simulate ode rnd (Some f) init T h = Some trace ->
    P 0%nat init -> (forall i x y, P i x -> ode f x h = Some y -> P (S i) y) ->
    length trace = S (ceil (T / h)) /\ forall i row, nth_error trace i = Some row -> exists y, row = (INR i * h) :: y /\ P i y.
  Proof.
    intros K H P0 St. unfold simulate in H. destruct (rounds ode (Some f) h _ init) as [rows|] eqn:E; [|discriminate]. injection H as <-.
    destruct (@rounds_inv f h _ 0 init rows P0 St E) as [L Q]. split; [cbn; f_equal; exact L|].
    intros [|i] row Hi; cbn [nth_error] in Hi.
    - injection Hi as <-. exists init. split; [cbn; f_equal; ring|exact P0].
    - destruct (Q i row Hi) as (y & -> & Py). exists y. cbn [Nat.add] in *. rewrite K, S_INR. split; [f_equal; ring|exact Py].
  Qed.
End Rounds.

Lemma der_lin c t : derivable_pt_lim (fun u => c * u) t c.
Proof. pose proof (derivable_pt_lim_scal id c t 1 (derivable_pt_lim_id t)) as H. rewrite Rmult_1_r in H. exact H. Qed.
Lemma der_exp c t : derivable_pt_lim (fun u => exp (c * u)) t (exp (c * t) * c).
Proof. apply (derivable_pt_lim_comp (fun u => c * u) exp); [apply der_lin|apply derivable_pt_lim_exp]. Qed.

Lemma flat g h : 0 < h -> (forall t, 0 <= t <= h -> derivable_pt_lim g t 0) -> g h = g 0.
Proof. intros H D. destruct (MVT_cor2 g (fun _ => 0) 0 h H) as (c & E & _); [intros c Hc; exact (D c Hc)|]. lra. Qed.
Lemma falls g g' h : 0 < h -> (forall t, 0 <= t <= h -> derivable_pt_lim g t (g' t)) -> (forall t, 0 <= t <= h -> g' t <= 0) -> g h <= g 0.
Proof.
  intros H D N. destruct (MVT_cor2 g g' 0 h H) as (c & E & Hc); [exact D|].
  assert (g' c <= 0) by (apply N; lra). assert (0 <= - g' c * (h - 0)) by (apply Rmult_le_pos; lra). lra.
Qed.
Lemma clock g c h : 0 < h -> (forall t, 0 <= t <= h -> derivable_pt_lim g t c) -> g h = g 0 + c * h.
Proof.
  intros H D. destruct (MVT_cor2 g (fun _ => c) 0 h H) as (x & E & _); [exact D|]. lra.
Qed.
Lemma grows g r h : 0 < h -> (forall t, 0 <= t <= h -> derivable_pt_lim g t (g t * r)) -> g h = g 0 * exp (r * h).
Proof.
  intros H D. assert (E : g h * exp (- r * h) = g 0 * exp (- r * 0)).
  { apply (@flat (fun u => g u * exp (- r * u)) h H). intros t Ht.
    replace 0 with (g t * r * exp (- r * t) + g t * (exp (- r * t) * - r)) by ring.
    apply (derivable_pt_lim_mult g (fun u => exp (- r * u))); [apply D; exact Ht|apply der_exp]. }
  replace (- r * 0) with 0 in E by ring. rewrite exp_0, Rmult_1_r in E. rewrite <- E, Rmult_assoc, <- exp_plus.
  replace (- r * h + r * h) with 0 by ring. rewrite exp_0. ring.
Qed.
Lemma der_sq g t l : derivable_pt_lim g t l -> derivable_pt_lim (fun u => g u ^ 2) t (2 * g t * l).
Proof.
  intros D. apply derivable_pt_lim_ext with (f := fun u => g u * g u); [intros; ring|].
  replace (2 * g t * l) with (l * g t + g t * l) by ring. apply (derivable_pt_lim_mult g g); exact D.
Qed.

Lemma nths (l : vec) : l = map (fun i => nth i l 0) (seq 0 (length l)).
Proof.
  induction l as [|a l IH]; [reflexivity|]. cbn [length seq map nth]. f_equal. rewrite <- seq_shift, map_map. exact IH.
Qed.

(** ** Steps *)
Lemma thermo_step phi r h T a b : 0 < h -> phi 0 = [T; a; b] -> solution (thermo_dynamics r) phi h ->
  phi h = [T * exp (r * h); a + h; b + h].
Proof.
  intros H E S. assert (L : forall t, 0 <= t <= h -> length (phi t) = 3%nat) by (intros t Ht; destruct (S t Ht) as [Q _]; rewrite Q, E; reflexivity).
  assert (D : forall t, 0 <= t <= h -> derivable_pt_lim (fun u => nth 0 (phi u) 0) t (nth 0 (phi t) 0 * r) /\
            derivable_pt_lim (fun u => nth 1 (phi u) 0) t 1 /\ derivable_pt_lim (fun u => nth 2 (phi u) 0) t 1).
  { intros t Ht. pose proof (L t Ht) as Lt. destruct (S t Ht) as [_ (d & F & D)]. rewrite E in D. cbn [length] in D.
    rewrite (nths (phi t)), Lt in F. cbn [seq map thermo_dynamics] in F. injection F as <-.
    pose proof (D 0%nat ltac:(lia)). pose proof (D 1%nat ltac:(lia)). pose proof (D 2%nat ltac:(lia)). cbn [nth] in *. auto. }
  rewrite (nths (phi h)), (L h ltac:(lra)). cbn [seq map].
  rewrite (@grows (fun u => nth 0 (phi u) 0) r h H) by (intros t Ht; apply D; exact Ht).
  rewrite (@clock (fun u => nth 1 (phi u) 0) 1 h H) by (intros t Ht; apply D; exact Ht).
  rewrite (@clock (fun u => nth 2 (phi u) 0) 1 h H) by (intros t Ht; apply D; exact Ht).
  rewrite E. cbn [nth]. rewrite !Rmult_1_l. reflexivity.
Qed.

Lemma vanderpol_step phi h x y : 0 < h -> phi 0 = [x; y] -> solution vanderpol_dynamics phi h ->
  exists x' y', phi h = [x'; y'] /\ x' ^ 2 + y' ^ 2 <= (x ^ 2 + y ^ 2) * exp (2 * h).
Proof.
  intros H E S. assert (L : forall t, 0 <= t <= h -> length (phi t) = 2%nat) by (intros t Ht; destruct (S t Ht) as [Q _]; rewrite Q, E; reflexivity).
  set (X := fun u => nth 0 (phi u) 0). set (Y := fun u => nth 1 (phi u) 0).
  assert (D : forall t, 0 <= t <= h -> derivable_pt_lim X t (Y t) /\ derivable_pt_lim Y t ((1 - X t ^ 2) * Y t - X t)).
  { intros t Ht. pose proof (L t Ht) as Lt. destruct (S t Ht) as [_ (d & F & D)]. rewrite E in D. cbn [length] in D.
    rewrite (nths (phi t)), Lt in F. cbn [seq map vanderpol_dynamics] in F. apply (f_equal (fun o => match o with Some v => v | None => d end)) in F. subst d.
    split; [exact (D 0%nat ltac:(lia))|exact (D 1%nat ltac:(lia))]. }
  exists (X h), (Y h). split; [rewrite (nths (phi h)), (L h ltac:(lra)); reflexivity|].
  set (V := fun u => X u ^ 2 + Y u ^ 2).
  assert (F : V h * exp (- (2) * h) <= V 0 * exp (- (2) * 0)).
  { apply (@falls (fun u => V u * exp (- (2) * u)) (fun t => (2 * X t * Y t + 2 * Y t * ((1 - X t ^ 2) * Y t - X t)) * exp (- (2) * t) + V t * (exp (- (2) * t) * - (2))) h H).
    - intros t Ht. destruct (D t Ht) as [D1 D2]. apply (derivable_pt_lim_mult V (fun u => exp (- (2) * u))); [|apply der_exp].
      apply (derivable_pt_lim_plus (fun u => X u ^ 2) (fun u => Y u ^ 2)); apply der_sq; assumption.
    - intros t _. pose proof (exp_pos (- (2) * t)) as Ex.
      replace ((2 * X t * Y t + 2 * Y t * ((1 - X t ^ 2) * Y t - X t)) * exp (- (2) * t) + V t * (exp (- (2) * t) * - (2)))
        with (- ((2 * (X t * Y t) ^ 2 + 2 * X t ^ 2) * exp (- (2) * t))) by (unfold V; ring).
      pose proof (pow2_ge_0 (X t * Y t)). pose proof (pow2_ge_0 (X t)).
      assert (0 <= (2 * (X t * Y t) ^ 2 + 2 * X t ^ 2) * exp (- (2) * t)) by (apply Rmult_le_pos; lra). lra. }
  replace (- (2) * 0) with 0 in F by ring. rewrite exp_0, Rmult_1_r in F.
  assert (V0 : V 0 = x ^ 2 + y ^ 2) by (unfold V, X, Y; rewrite E; reflexivity). rewrite V0 in F.
  change (V h <= (x ^ 2 + y ^ 2) * exp (2 * h)).
  replace (V h) with (V h * exp (- (2) * h) * exp (2 * h)).
  - apply Rmult_le_compat_r; [left; apply exp_pos|exact F].
  - rewrite Rmult_assoc, <- exp_plus. replace (- (2) * h + 2 * h) with 0 by ring. rewrite exp_0. ring.
Qed.

Definition kx : R := 0.0000575894721132000.
Definition cx : R := 0.00876276.
Lemma passive_step phi h xp yp xd yd a b : 0 < h -> phi 0 = [xp; yp; xd; yd; a; b] -> solution passive_dynamics phi h ->
  exists xp' yp' xd' yd', phi h = [xp'; yp'; xd'; yd'; a + h; b + h] /\
    yd' + cx * xp' = yd + cx * xp /\ xd' ^ 2 + yd' ^ 2 - kx * xp' ^ 2 = xd ^ 2 + yd ^ 2 - kx * xp ^ 2.
Proof.
  intros H E S. assert (L : forall t, 0 <= t <= h -> length (phi t) = 6%nat) by (intros t Ht; destruct (S t Ht) as [Q _]; rewrite Q, E; reflexivity).
  set (X := fun u => nth 0 (phi u) 0). set (Y := fun u => nth 1 (phi u) 0). set (U := fun u => nth 2 (phi u) 0). set (W := fun u => nth 3 (phi u) 0).
  set (A := fun u => nth 4 (phi u) 0). set (B := fun u => nth 5 (phi u) 0).
  assert (D : forall t, 0 <= t <= h -> derivable_pt_lim X t (U t) /\ derivable_pt_lim U t (kx * X t + cx * W t) /\ derivable_pt_lim W t (- cx * U t) /\
     derivable_pt_lim A t 1 /\ derivable_pt_lim B t 1).
  { intros t Ht. pose proof (L t Ht) as Lt. destruct (S t Ht) as [_ (d & F & D)]. rewrite E in D. cbn [length] in D.
    rewrite (nths (phi t)), Lt in F. cbn [seq map] in F. unfold passive_dynamics in F. apply (f_equal (fun o => match o with Some v => v | None => d end)) in F. cbv beta iota in F. subst d.
    split; [exact (D 0%nat ltac:(lia))|]. split; [exact (D 2%nat ltac:(lia))|]. split; [exact (D 3%nat ltac:(lia))|]. split; [exact (D 4%nat ltac:(lia))|exact (D 5%nat ltac:(lia))]. }
  exists (X h), (Y h), (U h), (W h).
  assert (EA : A h = a + h) by (rewrite (@clock A 1 h H) by (intros t Ht; apply D; exact Ht); unfold A; rewrite E; cbn [nth]; ring).
  assert (EB : B h = b + h) by (rewrite (@clock B 1 h H) by (intros t Ht; apply D; exact Ht); unfold B; rewrite E; cbn [nth]; ring).
  rewrite <- EA, <- EB. split; [rewrite (nths (phi h)), (L h ltac:(lra)); reflexivity|].
  assert (E0 : X 0 = xp /\ U 0 = xd /\ W 0 = yd) by (unfold X, U, W; rewrite E; repeat split; reflexivity). destruct E0 as (<- & <- & <-).
  split.
  - apply (@flat (fun u => W u + cx * X u) h H). intros t Ht. destruct (D t Ht) as (D1 & D2 & D3 & _).
    replace 0 with (- cx * U t + cx * U t) by ring. apply (derivable_pt_lim_plus W (fun u => cx * X u)); [exact D3|apply (derivable_pt_lim_scal X); exact D1].
  - apply (@flat (fun u => U u ^ 2 + W u ^ 2 - kx * X u ^ 2) h H). intros t Ht. destruct (D t Ht) as (D1 & D2 & D3 & _).
    replace 0 with (2 * U t * (kx * X t + cx * W t) + 2 * W t * (- cx * U t) - kx * (2 * X t * U t)) by ring.
    apply (derivable_pt_lim_minus (fun u => U u ^ 2 + W u ^ 2) (fun u => kx * X u ^ 2)).
    + apply (derivable_pt_lim_plus (fun u => U u ^ 2) (fun u => W u ^ 2)); apply der_sq; assumption.
    + apply (derivable_pt_lim_scal (fun u => X u ^ 2)). apply der_sq. exact D1.
Qed.

(** The clocks of the craft in every mode *)
Lemma craft_step m f phi h xp yp xd yd a b : craft_dynamics m = Some f -> 0 < h -> phi 0 = [xp; yp; xd; yd; a; b] -> solution f phi h ->
  exists xp' yp' xd' yd', phi h = [xp'; yp'; xd'; yd'; a + h; b + h].
Proof.
  intros M H E S. assert (L : forall t, 0 <= t <= h -> length (phi t) = 6%nat) by (intros t Ht; destruct (S t Ht) as [Q _]; rewrite Q, E; reflexivity).
  set (A := fun u => nth 4 (phi u) 0). set (B := fun u => nth 5 (phi u) 0).
  assert (G : forall s d, length s = 6%nat -> f s = Some d -> nth 4 d 0 = 1 /\ nth 5 d 0 = 1).
  { intros s d Ls Fs. rewrite (nths s), Ls in Fs. cbn [seq map] in Fs. unfold craft_dynamics in M.
    destruct (word_eqb m (w "ProxA")); [injection M as <-|destruct (word_eqb m (w "ProxB")); [injection M as <-|destruct (word_eqb m (w "Passive")); [injection M as <-|discriminate]]].
    - unfold proxA_dynamics in Fs. destruct (pow_m32 _); [|discriminate]. cbn [obind] in Fs. apply (f_equal (fun o => match o with Some v => v | None => d end)) in Fs. cbv beta iota in Fs. subst d. split; reflexivity.
    - unfold proxB_dynamics in Fs. destruct (pow_m32 _); [|discriminate]. cbn [obind] in Fs. apply (f_equal (fun o => match o with Some v => v | None => d end)) in Fs. cbv beta iota in Fs. subst d. split; reflexivity.
    - unfold passive_dynamics in Fs. apply (f_equal (fun o => match o with Some v => v | None => d end)) in Fs. cbv beta iota in Fs. subst d. split; reflexivity. }
  assert (D : forall t, 0 <= t <= h -> derivable_pt_lim A t 1 /\ derivable_pt_lim B t 1).
  { intros t Ht. destruct (S t Ht) as [_ (d & F & D)]. rewrite E in D. cbn [length] in D. destruct (G _ _ (L t Ht) F) as [G1 G2].
    pose proof (D 4%nat ltac:(lia)) as D4. pose proof (D 5%nat ltac:(lia)) as D5. rewrite G1 in D4. rewrite G2 in D5. split; assumption. }
  exists (nth 0 (phi h) 0), (nth 1 (phi h) 0), (nth 2 (phi h) 0), (nth 3 (phi h) 0).
  assert (EA : A h = a + h) by (rewrite (@clock A 1 h H) by (intros t Ht; apply D; exact Ht); unfold A; rewrite E; cbn [nth]; ring).
  assert (EB : B h = b + h) by (rewrite (@clock B 1 h H) by (intros t Ht; apply D; exact Ht); unfold B; rewrite E; cbn [nth]; ring).
  rewrite <- EA, <- EB. rewrite (nths (phi h)) at 1. rewrite (L h ltac:(lra)). reflexivity.
Qed.

Lemma robot_step phi h x : 0 < h -> phi 0 = [x] -> solution robot_dynamics phi h -> phi h = [x + h].
Proof.
  intros H E S. assert (L : length (phi h) = 1%nat) by (destruct (S h ltac:(lra)) as [Q _]; rewrite Q, E; reflexivity).
  rewrite (nths (phi h)), L. cbn [seq map]. rewrite (@clock (fun u => nth 0 (phi u) 0) 1 h H).
  - rewrite E. cbn [nth]. rewrite Rmult_1_l. reflexivity.
  - intros t Ht. destruct (S t Ht) as [_ (d & F & D)]. injection F as <-. apply (D 0%nat). rewrite E. cbn. lia.
Qed.

Lemma ball_flow phi T x y vx vy : 0 <= T -> phi 0 = [x; y; vx; vy] -> solution ball_dynamics phi T -> phi T = [x + vx * T; y + vy * T; vx; vy].
Proof.
  intros HT E S. destruct HT as [H | <-]; [|rewrite E, !Rmult_0_r, !Rplus_0_r; reflexivity].
  assert (L : forall t, 0 <= t <= T -> length (phi t) = 4%nat) by (intros t Ht; destruct (S t Ht) as [Q _]; rewrite Q, E; reflexivity).
  assert (D : forall t, 0 <= t <= T -> derivable_pt_lim (fun u => nth 0 (phi u) 0) t (nth 2 (phi t) 0) /\ derivable_pt_lim (fun u => nth 1 (phi u) 0) t (nth 3 (phi t) 0) /\
            derivable_pt_lim (fun u => nth 2 (phi u) 0) t 0 /\ derivable_pt_lim (fun u => nth 3 (phi u) 0) t 0).
  { intros t Ht. pose proof (L t Ht) as Lt. destruct (S t Ht) as [_ (d & F & D)]. rewrite E in D. cbn [length] in D.
    rewrite (nths (phi t)), Lt in F. cbn [seq map ball_dynamics] in F. injection F as <-.
    pose proof (D 0%nat ltac:(lia)). pose proof (D 1%nat ltac:(lia)). pose proof (D 2%nat ltac:(lia)). pose proof (D 3%nat ltac:(lia)). cbn [nth] in *. auto. }
  assert (C : forall t, 0 <= t <= T -> nth 2 (phi t) 0 = vx /\ nth 3 (phi t) 0 = vy).
  { intros t [[Ht | <-] Ht2]; [|rewrite E; split; reflexivity]. split.
    - rewrite (@flat (fun u => nth 2 (phi u) 0) t Ht) by (intros u Hu; apply D; lra). rewrite E. reflexivity.
    - rewrite (@flat (fun u => nth 3 (phi u) 0) t Ht) by (intros u Hu; apply D; lra). rewrite E. reflexivity. }
  rewrite (nths (phi T)), (L T ltac:(lra)). cbn [seq map]. destruct (C T ltac:(lra)) as [-> ->].
  rewrite (@clock (fun u => nth 0 (phi u) 0) vx T H) by (intros t Ht; destruct (C t Ht) as [<- _]; apply D; exact Ht).
  rewrite (@clock (fun u => nth 1 (phi u) 0) vy T H) by (intros t Ht; destruct (C t Ht) as [_ <-]; apply D; exact Ht).
  rewrite E. reflexivity.
Qed.

Lemma line_flow phi T x vx : 0 <= T -> phi 0 = [x; vx] -> solution line_dynamics phi T -> phi T = [x + vx * T; vx].
Proof.
  intros HT E S. destruct HT as [H | <-]; [|rewrite E, !Rmult_0_r, !Rplus_0_r; reflexivity].
  assert (L : forall t, 0 <= t <= T -> length (phi t) = 2%nat) by (intros t Ht; destruct (S t Ht) as [Q _]; rewrite Q, E; reflexivity).
  assert (D : forall t, 0 <= t <= T -> derivable_pt_lim (fun u => nth 0 (phi u) 0) t (nth 1 (phi t) 0) /\ derivable_pt_lim (fun u => nth 1 (phi u) 0) t 0).
  { intros t Ht. pose proof (L t Ht) as Lt. destruct (S t Ht) as [_ (d & F & D)]. rewrite E in D. cbn [length] in D.
    rewrite (nths (phi t)), Lt in F. cbn [seq map line_dynamics] in F. injection F as <-.
    pose proof (D 0%nat ltac:(lia)). pose proof (D 1%nat ltac:(lia)). cbn [nth] in *. auto. }
  assert (C : forall t, 0 <= t <= T -> nth 1 (phi t) 0 = vx).
  { intros t [[Ht | <-] Ht2]; [|rewrite E; reflexivity].
    rewrite (@flat (fun u => nth 1 (phi u) 0) t Ht) by (intros u Hu; apply D; lra). rewrite E. reflexivity. }
  rewrite (nths (phi T)), (L T ltac:(lra)). cbn [seq map]. rewrite (C T ltac:(lra)).
  rewrite (@clock (fun u => nth 0 (phi u) 0) vx T H) by (intros t Ht; rewrite <- (C t Ht); apply D; exact Ht).
  rewrite E. reflexivity.
Qed.

Lemma combine_map_r {A B} (f : A -> B) l : combine l (map f l) = map (fun a => (a, f a)) l.
Proof. induction l as [|a l IH]; cbn; [reflexivity|f_equal; exact IH]. Qed.

(** The rows of BaseAgent.TC_simulate *)
Lemma base_rows odeint rnd f init T h trace : integrates_exactly odeint f -> keeps_multiples rnd h ->
  base_simulate odeint rnd f init T h = Some trace ->
  exists phi, phi 0 = init /\ length trace = ceil ((T + h / 2) / h) /\
    forall i row, nth_error trace i = Some row -> row = (INR i * h) :: phi (INR i * h) /\ solution f phi (INR i * h).
Proof.
  intros Ex K H. unfold base_simulate in H. cbv zeta in H. destruct (odeint f init _) as [rows|] eqn:E; [|discriminate]. cbn [obind] in H.
  destruct (Ex _ _ _ E) as (phi & P0 & -> & S). exists phi. split; [exact P0|]. injection H as <-. rewrite combine_map_r, !map_map, !map_length, seq_length. split; [reflexivity|].
  intros i row Hi. assert (Li : (i < ceil ((T + h / 2) / h))%nat). { assert (nth_error (map (fun x => fst (rnd (INR x * h), phi (rnd (INR x * h))) :: snd (rnd (INR x * h), phi (rnd (INR x * h)))) (seq 0 (ceil ((T + h / 2) / h)))) i <> None) as N by congruence. apply nth_error_Some in N. rewrite map_length, seq_length in N. exact N. }
  rewrite nth_error_map in Hi. assert (Es : nth_error (seq 0 (ceil ((T + h / 2) / h))) i = Some i).
  { rewrite (nth_error_nth' _ 0%nat) by (rewrite seq_length; exact Li). rewrite seq_nth by exact Li. reflexivity. }
  rewrite Es in Hi. cbn [option_map fst snd] in Hi. injection Hi as <-. rewrite K. split; [reflexivity|].
  apply S. rewrite <- K. apply in_map_iff. exists i. split; [reflexivity|]. apply nth_error_In in Es. exact Es.
Qed.
