(** Tubes of stars fitted to sampled simulations.  Theorems for C112. *)
From Coq Require Import Ascii String Qround Lqa.
From Verif Require Import Base BaseFacts PyText Star StarSpec StarProofs StarMain StarProps Runs StarSample StarSampleSpec StarSampleProofs PlotProofs.
Set Implicit Arguments.
Open Scope nat_scope.

(** [sample_star] halts within [N * (int(N * tol) + 1)] draws.  It returns [N] points: those of the points drawn that are in
    the star, in their order.  It raises only when [int(N * tol) + 1] points drawn in a row were outside. *)
Theorem C112_samples linprog sat rng (draw : rng -> Q * rng) s N tol g fuel :
  decides sat s -> solves linprog s -> bounded_star s -> (exists x, in_star s x) -> N * (allowed N tol + 1) <= fuel ->
  exists rect, length rect = dim s /\ (forall x, in_star s x -> in_box (map fst rect) (map snd rect) x) /\
    match sample_star linprog sat draw fuel s N tol g with
    | Points points g' => exists n ks, length points = N /\ points = map (drawn draw rect g) ks /\ increasing ks /\
        (forall k, In k ks <-> k < n /\ in_star s (drawn draw rect g k)) /\ g' = after draw rect n g
    | Misses => exists k, forall j, j <= allowed N tol -> ~ in_star s (drawn draw rect g (k + j))
    | Failure | Unfinished => False
    end.
Proof.
  intros D So B Ne Hf. destruct (@C48_rectangle linprog s (proj1 D) So B Ne) as (lo & hi & E & L1 & L2 & Hin & _). exists (combine lo hi). split; [rewrite combine_length; lia|]. split.
  - assert (M : forall (a b : vec), length a = length b -> map fst (combine a b) = a /\ map snd (combine a b) = b). { induction a as [|x a IH]; intros [|y b] L; try discriminate; [split; reflexivity|]. cbn [combine map fst snd]. destruct (IH b ltac:(cbn in L; lia)) as [-> ->]. split; reflexivity. }
    destruct (M lo hi ltac:(congruence)) as [-> ->]. exact Hin.
  - unfold sample_star. rewrite E. unfold broadcast. rewrite L1, L2, Nat.eqb_refl.
    pose proof (@loop_spec sat rng draw s (combine lo hi) N (allowed N tol) D ltac:(rewrite combine_length; lia) fuel [] 0 g ltac:(lia) ltac:(cbn; lia)) as S. cbn [length] in S. rewrite Nat.sub_0_r, Nat.sub_0_r in S. specialize (S Hf).
    destruct (sample_loop sat draw fuel s (combine lo hi) N (allowed N tol) [] 0 g) as [pts g'| | |]; [| |exact S|exact S].
    + destruct S as (n & ks & E1 & E2 & E3 & E4 & E5). exists n, ks. cbn [app] in E1. auto.
    + destruct S as [S|S]; [|exact S]. exists 0. intros j Hj. apply S. lia.
Qed.
Print Assumptions C112_samples.

(** Sampling a star that is a box succeeds with the first [N] draws. *)
Theorem C112_boxes linprog sat rng (draw : rng -> Q * rng) s N tol g fuel lo' hi' :
  decides sat s -> solves linprog s -> bounded_star s -> (exists x, in_star s x) -> (forall x, in_star s x <-> in_box lo' hi' x) ->
  (forall g, 0 <= fst (draw g) <= 1)%Q -> N <= fuel ->
  exists rect, sample_star linprog sat draw fuel s N tol g = Points (map (drawn draw rect g) (seq 0 N)) (after draw rect N g) /\
    forall k, in_star s (drawn draw rect g k).
Proof.
  intros D So B Ne Bx U Hf. destruct (@C48_rectangle linprog s (proj1 D) So B Ne) as (lo & hi & E & L1 & L2 & Hin & Tight). exists (combine lo hi).
  assert (Sub : forall x, in_box lo hi x -> in_star s x).
  { intros x Hx. apply Bx. destruct Ne as (y & Hy). apply Bx in Hy. pose proof (in_box_length _ _ _ Hy) as [A1 A2]. pose proof (in_box_length _ _ _ Hx) as [A3 A4].
    assert (Ly : length y = dim s). { apply Bx in Hy. destruct Hy as (al & _ & _ & (P & _)). exact P. }
    apply in_box_nth. apply in_box_nth in Hx. destruct Hx as (X1 & X2 & X3). split; [lia|]. split; [lia|]. intros i Hi. specialize (X3 i ltac:(lia)).
    destruct (Tight i ltac:(lia)) as [(p & P1 & P2) (q & Q1 & Q2)]. apply Bx in P1. apply Bx in Q1. apply in_box_nth in P1. apply in_box_nth in Q1. destruct P1 as (P0 & _ & P1). destruct Q1 as (Q0 & _ & Q1). specialize (P1 i ltac:(lia)). specialize (Q1 i ltac:(lia)). lra. }
  assert (Ord : Forall2 Qle lo hi). { apply (Forall2_nth_iff _ _ _ 0%Q 0%Q). split; [congruence|]. intros i Hi. destruct (Tight i ltac:(lia)) as [(p & P1 & P2) _]. apply Hin in P1. apply in_box_nth in P1. destruct P1 as (P1 & _ & P3). specialize (P3 i ltac:(lia)). lra. }
  assert (All : forall g, in_star s (fst (uniform draw (combine lo hi) g))) by (intros g0; apply Sub; apply uniform_box; [exact U|congruence|exact Ord]).
  split; [|intros k; apply All]. unfold sample_star. rewrite E. unfold broadcast. rewrite L1, L2, Nat.eqb_refl. apply (@loop_hits sat rng draw s (combine lo hi) N (allowed N tol) D ltac:(rewrite combine_length; lia) All N fuel [] g eq_refl Hf).
Qed.
Print Assumptions C112_boxes.

(** A tube fitted with PCA: 100 points of the initial star were simulated, and the star of each step contains the states
    of all those simulations at that step.  Step [i] is at time [i * time_step]. *)
Theorem C112_tube linprog sat rng (draw : rng -> Q * rng) pca optimise sim fuel s mode T ts g tube g' :
  decides sat s -> model_ok optimise (dim s) ->
  calc_reach_tube_pca linprog sat draw pca optimise sim fuel s mode T ts g = Some (tube, g') ->
  exists points runs, length points = 100 /\ (forall p, In p points -> in_star s p) /\
    Forall2 (fun p rows => sim (Some mode) p T ts = Some rows) points runs /\ (forall rows, In rows runs -> length rows = length tube) /\
    forall i t st, nth_error tube i = Some (t, st) -> (t == inject_Z (Z.of_nat i) * ts)%Q /\ wf_star st /\ dim st = dim s /\
      forall rows, In rows runs -> exists row, nth_error rows i = Some row /\ in_star st (tl row).
Proof.
  intros D Ok. unfold calc_reach_tube_pca. destruct (gen_starsets_post_sim linprog sat draw pca optimise sim fuel s T ts 100 false (Some mode) g) as [[stars g1]|] eqn:E; [|discriminate]. cbn [obind fst snd]. intros X. injection X as <- <-.
  destruct (@post_sim_spec _ _ _ _ _ _ _ _ _ _ _ _ _ _ _ _ _ D Ok E) as (points & runs & L & Hin & F & Len & St). exists points, runs. split; [exact L|]. split; [exact Hin|]. split; [exact F|]. rewrite map_length, seq_length. split; [exact Len|].
  intros i t st Hi. rewrite nth_error_map in Hi. destruct (nth_error (seq 0 (length stars)) i) as [j|] eqn:Ej; [|discriminate]. cbn [option_map] in Hi. injection Hi as <- <-.
  assert (Hl : i < length stars) by (rewrite <- (seq_length (length stars) 0); apply nth_error_Some; congruence). rewrite (nth_error_nth' _ 0) in Ej by (rewrite seq_length; exact Hl). rewrite seq_nth in Ej by exact Hl. injection Ej as <-. cbn [Nat.add].
  split; [reflexivity|]. apply St. apply nth_error_nth'. exact Hl.
Qed.
Print Assumptions C112_tube.

(** [sim_star] fits one star per step before the horizon: each contains the states after one step of [N] sampled points of
    the star before. *)
Theorem C112_steps linprog sat rng (draw : rng -> Q * rng) pca optimise sim steps fuel init T ts N g stars g' :
  (forall st, In st (init :: stars) -> wf_star st -> decides sat st) -> wf_star init -> model_ok optimise (dim init) ->
  (forall m p h t rows row, sim m p h t = Some rows -> In row rows -> row <> []) ->
  sim_star linprog sat draw pca optimise sim steps fuel init T ts N g = Some (stars, g') ->
  (forall k, k < length stars -> (inject_Z (Z.of_nat k) * ts < T)%Q) /\ (T <= inject_Z (Z.of_nat (length stars)) * ts)%Q /\
  forall k old new, nth_error (init :: stars) k = Some old -> nth_error stars k = Some new -> wf_star new /\ dim new = dim init /\ stepped sim ts N old new.
Proof.
  intros Dec W Ok Row. unfold sim_star.
  assert (G : forall steps init t g stars, (forall st, In st (init :: stars) -> wf_star st -> decides sat st) -> wf_star init -> model_ok optimise (dim init) ->
    sim_loop linprog sat draw pca optimise sim steps fuel init t T ts N g = Some (stars, g') ->
    (forall k, k < length stars -> (t + inject_Z (Z.of_nat k) * ts < T)%Q) /\ (T <= t + inject_Z (Z.of_nat (length stars)) * ts)%Q /\
    forall k old new, nth_error (init :: stars) k = Some old -> nth_error stars k = Some new -> wf_star new /\ dim new = dim init /\ stepped sim ts N old new).
  { clear init stars g steps Dec W Ok. induction steps as [|steps IH]; intros init t g stars Dec W Ok; cbn [sim_loop]; destruct (Qle_bool T t) eqn:E.
    - intros X. injection X as <- <-. apply Qle_bool_iff in E. split; [cbn; lia|]. split; [cbn [length Z.of_nat]; change (inject_Z 0) with 0%Q; lra|]. intros [|k] old new _ Hn; discriminate.
    - discriminate.
    - intros X. injection X as <- <-. apply Qle_bool_iff in E. split; [cbn; lia|]. split; [cbn [length Z.of_nat]; change (inject_Z 0) with 0%Q; lra|]. intros [|k] old new _ Hn; discriminate.
    - assert (Lt : (t < T)%Q) by (apply Qnot_le_lt; intros X; apply Qle_bool_iff in X; congruence).
      destruct (gen_starsets_post_sim linprog sat draw pca optimise sim fuel init ts ts N true None g) as [[sts g1]|] eqn:Eg; [|discriminate]. cbn [obind fst snd]. destruct (hd_error sts) as [new|] eqn:Eh; [|discriminate]. cbn [obind].
      destruct (sim_loop linprog sat draw pca optimise sim steps fuel new (t + ts) T ts N g1) as [[rest g2]|] eqn:El; [|discriminate]. cbn [obind fst snd]. intros X. injection X as <- <-.
      destruct (@post_sim_spec _ _ _ _ _ _ _ _ _ _ _ _ _ _ _ _ _ (Dec init (or_introl eq_refl) W) Ok Eg) as (points & runs & L & Hin & F & Len & St).
      destruct sts as [|s0 sts]; [discriminate|]. injection Eh as ->. destruct (St 0 new eq_refl) as (Wn & Dn & Hst).
      destruct (IH new (t + ts)%Q g1 rest) as (I1 & I2 & I3); [intros st Hst'; apply Dec; right; exact Hst'|exact Wn|rewrite Dn; exact Ok|exact El|].
      assert (Sh : forall n, (inject_Z (Z.of_nat (S n)) == inject_Z (Z.of_nat n) + 1)%Q) by (intros n; rewrite Nat2Z.inj_succ; unfold Z.succ; rewrite inject_Z_plus; reflexivity).
      split; [|split].
      + intros [|k] Hk; [change (inject_Z (Z.of_nat 0)) with 0%Q; lra|]. rewrite Sh. specialize (I1 k ltac:(cbn in Hk; lia)). lra.
      + cbn [length]. rewrite Sh. lra.
      + intros [|k] old nw Ho Hn; cbn [nth_error] in Ho, Hn.
        * injection Ho as <-. injection Hn as <-. split; [exact Wn|]. split; [exact Dn|]. exists points. split; [exact L|]. intros p Hp. split; [apply Hin; exact Hp|].
          assert (R : exists rows, In rows runs /\ sim None p ts ts = Some rows). { clear - F Hp. induction F as [|a b l m H F IH]; [destruct Hp|]. destruct Hp as [<-|Hp]; [exists b; split; [cbn; auto|exact H]|]. destruct (IH Hp) as (rows & X1 & X2). exists rows. split; [cbn; auto|exact X2]. }
          destruct R as (rows & Hr & Es). destruct (Hst rows Hr) as (row & En & Is). destruct rows as [|r0 rows]; [destruct (nth_error_In _ _ En)|]. cbn [tl] in En.
          assert (Rn : row <> []) by (apply (Row None p ts ts (r0 :: rows) row Es); right; apply (nth_error_In _ _ En)). destruct row as [|tm x]; [congruence|]. exists (r0 :: rows), tm, x. split; [exact Es|]. split; [exact En|exact Is].
        * destruct (I3 k old nw Ho Hn) as (J1 & J2 & J3). split; [exact J1|]. split; [congruence|exact J3]. }
  intros E. destruct (G steps init 0%Q g stars Dec W Ok E) as (G1 & G2 & G3). split; [intros k Hk; specialize (G1 k Hk); lra|]. split; [lra|exact G3].
Qed.
Print Assumptions C112_steps.

(** Intervals: a solver for one generator. *)
Module Interval.
  Import Box_solver.
  Definition s : star := boxed [0]%Q [[1]]%Q [(0, 1)]%Q.
  Definition sat (m : nat) (eqs : list (Q * vec * Q)) (les : list (vec * Q)) : bool :=
    match eqs with
    | [(c, [v], x)] => forallb (fun e => Qle_bool (inner (fst e) [(x - c) / v]) (snd e))%Q les
    | _ => false
    end.
  Lemma decided c v A b : ~ (v == 0)%Q -> wf_star (Star [c] [[v]] A b) -> decides sat (Star [c] [[v]] A b).
  Proof.
    intros Hv W. split; [exact W|]. intros [|x [|? ?]] L; try discriminate. unfold exact_sat, equations, inequalities, gens. cbn [length seq map nth center basis C g sat]. rewrite forallb_forall. split.
    - intros H. exists [(x - c) / v]%Q. split; [reflexivity|]. split; [intros c' row r [E|[]]; injection E as <- <- <-; cbn; field; exact Hv|]. intros row r Hr. apply Qle_bool_iff. exact (H (row, r) Hr).
    - intros ([|a [|? ?]] & La & Eq & Le) (row & r) Hr; try discriminate. cbn [fst snd]. apply Qle_bool_iff. specialize (Le row r Hr). pose proof (Eq _ _ _ (or_introl eq_refl)) as E0. cbn in E0.
      assert (Ea : ((x - c) / v == a)%Q) by (rewrite <- E0; field; exact Hv). destruct row as [|y row]; cbn [inner] in *; [exact Le|]. destruct row; cbn [inner] in *; rewrite Ea; exact Le.
  Qed.
  Lemma wf : wf_star s.
  Proof. apply boxed_wf; [intros v [<-|[]]; reflexivity|reflexivity]. Qed.
  Lemma s_decided : decides sat s.
  Proof. apply decided; [discriminate|exact wf]. Qed.
  Lemma s_unit x : in_star s x <-> in_box [0]%Q [1]%Q x.
  Proof.
    split.
    - intros (al & La & O & (L & P)). apply (@box2poly_exact [(0, 1)]%Q al La) in O. destruct x as [|x [|? ?]]; try discriminate. destruct al as [|a [|? ?]]; try discriminate. specialize (P 0 ltac:(cbn; lia)). cbn in *. lra.
    - intros H. destruct x as [|x [|? ?]]; cbn in H; try tauto. exists [x]. split; [reflexivity|]. split; [apply (@box2poly_exact [(0, 1)]%Q [x] eq_refl); cbn; lra|]. split; [reflexivity|]. intros [|j] Hj; cbn in Hj; [|lia]. cbn. lra.
  Qed.
  (** A generator that gives 1/4 and 3/4 in turn. *)
  Definition draw (b : bool) : Q * bool := (if b then 3 # 4 else 1 # 4, negb b)%Q.
  Lemma draw_unit g : (0 <= fst (draw g) <= 1)%Q.
  Proof. destruct g; cbn; lra. Qed.

  Definition lows (points : list vec) (a : Q) : Q := fold_right (fun p m => Qmin (nth 0 p 0%Q) m) a points.
  Definition highs (points : list vec) (a : Q) : Q := fold_right (fun p m => Qmax (nth 0 p 0%Q) m) a points.
  Definition singles (points : list vec) : bool := forallb (fun p => length p =? 1) points.
  (** The least interval around points on the line, scaling the predicate [- b2 <= alpha <= b1]. *)
  Definition optimise (A : list vec) (b : vec) (basis points : list vec) : option (vec * Q) :=
    match A, b, basis, points with
    | [[a1]; [a2]], [b1; b2], [[v]], p0 :: _ =>
      if Qeq_bool a1 1 && Qeq_bool a2 (- (1)) && Qeq_bool v 1 && negb (Qle_bool (b1 + b2) 0) && singles points then
        let lo := lows points (nth 0 p0 0%Q) in let hi := highs points (nth 0 p0 0%Q) in
        let u := Qred ((hi - lo) / (b1 + b2)) in Some ([Qred (hi - b1 * u)], u)%Q
      else None
    | _, _, _, _ => None
    end.
  Lemma lows_le points a p : In p points -> (lows points a <= nth 0 p 0)%Q.
  Proof. induction points as [|q l IH]; intros []; cbn [lows fold_right]; [subst; apply Q.le_min_l|]. eapply Qle_trans; [apply Q.le_min_r|apply IH; assumption]. Qed.
  Lemma highs_ge points a p : In p points -> (nth 0 p 0 <= highs points a)%Q.
  Proof. induction points as [|q l IH]; intros []; cbn [highs fold_right]; [subst; apply Q.le_max_l|]. eapply Qle_trans; [apply IH; assumption|apply Q.le_max_r]. Qed.
  Lemma lows_at points a : (lows points a == a \/ exists p, In p points /\ lows points a == nth 0 p 0)%Q.
  Proof.
    induction points as [|q l IH]; [left; reflexivity|]. cbn [lows fold_right]. fold (lows l a). destruct (Q.min_spec (nth 0 q 0%Q) (lows l a)) as [[_ E]|[_ E]]; [right; exists q; split; [cbn; auto|exact E]|].
    destruct IH as [IH|(p & Hp & IH)]; [left; rewrite E; exact IH|right; exists p; split; [cbn; auto|rewrite E; exact IH]].
  Qed.
  Lemma highs_at points a : (highs points a == a \/ exists p, In p points /\ highs points a == nth 0 p 0)%Q.
  Proof.
    induction points as [|q l IH]; [left; reflexivity|]. cbn [highs fold_right]. fold (highs l a). destruct (Q.max_spec (nth 0 q 0%Q) (highs l a)) as [[_ E]|[_ E]]; [|right; exists q; split; [cbn; auto|exact E]].
    destruct IH as [IH|(p & Hp & IH)]; [left; rewrite E; exact IH|right; exists p; split; [cbn; auto|rewrite E; exact IH]].
  Qed.
  Lemma optimise_inv A b basis points c u : optimise A b basis points = Some (c, u) ->
    exists a1 a2 b1 b2 v lo hi, A = [[a1]; [a2]] /\ b = [b1; b2] /\ basis = [[v]] /\ (a1 == 1 /\ a2 == - (1) /\ v == 1 /\ 0 < b1 + b2)%Q /\ singles points = true /\
      (u == (hi - lo) / (b1 + b2))%Q /\ (exists c0, c = [c0] /\ c0 == hi - b1 * u)%Q /\
      (forall p, In p points -> lo <= nth 0 p 0 <= hi)%Q /\ (exists p, In p points /\ lo == nth 0 p 0)%Q /\ (exists p, In p points /\ hi == nth 0 p 0)%Q.
  Proof.
    unfold optimise. destruct A as [|[|a1 [|? ?]] [|[|a2 [|? ?]] [|? ?]]]; try discriminate. destruct b as [|b1 [|b2 [|? ?]]]; try discriminate. destruct basis as [|[|v [|? ?]] [|? ?]]; try discriminate. destruct points as [|p0 points]; try discriminate.
    match goal with |- context [if ?b then _ else _] => destruct b eqn:E end; [|discriminate]. cbv zeta. intros HS.
    set (lo := lows (p0 :: points) (nth 0 p0 0%Q)) in *. set (hi := highs (p0 :: points) (nth 0 p0 0%Q)) in *.
    assert (Hu : u = Qred ((hi - lo) / (b1 + b2))) by congruence. assert (Hc : c = [Qred (hi - b1 * u)]) by (rewrite Hu; congruence). clear HS. repeat (apply andb_prop in E; destruct E as [E ?H]). apply Qeq_bool_iff in E. apply Qeq_bool_iff in H1, H2.
    apply negb_true_iff in H0. assert (Hb : (0 < b1 + b2)%Q) by (apply Qnot_le_lt; intros X; apply Qle_bool_iff in X; congruence).
    exists a1, a2, b1, b2, v, lo, hi. do 4 (split; [try reflexivity; auto|]). split; [exact H|]. split; [rewrite Hu; apply Qred_correct|]. split; [eexists; split; [exact Hc|]; rewrite Qred_correct; reflexivity|]. split; [intros p Hp; split; [apply lows_le; exact Hp|apply highs_ge; exact Hp]|].
    split; [destruct (lows_at (p0 :: points) (nth 0 p0 0%Q)) as [X|X]; [exists p0; split; [cbn; auto|exact X]|exact X]|destruct (highs_at (p0 :: points) (nth 0 p0 0%Q)) as [X|X]; [exists p0; split; [cbn; auto|exact X]|exact X]].
  Qed.
  Lemma optimise_ok : model_ok optimise 1.
  Proof.
    intros A b basis points c u H. destruct (@optimise_inv _ _ _ _ _ _ H) as (a1 & a2 & b1 & b2 & v & lo & hi & -> & -> & -> & (E1 & E2 & E3 & E4) & Hs & Eu & (c0 & -> & Ec) & Hin & _ & _).
    split; [reflexivity|]. intros p Hp. specialize (Hin p Hp). exists [nth 0 p 0 - c0]%Q. split; [reflexivity|].
    assert (W : (hi - lo == u * (b1 + b2))%Q) by (rewrite Eu; field; lra).
    split; [intros [|j] Hj; [|lia]; cbn; rewrite E3; lra|]. constructor; [cbn [inner]; rewrite E1; lra|]. constructor; [cbn [inner]; rewrite E2; lra|constructor].
  Qed.
  Lemma optimise_least : least optimise 1.
  Proof.
    intros A b basis points c u H c' u' Lc Fit. destruct (@optimise_inv _ _ _ _ _ _ H) as (a1 & a2 & b1 & b2 & v & lo & hi & -> & -> & -> & (E1 & E2 & E3 & E4) & Hs & Eu & _ & _ & (p & Hp & Ep) & (q & Hq & Eq)).
    destruct c' as [|c' [|? ?]]; try discriminate. destruct (Fit p Hp) as ([|a [|? ?]] & La & Pa & Fa); try discriminate. destruct (Fit q Hq) as ([|d [|? ?]] & Ld & Pd & Fd); try discriminate.
    specialize (Pa 0 ltac:(cbn; lia)). specialize (Pd 0 ltac:(cbn; lia)). inversion Fa as [|? ? ? ? _ Fa']; subst. inversion Fa' as [|? ? ? ? Fa2 _]; subst. inversion Fd as [|? ? ? ? Fd1 _]; subst. cbn [inner map nth] in *. rewrite E1 in Fd1. rewrite E2 in Fa2. rewrite E3 in Pa, Pd.
    rewrite Eu. apply Qle_shift_div_r; [exact E4|]. lra.
  Qed.
  Definition pca (points : list vec) : option (list vec) := Some [[1]]%Q.
  (** The system stays where it is. *)
  Definition sim (m : option word) (x : vec) (T ts : Q) : option (list vec) := Some [0%Q :: x; ts :: x].
End Interval.

(** The tube need not contain the initial star, nor the states of simulations that were not sampled: here nothing moves,
    the solvers are exact, and the fitted interval around the samples of [0, 1] is [1/4, 3/4]. *)
Theorem C112_sound_refuted : exists linprog sat (rng : Type) (draw : rng -> Q * rng) pca optimise sim fuel s mode T ts g tube g' x st,
  decides sat s /\ solves linprog s /\ model_ok optimise (dim s) /\ least optimise (dim s) /\ (forall g, 0 <= fst (draw g) <= 1)%Q /\
  calc_reach_tube_pca linprog sat draw pca optimise sim fuel s mode T ts g = Some (tube, g') /\
  in_star s x /\ sim (Some mode) x T ts = Some [0%Q :: x; ts :: x] /\ nth_error tube 0 = Some (0%Q, st) /\ ~ in_star st x.
Proof.
  destruct (calc_reach_tube_pca Box_solver.linprog Interval.sat Interval.draw Interval.pca Interval.optimise Interval.sim 100 Interval.s (w "m") 1 1 false) as [[tube g']|] eqn:E; [|vm_compute in E; discriminate].
  exists Box_solver.linprog, Interval.sat, bool, Interval.draw, Interval.pca, Interval.optimise, Interval.sim, 100, Interval.s, (w "m"), 1%Q, 1%Q, false, tube, g', [0]%Q.
  assert (Et : exists st, hd_error tube = Some (0%Q, st) /\ forall y, in_star st [y] -> (1 # 4 <= y)%Q).
  { vm_compute in E. injection E as <- <-. eexists. split; [reflexivity|]. intros y (al & La & O & (_ & P)). destruct al as [|a [|? ?]]; try discriminate. specialize (P 0 ltac:(cbn; lia)). inversion O as [|? ? ? ? O1 O']; subst. inversion O' as [|? ? ? ? O2 _]; subst. cbn in *. lra. }
  destruct Et as (st & Et & Out). exists st. split; [exact Interval.s_decided|]. split; [apply Box_solver.boxed_solved; reflexivity|]. split; [exact Interval.optimise_ok|]. split; [exact Interval.optimise_least|]. split; [exact Interval.draw_unit|]. split; [exact E|].
  split; [apply Interval.s_unit; cbn; lra|]. split; [reflexivity|]. split; [destruct tube; [discriminate|exact Et]|]. intros H. specialize (Out _ H). lra.
Qed.
Print Assumptions C112_sound_refuted.

Module Example_sampling.
  Import Interval.
  Lemma inhabited : exists x, in_star s x.
  Proof. exists [0]%Q. apply s_unit. cbn. lra. Qed.
  Example ex_C112_samples : exists pts g', sample_star Box_solver.linprog sat draw 4 s 2 (1 # 2) false = Points pts g' /\ length pts = 2.
  Proof.
    destruct (@C112_samples Box_solver.linprog sat bool draw s 2 (1 # 2) false 4 s_decided) as (rect & _ & _ & H); [apply Box_solver.boxed_solved; reflexivity|apply Box_solver.boxed_bounded; reflexivity|exact inhabited|vm_compute; lia|].
    destruct (sample_star Box_solver.linprog sat draw 4 s 2 (1 # 2) false) as [pts g'| | |] eqn:E; [|vm_compute in E; discriminate|destruct H|destruct H]. destruct H as (n & ks & L & _). exists pts, g'. split; [reflexivity|exact L].
  Qed.
  (** With [N = 5] and the default tolerance two misses in a row are too many. *)
  Example ex_misses : sample_star Box_solver.linprog (fun _ _ _ => false) draw 10 s 5 (1 # 5) false = Misses.
  Proof. vm_compute. reflexivity. Qed.
  Example ex_C112_boxes : exists rect, sample_star Box_solver.linprog sat draw 100 s 100 (1 # 5) false = Points (map (drawn draw rect false) (seq 0 100)) (after draw rect 100 false) /\ forall k, in_star s (drawn draw rect false k).
  Proof. apply C112_boxes with (lo' := [0]%Q) (hi' := [1]%Q); [exact s_decided|apply Box_solver.boxed_solved; reflexivity|apply Box_solver.boxed_bounded; reflexivity|exact inhabited|exact s_unit|exact draw_unit|lia]. Qed.
  Example ex_C112_tube : exists tube g', calc_reach_tube_pca Box_solver.linprog sat draw pca optimise sim 100 s (w "m") 1 1 false = Some (tube, g') /\ length tube = 2 /\ exists points : list vec, length points = 100.
  Proof.
    destruct (calc_reach_tube_pca Box_solver.linprog sat draw pca optimise sim 100 s (w "m") 1 1 false) as [[tube g']|] eqn:E; [|vm_compute in E; discriminate]. exists tube, g'. split; [reflexivity|].
    destruct (@C112_tube _ _ _ _ _ _ _ _ _ _ _ _ _ _ _ s_decided optimise_ok E) as (points & runs & L & _ & F & Len & _). split; [vm_compute in E; injection E as <- _; reflexivity|exists points; exact L].
  Qed.
  Example ex_C112_steps : exists stars g', sim_star Box_solver.linprog sat draw pca optimise sim 5 10 s (3 # 2) 1 4 false = Some (stars, g') /\ length stars = 2 /\
    forall k old new, nth_error (s :: stars) k = Some old -> nth_error stars k = Some new -> stepped sim 1 4 old new.
  Proof.
    destruct (sim_star Box_solver.linprog sat draw pca optimise sim 5 10 s (3 # 2) 1 4 false) as [[stars g']|] eqn:E; [|vm_compute in E; discriminate]. exists stars, g'. split; [reflexivity|]. split; [vm_compute in E; injection E as <- _; reflexivity|].
    destruct (fun D R => @C112_steps _ _ _ _ _ _ _ _ _ _ _ _ _ _ _ _ D wf optimise_ok R E) as (_ & _ & H); [| |intros k old new A B; apply (H k old new A B)].
    - intros st Hin W. destruct Hin as [<-|Hin]; [exact s_decided|]. vm_compute in E. injection E as <- _. destruct Hin as [<-|[<-|[]]]; apply decided; try discriminate; exact W.
    - intros m p h t rows row X Hr. injection X as <-. destruct Hr as [<-|[<-|[]]]; discriminate.
  Qed.
End Example_sampling.
