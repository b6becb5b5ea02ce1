(** Diameters of stars: property theorems. *)
From Coq Require Import Qabs Sorted Lqa.
From Verif Require Import Base BaseFacts Dict Star StarSpec StarDiam StarDiamSpec StarDiamProofs.
Set Implicit Arguments.
Open Scope nat_scope.

(** What the program computes for any star: the largest distance among pairs of points at most N/2 apart in every coordinate;
    there is an answer exactly when the star has a point. *)
Theorem C90_capped : forall milp s, wf_star s -> exact_milp milp (program_of s) ->
  let close x y := forall i, i < dim s -> (Qabs (nth i x 0 - nth i y 0) <= 1048575 # 2)%Q in
  ((exists x, in_star s x) -> exists d, star_manhattan_distance milp s = (d, 1)
    /\ (exists x y, in_star s x /\ in_star s y /\ close x y /\ (l1 x y == d)%Q)
    /\ forall x y, in_star s x -> in_star s y -> close x y -> (l1 x y <= d)%Q)
  /\ ((forall x, ~ in_star s x) -> star_manhattan_distance milp s = (0%Q, 0)).
Proof.
  intros milp s W EX close.
  assert (CL : forall x y, close x y <-> forall i, i < dim s -> (2 * Qabs (nth i x 0 - nth i y 0) <= bigN)%Q).
  { intros x y. unfold close, bigN. change (inject_Z 1048575) with (1048575 # 1)%Q. split; intros H i Hi; specialize (H i Hi); lra. }
  unfold star_manhattan_distance, exact_milp in *. fold (program_of s). split.
  - intros [x0 H0]. destruct (milp (program_of s)) as [f |] eqn:E.
    + destruct EX as [[v [Av Ev]] M]. exists (-1 * f)%Q. split; [reflexivity |]. split.
      * destruct (admissible_sound W Av) as [I1 [I2 [I3 I4]]]. exists (first_point s v), (second_point s v). repeat split; try assumption; [apply (proj2 (CL _ _)); exact I3 |]. rewrite I4 in Ev. lra.
      * intros x y Hx Hy Hc0. pose proof (proj1 (CL x y) Hc0) as Hc. destruct (admissible_complete W Hx Hy Hc) as [v' [Av' Ev']]. specialize (M v' Av'). lra.
    + exfalso. destruct EX as [EX | EX].
      * destruct (@admissible_complete s W x0 x0 H0 H0) as [v [Av _]].
        { intros i _. rewrite Qabs_wd with (y := 0%Q) by ring. cbn. unfold bigN, Qle. cbn. lia. }
        exact (EX v Av).
      * destruct (EX (- (inject_Z (Z.of_nat (dim s)) * bigN))%Q) as [v [Av Lv]]. destruct (admissible_sound W Av) as [I1 [I2 [I3 I4]]].
        rewrite I4 in Lv. rewrite l1_sum in Lv by (unfold first_point, second_point; rewrite !slice_length; reflexivity).
        unfold first_point at 1 in Lv. rewrite slice_length in Lv. change (dimension (center s)) with (dim s) in *.
        assert (B : (sumn (dim s) (fun k => Qabs (nth k (first_point s v) 0 - nth k (second_point s v) 0)) <= sumn (dim s) (fun _ => bigN))%Q).
        { apply sumn_le. intros j Hj. specialize (I3 j Hj). assert (0 <= Qabs (nth j (first_point s v) 0 - nth j (second_point s v) 0))%Q by apply Qabs_nonneg. lra. }
        assert (S : (sumn (dim s) (fun _ => bigN) == inject_Z (Z.of_nat (dim s)) * bigN)%Q).
        { clear. induction (dim s) as [| n IH]; [reflexivity |]. cbn [sumn]. rewrite IH. rewrite Nat2Z.inj_succ. unfold Z.succ. rewrite inject_Z_plus. change (inject_Z 1) with 1%Q. ring. }
        lra.
  - intros NE. destruct (milp (program_of s)) as [f |]; [| reflexivity]. exfalso. destruct EX as [[v [Av _]] _]. destruct (admissible_sound W Av) as [I1 _]. exact (NE _ I1).
Qed.

(** The answer is the diameter of the star in the Manhattan distance, for every star no wider than N/2 in any coordinate. *)
Theorem C90_diameter : forall milp linprog s, wf_star s -> exact_milp milp (program_of s) -> spread_le s (1048575 # 2) -> (exists x, in_star s x) ->
  exists d, star_manhattan_distance milp s = (d, 1) /\ star_diameter milp linprog s = Some d /\ widest s d.
Proof.
  intros milp linprog s W EX SP NE. destruct (@C90_capped milp _ W EX) as [H _]. destruct (H NE) as [d [E [[x [y [Hx [Hy [_ Hd]]]]] M]]]. exists d. split; [exact E |]. split.
  - unfold star_diameter. rewrite E. reflexivity.
  - split; [exists x, y; tauto |]. intros x' y' Hx' Hy'. apply M; [assumption | assumption |]. intros i _. apply SP; assumption.
Qed.

(** A star without points has no diameter: the fallback to its box fails. *)
Theorem C90_empty : forall milp linprog s, wf_star s -> exact_milp milp (program_of s) -> solves linprog s -> (forall x, ~ in_star s x) -> 0 < dim s ->
  star_manhattan_distance milp s = (0%Q, 0) /\ star_diameter milp linprog s = None.
Proof.
  intros milp linprog s W EX SO NE D. destruct (@C90_capped milp _ W EX) as [_ H]. specialize (H NE). split; [exact H |]. unfold star_diameter. rewrite H. cbn [Nat.eqb].
  assert (R : overapprox_rectangle linprog s = None); [| rewrite R; reflexivity].
  unfold overapprox_rectangle. destruct (dim s) as [| n] eqn:En; [lia |]. cbn [seq mapM].
  assert (G : get_max_min linprog s 0 = None); [| rewrite G; reflexivity].
  unfold get_max_min. destruct (0 <? dim s); [| reflexivity]. unfold run_lp at 1.
  destruct (all_len (length (column 0 (basis s))) (C s) && (length (g s) =? length (C s))); [| reflexivity]. cbn [obind].
  assert (Lc : length (column 0 (basis s)) = gens s) by (unfold column; rewrite map_length; reflexivity).
  specialize (SO (column 0 (basis s)) Lc). unfold exact_lp in SO.
  destruct (linprog true (column 0 (basis s)) (C s) (g s)) as [x | |].
  - exfalso. destruct SO as [Lx [[Ob _] _]].
    apply (NE (map (fun j => (nth j (center s) 0 + inner x (map (fun v => nth j v 0) (basis s)))%Q) (seq 0 (dim s)))). exists x. split; [congruence |]. split; [exact Ob |].
    split; [rewrite map_length, seq_length; reflexivity |]. intros j Hj. rewrite nth_map_seq by exact Hj. reflexivity.
  - destruct (run_lp _ _ _ _ _); reflexivity.
  - destruct (run_lp _ _ _ _ _); reflexivity.
Qed.

(** For a wider star the answer is wrong: the interval from 0 to N has diameter N, every exact solver answers N/2. *)
Definition long_interval : star := Star [0%Q] [[1%Q]] [[1%Q]; [(-1)%Q]] [1048575 # 1; 0]%Q.
Lemma long_points x : in_star long_interval x <-> exists a, x = [a] /\ (0 <= a <= 1048575 # 1)%Q.
Proof.
  unfold in_star, long_interval, obeys, point_of, dim, gens. cbn [C g center basis map length]. split.
  - intros [al [L [O [Lx P]]]]. destruct al as [| u [| ? ?]]; try discriminate. destruct x as [| a [| ? ?]]; try discriminate. exists a. split; [reflexivity |].
    inversion O as [| r b A bs H1 O1]; subst. inversion O1 as [| r' b' A' bs' H2 O2]; subst. specialize (P 0 ltac:(lia)). cbn in H1, H2, P. lra.
  - intros [a [-> Ha]]. exists [a]. split; [reflexivity |]. split; [constructor; [| constructor; [| constructor]]; cbn; lra |].
    split; [reflexivity |]. intros j Hj. assert (j = 0) by lia. subst j. cbn. ring.
Qed.
Theorem C90_wide_refuted : wf_star long_interval /\ widest long_interval (1048575 # 1) /\
  forall milp, exact_milp milp (program_of long_interval) -> exists d, star_manhattan_distance milp long_interval = (d, 1) /\ (d == 1048575 # 2)%Q.
Proof.
  assert (W : wf_star long_interval).
  { split; [| split]; cbn; [intros v [<- | []]; reflexivity | intros v [<- | [<- | []]]; reflexivity | reflexivity]. }
  split; [exact W |]. split.
  - split.
    + exists [0%Q], [1048575 # 1]. split; [apply long_points; exists 0%Q; split; [reflexivity | lra] |]. split; [apply long_points; exists (1048575 # 1)%Q; split; [reflexivity | lra] |].
      cbn. reflexivity.
    + intros x y Hx Hy. apply long_points in Hx as [a [-> Ha]]. apply long_points in Hy as [b [-> Hb]]. cbn [l1]. assert (Qabs (a - b) <= 1048575 # 1)%Q by (apply Qabs_Qle_condition; lra). lra.
  - intros milp EX. destruct (@C90_capped milp _ W EX) as [H _]. destruct H as [d [E [[x [y [Hx [Hy [Hc Hd]]]]] M]]].
    { exists [0%Q]. apply long_points. exists 0%Q. split; [reflexivity | lra]. }
    exists d. split; [exact E |]. apply Qle_antisym.
    + apply long_points in Hx as [a [-> Ha]]. apply long_points in Hy as [b [-> Hb]]. specialize (Hc 0 ltac:(cbn; lia)). cbn [l1 nth] in *. lra.
    + assert (B : (l1 [0%Q] [1048575 # 2] <= d)%Q).
      { apply M; [apply long_points; exists 0%Q; split; [reflexivity | lra] | apply long_points; exists (1048575 # 2)%Q; split; [reflexivity | lra] |].
        intros i Hi. cbn in Hi. assert (i = 0) by lia. subst i. cbn [nth]. apply Qabs_Qle_condition. lra. }
      assert (V : (l1 [0%Q] [1048575 # 2] == 1048575 # 2)%Q) by (cbn; reflexivity). lra.
Qed.

(** The list of diameters of a run: one entry, in time order, for every step of the grid that has a star, and it is the largest
    diameter of the stars of that step, over all nodes and agents. *)
Theorem C90_steps : forall milp linprog A (eqb : A -> A -> bool) nodes (n : nat) step T,
  (forall a b, eqb a b = true <-> a = b) -> nodes <> [] -> (0 < step)%Q -> (T == inject_Z (Z.of_nat n) * step)%Q ->
  same_agents eqb nodes -> on_grid eqb nodes step -> (forall t s, star_at eqb nodes t s -> star_diameter milp linprog s <> None) ->
  exists ds ks, time_step_diameter milp linprog eqb nodes T step = Some ds /\ StronglySorted lt ks
    /\ (forall k, In k ks <-> k <= n /\ exists s, star_at eqb nodes (inject_Z (Z.of_nat k) * step) s)
    /\ Forall2 (fun k d => largest_at eqb (star_diameter milp linprog) nodes (inject_Z (Z.of_nat k) * step) d) ks ds.
Proof.
  intros milp linprog A eqb nodes n step T EQ NE Hs HT SA OG OK. destruct (time_steps_grid n Hs HT) as [L N].
  destruct (@collect Q (fun k d => largest_at eqb (star_diameter milp linprog) nodes (inject_Z (Z.of_nat k) * step) d)
    (fun k => exists s, star_at eqb nodes (inject_Z (Z.of_nat k) * step) s)
    (fun i => one_step milp linprog eqb nodes step (nth i (time_steps T step) 0%Q) (nth (i + 1) (time_steps T step) 0%Q)) 0 (n + 1)) as [rs [ks [E [S [I F]]]]].
  - intros i Hi. destruct (@one_step_grid A eqb EQ milp linprog nodes step i (nth i (time_steps T step) 0%Q) (nth (i + 1) (time_steps T step) 0%Q) NE Hs SA OG OK)
      as [r [E [[-> H] | [q [-> H]]]]]; [apply N; lia | apply N; lia | |].
    + exists []. split; [exact E |]. left. split; [reflexivity |]. intros [s Hsx]. exact (H s Hsx).
    + exists [q]. split; [exact E |]. right. exists q. split; [reflexivity |]. split; [| exact H]. destruct H as [[s [H _]] _]. exists s. exact H.
  - exists (concat rs), ks. split; [| split; [exact S | split; [| exact F]]].
    + unfold time_step_diameter. replace (length (time_steps T step) - 1) with (n + 1) by lia. rewrite E. reflexivity.
    + intros k. rewrite I. split; intros [H1 H2]; (split; [lia | exact H2]).
Qed.

Module Example_star_diam.
  (** The box [0,2] x [0,1], sheared: points (a, b + a) *)
  Definition s : star := Star [0; 0]%Q [[1; 1]; [0; 1]]%Q [[1; 0]; [-1; 0]; [0; 1]; [0; -1]]%Q [2; 0; 1; 0]%Q.
  Lemma wf : wf_star s.
  Proof.
    split; [| split]; cbn; [intros v [<- | [<- | []]]; reflexivity | intros v [<- | [<- | [<- | [<- | []]]]]; reflexivity | reflexivity].
  Qed.
  Lemma points x : in_star s x <-> exists a b c, x = [a; c] /\ (c == a + b /\ 0 <= a <= 2 /\ 0 <= b <= 1)%Q.
  Proof.
    unfold in_star, s, obeys, point_of, dim, gens. cbn [C g center basis map length]. split.
    - intros [al [L [O [Lx P]]]]. destruct al as [| u [| w [| ? ?]]]; try discriminate. destruct x as [| a [| c [| ? ?]]]; try discriminate.
      inversion O as [| r1 b1 A1 bs1 H1 O1]; subst. inversion O1 as [| r2 b2 A2 bs2 H2 O2]; subst. inversion O2 as [| r3 b3 A3 bs3 H3 O3]; subst.
      inversion O3 as [| r4 b4 A4 bs4 H4 O4]; subst. pose proof (P 0 ltac:(lia)) as P0. pose proof (P 1 ltac:(lia)) as P1. cbn in H1, H2, H3, H4, P0, P1.
      exists a, w, c. split; [reflexivity |]. lra.
    - intros [a [b [c [-> H]]]]. exists [a; b]. split; [reflexivity |]. split; [repeat constructor; cbn; lra |]. split; [reflexivity |].
      intros j Hj. destruct j as [| [| j]]; [cbn; lra | cbn; lra | lia].
  Qed.
  Lemma wide : widest s 5.
  Proof.
    split.
    - exists [0; 0]%Q, [2; 3]%Q. split; [apply points; exists 0%Q, 0%Q, 0%Q; split; [reflexivity | lra] |]. split; [apply points; exists 2%Q, 1%Q, 3%Q; split; [reflexivity | lra] |]. reflexivity.
    - intros x y Hx Hy. apply points in Hx as [a [b [c [-> H]]]]. apply points in Hy as [a' [b' [c' [-> H']]]]. cbn [l1].
      assert (Qabs (a - a') <= 2)%Q by (apply Qabs_Qle_condition; lra). assert (Qabs (c - c') <= 3)%Q by (apply Qabs_Qle_condition; lra). lra.
  Qed.
  Lemma spread : spread_le s (1048575 # 2).
  Proof.
    intros x y i Hx Hy. apply points in Hx as [a [b [c [-> H]]]]. apply points in Hy as [a' [b' [c' [-> H']]]].
    destruct i as [| [| i]]; cbn [nth]; [apply Qabs_Qle_condition; lra | apply Qabs_Qle_condition; lra |]. destruct i; cbn; lra.
  Qed.
  Definition milp (_ : milp_problem) : option Q := Some (-5 # 1)%Q.
  Lemma exact : exact_milp milp (program_of s).
  Proof.
    unfold exact_milp, milp. destruct wide as [[x [y [Hx [Hy E]]]] M]. split.
    - destruct (@admissible_complete s wf x y Hx Hy) as [v [Av Ev]].
      + intros i _. pose proof (spread i Hx Hy). unfold bigN. change (inject_Z 1048575) with (1048575 # 1)%Q. lra.
      + exists v. split; [exact Av | lra].
    - intros v Av. destruct (admissible_sound wf Av) as [I1 [I2 [_ I4]]]. pose proof (M _ _ I1 I2). lra.
  Qed.
  Example ex_C90_diameter : exists d, star_manhattan_distance milp s = (d, 1) /\ star_diameter milp (fun _ _ _ _ => Other) s = Some d /\ widest s d.
  Proof. apply (@C90_diameter milp _ s wf exact spread). exists [0; 0]%Q. apply points. exists 0%Q, 0%Q, 0%Q. split; [reflexivity | lra]. Qed.
  Definition nodes : list (dict nat (list (Q * star))) :=
    [ [(1, [(0%Q, s); (1 # 2, s)]); (2, [(0%Q, s); (1 # 2, s)])]; [(1, [(1 # 2, s); (2 # 2, s)]); (2, [(1 # 2, s)])] ].
  Example ex_C90_steps : option_map (map Qred) (time_step_diameter milp (fun _ _ _ _ => Other) Nat.eqb nodes (3 # 2) (1 # 2)) = Some [5; 5; 5]%Q.
  Proof. vm_compute. reflexivity. Qed.
  Example ex_nodes : same_agents Nat.eqb nodes /\ on_grid Nat.eqb nodes (1 # 2).
  Proof.
    assert (G : forall node a rows, In node nodes -> dget Nat.eqb a node = Some rows -> In rows [[(0%Q, s); (1 # 2, s)]; [(1 # 2, s); (2 # 2, s)]; [(1 # 2, s)]] /\ (a = 1 \/ a = 2)).
    { intros node a rows [<- | [<- | []]] H; cbn [dget] in H; destruct (Nat.eqb_spec a 1); try (injection H as <-; cbn; tauto); destruct (Nat.eqb_spec a 2); try discriminate; injection H as <-; cbn; tauto. }
    split.
    - intros node node' a Hn Hn' H. destruct (dget Nat.eqb a node) as [rows |] eqn:E; [| congruence]. destruct (G _ _ _ Hn E) as [_ [-> | ->]]; destruct Hn' as [<- | [<- | []]]; discriminate.
    - intros node a rows Hn E. destruct (G _ _ _ Hn E) as [Hr _].
      assert (Z0 : (0 == inject_Z (Z.of_nat 0) * (1 # 2))%Q) by reflexivity. assert (Z1 : (1 # 2 == inject_Z (Z.of_nat 1) * (1 # 2))%Q) by reflexivity.
      assert (Z2 : (2 # 2 == inject_Z (Z.of_nat 2) * (1 # 2))%Q) by reflexivity.
      destruct Hr as [<- | [<- | [<- | []]]]; (split; [cbn [map fst]; repeat constructor; unfold Qle; cbn; lia |]); intros t st H; cbn [In] in H;
        repeat (destruct H as [H | H]; [injection H as <- _; first [exists 0; exact Z0 | exists 1; exact Z1 | exists 2; exact Z2] |]); destruct H.
  Qed.
  Example ex_nodes_ok : forall t st, star_at Nat.eqb nodes t st -> star_diameter milp (fun _ _ _ _ => Other) st <> None.
  Proof. intros t st _. discriminate. Qed.

  (** A star without points *)
  Definition none : star := Star [0%Q] [[1%Q]] [[1%Q]; [(-1)%Q]] [-1 # 1; 0]%Q.
  Lemma no_points x : ~ in_star none x.
  Proof.
    intros [al [L [O _]]]. cbn in L, O. destruct al as [| u [| ? ?]]; try discriminate. inversion O as [| r b A bs H1 O1]; subst. inversion O1 as [| r' b' A' bs' H2 O2]; subst.
    cbn in H1, H2. lra.
  Qed.
  Example ex_C90_empty : star_manhattan_distance (fun _ => None) none = (0%Q, 0) /\ star_diameter (fun _ => None) (fun _ _ _ _ => Infeasible) none = None.
  Proof.
    assert (W : wf_star none) by (split; [| split]; cbn; [intros v [<- | []]; reflexivity | intros v [<- | [<- | []]]; reflexivity | reflexivity]).
    apply C90_empty; [exact W | | | exact no_points | cbn; lia].
    - left. intros v Av. destruct (admissible_sound W Av) as [I _]. exact (no_points I).
    - intros c Hc y Hy [Ob _]. inversion Ob as [| r b A bs H1 O1]; subst. inversion O1 as [| r' b' A' bs' H2 O2]; subst.
      destruct c as [| c0 [| ? ?]]; try discriminate. destruct y as [| u [| ? ?]]; try discriminate. cbn in H1, H2. lra.
  Qed.
End Example_star_diam.

Print Assumptions C90_capped.
Print Assumptions C90_diameter.
Print Assumptions C90_empty.
Print Assumptions C90_wide_refuted.
Print Assumptions C90_steps.
