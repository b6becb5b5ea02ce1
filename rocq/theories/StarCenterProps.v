(** C48: the centre and the rectangle of a star by other methods. *)
From Coq Require Import Lqa Qabs.
From Verif Require Import Base BaseFacts Star StarSpec StarProofs StarMain StarProps StarCenter.
Set Implicit Arguments.
Open Scope nat_scope.

(** C48, partial.  [get_true_center] succeeds on a bounded star with a point; coordinate [i] is the middle of the values
    of the star exactly if the greatest is twice the least. *)
Theorem C48_center_partial linprog s : wf_star s -> solves linprog s -> bounded_star s -> (exists x, in_star s x) ->
  exists p lo hi, get_true_center linprog s = Some p /\ length p = dim s /\ (forall x, in_star s x -> in_box lo hi x) /\
    (forall i, i < dim s -> (exists x, in_star s x /\ (nth i x 0 == nth i lo 0)%Q) /\ (exists x, in_star s x /\ (nth i x 0 == nth i hi 0)%Q)) /\
    forall i, i < dim s -> ((nth i p 0 == (nth i lo 0 + nth i hi 0) / 2)%Q <-> (nth i hi 0 == 2 * nth i lo 0)%Q).
Proof.
  intros W Sv B Ne. destruct (C48_rectangle W Sv B Ne) as (lo & hi & E & Ll & Lh & H & T). unfold overapprox_rectangle in E. unfold get_true_center.
  destruct (mapM (get_max_min linprog s) (seq 0 (dim s))) as [ms|]; [|discriminate]. cbn [obind] in *. injection E as <- <-. rewrite map_length in Ll.
  eexists. exists (map fst ms), (map snd ms). split; [reflexivity|]. split; [rewrite map_length; exact Ll|]. split; [exact H|]. split; [exact T|].
  intros i Hi. rewrite (@nth_indep _ (map (fun m => snd m - fst m / 2)%Q ms) i 0%Q ((fun m : Q * Q => snd m - fst m / 2)%Q (0, 0)%Q)) by (rewrite map_length; lia).
  rewrite (map_nth (fun m : Q * Q => snd m - fst m / 2)%Q). rewrite nth_fst, nth_snd. destruct (nth i ms (0, 0)%Q) as [a b]. cbn [fst snd].
  assert (Ha : (a / 2 == a * (1 # 2))%Q) by (unfold Qdiv; reflexivity). assert (Hb : ((a + b) / 2 == (a + b) * (1 # 2))%Q) by (unfold Qdiv; reflexivity). rewrite Ha, Hb. split; intros; lra.
Qed.
Print Assumptions C48_center_partial.

Lemma corner_le c lo hi x : Forall (Qlt 0) c -> length c = length lo -> in_box lo hi x -> (inner c lo <= inner c x)%Q.
Proof.
  revert lo hi x. induction c as [|a c IH]; intros [|l lo] [|h hi] [|y x] F L B; cbn in *; try lia; try tauto; try lra. inversion F; subst. destruct B as [B1 B2]. specialize (IH lo hi x H2 ltac:(lia) B2). nra.
Qed.
Lemma corner_ge c lo hi x : Forall (Qlt 0) c -> length c = length lo -> in_box lo hi x -> (inner c x <= inner c hi)%Q.
Proof.
  revert lo hi x. induction c as [|a c IH]; intros [|l lo] [|h hi] [|y x] F L B; cbn in *; try lia; try tauto; try lra. inversion F; subst. destruct B as [B1 B2]. specialize (IH lo hi x H2 ltac:(lia) B2). nra.
Qed.
Lemma corner c lo hi x : Forall (Qlt 0) c -> length c = length lo -> in_box lo hi x -> (inner c x <= inner c lo)%Q -> Forall2 Qeq x lo.
Proof.
  revert lo hi x. induction c as [|a c IH]; intros [|l lo] [|h hi] [|y x] F L B Le; cbn in *; try lia; try tauto; try constructor; inversion F as [|? ? Fa Fc]; subst; destruct B as [B1 B2]; pose proof (@corner_le c lo hi x Fc ltac:(lia) B2) as Cl.
  - assert (~ (l < y)%Q) by (intros N; nra). lra.
  - apply (IH lo hi x); auto. nra.
Qed.
Lemma corner_hi c lo hi x : Forall (Qlt 0) c -> length c = length lo -> in_box lo hi x -> (inner c hi <= inner c x)%Q -> Forall2 Qeq x hi.
Proof.
  revert lo hi x. induction c as [|a c IH]; intros [|l lo] [|h hi] [|y x] F L B Le; cbn in *; try lia; try tauto; try constructor; inversion F as [|? ? Fa Fc]; subst; destruct B as [B1 B2]; pose proof (@corner_ge c lo hi x Fc ltac:(lia) B2) as Cl.
  - assert (~ (y < h)%Q) by (intros N; nra). lra.
  - apply (IH lo hi x); auto. nra.
Qed.

Lemma eye_sum n j : j < n -> (fold_right Qplus 0 (column j (eye n)) == 1)%Q.
Proof.
  intros Hj. unfold column, eye. rewrite map_map.
  assert (G : forall m a, (fold_right Qplus 0 (map (fun i => nth j (unit_vec n i) 0%Q) (seq a m)) == if (a <=? j) && (j <? a + m) then 1 else 0)%Q).
  { induction m as [|m IH]; intros a; cbn [seq map fold_right].
    - destruct (Nat.leb_spec a j), (Nat.ltb_spec j (a + 0)); cbn; try lia; reflexivity.
    - rewrite IH, unit_nth by exact Hj. destruct (Nat.eqb_spec j a) as [->|N].
      + rewrite Nat.leb_refl. destruct (Nat.leb_spec (S a) a); [lia|]. destruct (Nat.ltb_spec a (a + S m)); [|lia]. cbn. reflexivity.
      + destruct (Nat.leb_spec (S a) j), (Nat.leb_spec a j), (Nat.ltb_spec j (S a + m)), (Nat.ltb_spec j (a + S m)); cbn; try lia; reflexivity. }
  rewrite G. destruct (Nat.ltb_spec j (0 + n)); [cbn; reflexivity|lia].
Qed.

Lemma scaled_ones c n x y : (forall j, j < n -> (nth j c 0 == 1)%Q) -> length c = n -> Forall2 Qeq x y -> length x = n -> same (vadd (repeat 0%Q n) (zipw Qmult c x)) y.
Proof.
  intros One Lc H. revert c n One Lc. induction H as [|a b x y Hab H IH]; intros c n One Lc Lx.
  - cbn in Lx. subst n. destruct c; [|discriminate]. constructor.
  - destruct n as [|n]; [discriminate|]. destruct c as [|c0 c]; [discriminate|]. cbn. constructor; [|apply IH; [|cbn in *; lia|cbn in *; lia]].
    + specialize (One 0 ltac:(lia)). cbn in One. rewrite One, Hab. ring.
    + intros j Hj. exact (One (S j) ltac:(lia)).
Qed.

(** C48, partial.  On the star of a box [overapprox_rectangles] gives the box back. *)
Theorem C48_rectangles_partial linprog lo hi : lo <> [] -> Forall2 Qle lo hi ->
  exists s, rect_to_star lo hi = Some s /\ (solves linprog s -> exists mn mx, overapprox_rectangles linprog s = Some (mn, mx) /\ same mn lo /\ same mx hi).
Proof.
  intros Ne Le. assert (L : length lo = length hi) by (clear - Le; induction Le; cbn; congruence). set (n := length lo). set (dims := combine lo hi).
  assert (Ld : length dims = n) by (unfold dims; rewrite combine_length; unfold n; lia).
  assert (M : map fst dims = lo /\ map snd dims = hi). { subst dims. clear - L. revert hi L. induction lo as [|a lo' IH]; intros [|b hi] H; cbn in *; try lia; [auto|]. destruct (IH hi ltac:(lia)) as [-> ->]. auto. }
  destruct M as [M1 M2].
  assert (Es : rect_to_star lo hi = Some (Star (repeat 0%Q n) (eye n) (fst (box2poly dims)) (snd (box2poly dims)))).
  { unfold rect_to_star. rewrite L, Nat.eqb_refl. fold dims. unfold from_poly. destruct (box2poly_shape dims) as [S1 S2]. rewrite S2, Nat.eqb_refl.
    destruct (fst (box2poly dims)) as [|r rs] eqn:Ef. { exfalso. unfold box2poly in Ef. cbn [fst] in Ef. destruct dims; [cbn in Ld; unfold n in Ld; destruct lo; [congruence|discriminate]|discriminate]. }
    cbn [hd_error obind]. rewrite (S1 r (or_introl eq_refl)), Ld. unfold mk_star. rewrite repeat_length.
    assert (E1 : all_len n (eye n) = true) by (apply all_len_iff; intros v Hv; unfold eye in Hv; apply in_map_iff in Hv; destruct Hv as (i & <- & _); unfold unit_vec; rewrite map_length, seq_length; reflexivity). rewrite E1.
    assert (E2 : length (eye n) = n) by (unfold eye; rewrite map_length, seq_length; reflexivity). rewrite E2.
    assert (E3 : all_len n (r :: rs) = true) by (apply all_len_iff; intros v Hv; rewrite (S1 v Hv); exact Ld). rewrite E3. rewrite S2, Nat.eqb_refl. reflexivity. }
  eexists. split; [exact Es|]. intros Sv. set (s := Star _ _ _ _) in *.
  assert (Dm : dim s = n) by (unfold dim, s; cbn; apply repeat_length). assert (Gn : gens s = n) by (unfold gens, s; cbn; unfold eye; rewrite map_length, seq_length; reflexivity).
  set (c := column_sums s). assert (Lc : length c = n) by (unfold c, column_sums; rewrite map_length, seq_length; exact Dm).
  assert (One : forall j, j < n -> (nth j c 0 == 1)%Q).
  { intros j Hj. unfold c, column_sums. rewrite (@nth_indep _ _ j 0%Q ((fun j => fold_right Qplus 0%Q (column j (basis s))) 0)) by (rewrite map_length, seq_length; lia). rewrite (map_nth (fun j => fold_right Qplus 0%Q (column j (basis s)))), seq_nth by lia. cbn [Nat.add]. apply eye_sum. exact Hj. }
  assert (Pc : Forall (Qlt 0) c). { apply Forall_forall. intros x Hx. destruct (In_nth _ _ 0%Q Hx) as (j & Hj & <-). rewrite One by lia. reflexivity. }
  assert (Fe : forall y, length y = n -> (feasible true (C s) (g s) y <-> in_box lo hi y)).
  { intros y Ly. unfold feasible, s. cbn [C g]. rewrite box2poly_exact by congruence. rewrite M1, M2. split; [tauto|intros; split; [assumption|discriminate]]. }
  assert (R : forall v : vec, length v = n -> run_lp linprog true v (C s) (g s) = Some (linprog true v (C s) (g s))).
  { intros v Lv. unfold run_lp. destruct (box2poly_shape dims) as [S1 S2]. unfold s. cbn [C g]. rewrite S2, Nat.eqb_refl, andb_true_r. assert (E : all_len (length v) (fst (box2poly dims)) = true) by (apply all_len_iff; intros r Hr; rewrite (S1 r Hr); congruence). rewrite E. reflexivity. }
  assert (Bl : in_box lo hi lo /\ in_box lo hi hi). { clear - Le. induction Le; cbn; [tauto|]. destruct IHLe. repeat split; auto; lra. } destruct Bl as [Bl Bh].
  assert (Lv : length (vopp c) = n) by (unfold vopp; rewrite map_length; exact Lc).
  unfold overapprox_rectangles. fold c. rewrite (R c Lc), (R (vopp c) Lv). cbn [obind].
  pose proof (Sv c ltac:(congruence)) as S1. pose proof (Sv (vopp c) ltac:(congruence)) as S2. unfold exact_lp in S1, S2.
  assert (Bd : forall y, in_box lo hi y -> (inner c lo <= inner c y)%Q) by (intros y By; apply (@corner_le c lo hi y Pc ltac:(unfold n in Lc; lia) By)).
  assert (Bu : forall y, in_box lo hi y -> (inner c y <= inner c hi)%Q) by (intros y By; apply (@corner_ge c lo hi y Pc ltac:(unfold n in Lc; lia) By)).
  assert (Ln : length lo = n) by reflexivity. assert (Lh : length hi = n) by congruence.
  destruct (linprog true c (C s) (g s)) as [x1| |].
  2: { exfalso. apply (S1 lo); [congruence|]. apply Fe; [reflexivity|exact Bl]. }
  2: { exfalso. destruct (S1 (inner c lo)) as (y & Ly & Fy & Hy). apply Fe in Fy; [|congruence]. specialize (Bd y Fy). lra. }
  destruct (linprog true (vopp c) (C s) (g s)) as [x2| |].
  2: { exfalso. apply (S2 lo); [congruence|]. apply Fe; [reflexivity|exact Bl]. }
  2: { exfalso. destruct (S2 (- inner c hi)%Q) as (y & Ly & Fy & Hy). apply Fe in Fy; [|congruence]. rewrite inner_opp in Hy. specialize (Bu y Fy). lra. }
  destruct S1 as (A1 & A2 & A3). destruct S2 as (B1 & B2 & B3). apply Fe in A2; [|congruence]. apply Fe in B2; [|congruence].
  rewrite A1, B1, Lc, Lv, Dm, Nat.eqb_refl. cbn [andb]. do 2 eexists. split; [reflexivity|].
  assert (X1 : Forall2 Qeq x1 lo). { apply (@corner c lo hi); [exact Pc|exact Lc|exact A2|]. apply A3; [unfold n in Lc; congruence|]. apply Fe; [reflexivity|exact Bl]. }
  assert (X2 : Forall2 Qeq x2 hi). { apply (@corner_hi c lo hi); [exact Pc|exact Lc|exact B2|]. specialize (B3 hi ltac:(rewrite Lv; unfold n; lia)). rewrite !inner_opp in B3. specialize (B3 ltac:(apply Fe; [unfold n; lia|exact Bh])). lra. }
  split; apply (@scaled_ones c n); auto; congruence.
Qed.
Print Assumptions C48_rectangles_partial.

(** Where they fail, with the exact solver for boxes. *)
Import Box_solver.
(** The centre of the interval [-2, -1] is said to be 0, which is not in it. *)
Theorem C48_center_refuted : exists s p, wf_star s /\ solves linprog s /\ bounded_star s /\ (exists x, in_star s x) /\
  get_true_center linprog s = Some p /\ ~ in_star s p.
Proof.
  exists (boxed [0%Q] [[1%Q]] [(-2, -1)%Q]). eexists. split; [apply boxed_wf; [intros v [<-|[]]; reflexivity|reflexivity]|]. split; [apply boxed_solved; reflexivity|]. split; [apply boxed_bounded; reflexivity|].
  split.
  - exists [-1]%Q, [-1]%Q. split; [reflexivity|]. split; [apply box2poly_exact; [reflexivity|]; cbn; lra|]. split; [reflexivity|]. intros [|j] Hj; cbn in *; [lra|lia].
  - split; [vm_compute; reflexivity|]. intros (al & La & O & _ & P). cbn [C g boxed] in O. apply box2poly_exact in O; [|exact La]. destruct al as [|a [|? ?]]; try discriminate. specialize (P 0 ltac:(cbn; lia)). cbn in O, P. lra.
Qed.
Print Assumptions C48_center_refuted.
(** The star with generators (1,-1) and (1,1) contains (1,-1), which is outside of its rectangle [0,2] x [0,0]. *)
Theorem C48_rectangles_refuted : exists s mn mx x, wf_star s /\ solves linprog s /\ bounded_star s /\
  overapprox_rectangles linprog s = Some (mn, mx) /\ in_star s x /\ ~ in_box mn mx x.
Proof.
  exists (boxed [0; 0]%Q [[1; -1]; [1; 1]]%Q [(0, 1); (0, 1)]%Q). do 2 eexists. exists [1; -1]%Q. split; [apply boxed_wf; [intros v [<-|[<-|[]]]; reflexivity|reflexivity]|]. split; [apply boxed_solved; reflexivity|]. split; [apply boxed_bounded; reflexivity|].
  split; [vm_compute; reflexivity|]. split.
  - exists [1; 0]%Q. split; [reflexivity|]. split; [apply box2poly_exact; [reflexivity|]; cbn; lra|]. split; [reflexivity|]. intros [|[|j]] Hj; cbn in *; try lia; lra.
  - cbn. lra.
Qed.
Print Assumptions C48_rectangles_refuted.

Module Example_center.
  Example box_back : option_map (fun r => (map Qred (fst r), map Qred (snd r))) (obind (rect_to_star [1; -2]%Q [3; 5]%Q) (overapprox_rectangles linprog)) = Some ([1; -2], [3; 5])%Q.
  Proof. vm_compute. reflexivity. Qed.
  Example solved : exists s, rect_to_star [1; -2]%Q [3; 5]%Q = Some s /\ solves linprog s.
  Proof. eexists. split; [vm_compute; reflexivity|]. exact (@boxed_solved [0; 0]%Q [[1; 0]; [0; 1]]%Q [(1, 3); (-2, 5)]%Q eq_refl). Qed.
  Example half : option_map (map Qred) (obind (rect_to_star [1; 2]%Q [2; 3]%Q) (get_true_center linprog)) = Some [3 # 2; 2]%Q.
  Proof. vm_compute. reflexivity. Qed.
End Example_center.
