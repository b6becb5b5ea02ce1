(** A comparison theorem for mixed-monotone differential equations. *)
From Coq Require Import Reals Lra Lia.
From Verif Require Import Base BaseFacts MixMonoContSpec.
Set Implicit Arguments.
Open Scope R_scope.

(** Induction along a closed interval of reals. *)
Lemma real_induction (P : R -> Prop) (T : R) : 0 <= T ->
  (forall t, 0 <= t <= T -> (forall u, 0 <= u < t -> P u) -> P t) ->
  (forall t, 0 <= t < T -> P t -> exists d, 0 < d /\ forall u, t <= u < t + d -> P u) ->
  forall t, 0 <= t <= T -> P t.
Proof.
  intros HT C O.
  pose (E := fun t => 0 <= t <= T /\ forall u, 0 <= u <= t -> P u).
  assert (P0 : P 0) by (apply C; [lra|intros u Hu; lra]).
  assert (E0 : E 0). { split; [lra|]. intros u Hu. replace u with 0 by lra. exact P0. }
  destruct (completeness E) as [m [Ub Lb]].
  { exists T. intros t [Ht _]. lra. }
  { exists 0. exact E0. }
  assert (M0 : 0 <= m) by (apply Ub, E0).
  assert (MT : m <= T) by (apply Lb; intros t [Ht _]; lra).
  assert (Bel : forall u, 0 <= u < m -> P u).
  { intros u Hu. destruct (Classical_Prop.classic (exists t, E t /\ u < t)) as [(t & [_ Et] & Hut)|N].
    - apply Et. lra.
    - exfalso. assert (m <= u); [|lra]. apply Lb. intros t Et. destruct (Rle_lt_dec t u) as [H|H]; [exact H|]. exfalso. apply N. exists t. auto. }
  assert (Pm : P m) by (apply C; [lra|exact Bel]).
  destruct (Rlt_le_dec m T) as [Lt|Ge].
  - destruct (O m) as (d & D0 & Hd); [lra|exact Pm|].
    pose (m' := Rmin T (m + d / 2)).
    assert (E m').
    { unfold m', E. split; [unfold Rmin; destruct (Rle_dec T (m + d / 2)); lra|]. intros u Hu. destruct (Rlt_le_dec u m) as [H|H]; [apply Bel; lra|].
      apply Hd. pose proof (Rmin_r T (m + d / 2)). lra. }
    pose proof (Ub _ H). unfold m' in H0. unfold Rmin in H0. destruct (Rle_dec T (m + d / 2)); lra.
  - intros t Ht. destruct (Rlt_le_dec t m) as [H|H]; [apply Bel; lra|]. replace t with m by lra. exact Pm.
Qed.

Lemma der_cont f t l : derivable_pt_lim f t l -> forall e, 0 < e -> exists d, 0 < d /\ forall u, Rabs (u - t) < d -> Rabs (f u - f t) < e.
Proof.
  intros D e He. assert (C : continuity_pt f t) by (apply derivable_continuous_pt; exists l; exact D).
  destruct (C e He) as (d & D0 & Hd). exists d. split; [exact D0|]. intros u Hu.
  destruct (Req_EM_T u t) as [->|Ne]; [unfold Rminus; rewrite Rplus_opp_r, Rabs_R0; exact He|].
  apply (Hd u). split; [|exact Hu]. split; [exact I|]. intros E. apply Ne. auto.
Qed.

(** Finitely many differentiable functions that start below zero, and that fall whenever they touch zero, stay below it. *)
Lemma never_crosses k (g : nat -> R -> R) (T : R) :
  (forall j t, (j < k)%nat -> 0 <= t -> exists l, derivable_pt_lim (g j) t l) ->
  (forall j, (j < k)%nat -> g j 0 < 0) ->
  (forall i t, (i < k)%nat -> 0 < t <= T -> (forall j, (j < k)%nat -> g j t <= 0) -> g i t = 0 -> exists l, derivable_pt_lim (g i) t l /\ l < 0) ->
  forall t, 0 <= t <= T -> forall j, (j < k)%nat -> g j t < 0.
Proof.
  intros D S0 F t Ht. assert (HT : 0 <= T) by lra. revert t Ht.
  refine (@real_induction (fun t => forall j, (j < k)%nat -> g j t < 0) T HT _ _).
  - intros t Ht B. destruct (Req_EM_T t 0) as [->|Nz]; [exact S0|].
    assert (Le : forall j, (j < k)%nat -> g j t <= 0).
    { intros j Hj. destruct (Rle_lt_dec (g j t) 0) as [H|H]; [exact H|]. exfalso.
      destruct (D j t Hj) as [l Hl]; [lra|]. destruct (der_cont Hl H) as (d & D0 & Hd).
      pose (u := Rmax (t / 2) (t - d / 2)). assert (U : 0 <= u < t /\ Rabs (u - t) < d).
      { unfold u, Rmax. destruct (Rle_dec (t / 2) (t - d / 2)); (split; [lra|]); apply Rabs_def1; lra. }
      pose proof (B u (proj1 U) j Hj) as Hb. pose proof (Hd u (proj2 U)) as Ha. apply Rabs_def2 in Ha. lra. }
    intros i Hi. destruct (Rle_lt_or_eq_dec (g i t) 0 (Le i Hi)) as [H|H]; [exact H|]. exfalso.
    destruct (F i t Hi) as (l & Hl & L0); [lra|exact Le|exact H|].
    destruct (Hl (- l / 2)) as [[d D0] Hd]; [lra|]. cbn in Hd.
    pose (h := - Rmin (t / 2) (d / 2)).
    assert (Hh : h <> 0 /\ Rabs h < d /\ 0 <= t + h < t).
    { unfold h, Rmin. destruct (Rle_dec (t / 2) (d / 2)); (split; [lra|split; [apply Rabs_def1; lra|lra]]). }
    destruct Hh as (H1 & H2 & H3). specialize (Hd h H1 H2). apply Rabs_def2 in Hd. rewrite H in Hd.
    pose proof (B (t + h) H3 i Hi) as Hneg.
    assert (Hpos : 0 < (g i (t + h) - 0) / h).
    { assert (Hh0 : h < 0) by lra. replace ((g i (t + h) - 0) / h) with ((- g i (t + h)) * / (- h)) by (field; lra). apply Rmult_lt_0_compat; [lra|]. apply Rinv_0_lt_compat. lra. }
    lra.
  - intros t Ht P. clear F S0. induction k as [|k' IH].
    + exists 1. split; [lra|]. intros u _ j Hj. lia.
    + destruct IH as (d1 & D1 & H1); [intros; apply D; [lia|assumption]|intros; apply P; lia|].
      destruct (D k' t) as [l Hl]; [lia|lra|]. pose proof (P k' (Nat.lt_succ_diag_r _)) as Pk.
      destruct (der_cont Hl (e := - g k' t)) as (d2 & D2 & H2); [lra|].
      exists (Rmin d1 d2). split; [apply Rmin_pos; assumption|]. intros u Hu j Hj.
      pose proof (Rmin_l d1 d2). pose proof (Rmin_r d1 d2).
      destruct (Nat.eq_dec j k') as [->|Nj].
      * assert (Hab : Rabs (u - t) < d2) by (apply Rabs_def1; lra). specialize (H2 u Hab). apply Rabs_def2 in H2. lra.
      * apply H1; [lra|lia].
Qed.

Lemma Rabs_le_inv' a b : Rabs a <= b -> - b <= a <= b.
Proof. unfold Rabs. destruct Rcase_abs; lra. Qed.

(** Bounds. *)
Lemma vec_bound (v : list R) : exists B, 0 <= B /\ forall j, Rabs (nth j v 0) <= B.
Proof.
  induction v as [|a v (B & B0 & IH)].
  - exists 0. split; [lra|]. intros [|j]; cbn; rewrite Rabs_R0; lra.
  - exists (Rmax (Rabs a) B). split; [eapply Rle_trans; [exact B0|apply Rmax_r]|]. intros [|j]; cbn; [apply Rmax_l|]. eapply Rle_trans; [apply IH|apply Rmax_r].
Qed.
Lemma curve_bound n (y v : R -> list R) T : 0 <= T -> moves n y v -> exists B, 0 <= B /\ forall t j, 0 <= t <= T -> Rabs (nth j (y t) 0) <= B.
Proof.
  intros HT [Ly D].
  assert (G : forall k, (k <= n)%nat -> exists B, 0 <= B /\ forall t j, 0 <= t <= T -> (j < k)%nat -> Rabs (nth j (y t) 0) <= B).
  { induction k as [|k IH]; intros Hk.
    - exists 0. split; [lra|]. intros t j _ Hj. lia.
    - destruct IH as (B & B0 & IH); [lia|].
      assert (C : forall c, 0 <= c <= T -> continuity_pt (fun u => nth k (y u) 0) c).
      { intros c Hc. apply derivable_continuous_pt. eexists. apply D; [lia|lra]. }
      destruct (continuity_ab_maj _ 0 T HT C) as (M & HM & _). destruct (continuity_ab_min _ 0 T HT C) as (m & Hm & _).
      exists (Rmax B (Rmax (Rabs (nth k (y M) 0)) (Rabs (nth k (y m) 0)))). split; [eapply Rle_trans; [exact B0|apply Rmax_l]|].
      intros t j Ht Hj. destruct (Nat.eq_dec j k) as [->|N].
      + eapply Rle_trans; [|apply Rmax_r]. specialize (HM t Ht). specialize (Hm t Ht).
        unfold Rmax, Rabs in *. repeat destruct Rle_dec; repeat destruct Rcase_abs; lra.
      + eapply Rle_trans; [apply IH; [exact Ht|lia]|apply Rmax_l]. }
  destruct (G n (le_n _)) as (B & B0 & HB). exists B. split; [exact B0|]. intros t j Ht.
  destruct (Nat.lt_ge_cases j n) as [H|H]; [apply HB; assumption|]. rewrite nth_overflow by (rewrite Ly; exact H). rewrite Rabs_R0. exact B0.
Qed.

Definition shift (c : R) (v : list R) : list R := map (fun a => a + c) v.
Lemma shift_len c v : length (shift c v) = length v. Proof. apply map_length. Qed.
Lemma shift_nth c v i : (i < length v)%nat -> nth i (shift c v) 0 = nth i v 0 + c.
Proof. intros H. unfold shift. rewrite nth_indep with (d' := 0 + c) by (rewrite map_length; exact H). apply (map_nth (fun a => a + c)). Qed.

Lemma rle_nth (a b : list R) : length a = length b -> (forall i, (i < length a)%nat -> nth i a 0 <= nth i b 0) -> rle a b.
Proof.
  intros L H. split; [exact L|]. intros i. destruct (Nat.lt_ge_cases i (length a)) as [Hi|Hi]; [apply H, Hi|].
  rewrite !nth_overflow by lia. lra.
Qed.

Lemma exp_der e L t : derivable_pt_lim (fun u => e * exp (L * u)) t (e * (L * exp (L * t))).
Proof.
  apply derivable_pt_lim_scal. replace (L * exp (L * t)) with (exp (L * t) * (L * 1)) by ring.
  apply (derivable_pt_lim_comp (fun u => L * u) exp); [|apply derivable_pt_lim_exp].
  apply (derivable_pt_lim_scal id). apply derivable_pt_lim_id.
Qed.

(** The embedding system of a decomposition function stays on both sides of every run. *)
Section Compare.
  Variables (n m : nat) (f : list R -> list R -> list R) (d : list R -> list R -> list R -> list R -> list R).
  Variables (w what : list R) (x xh s dist : R -> list R).
  Hypothesis Dec : decomposes n m f d.
  Hypothesis (Lw : length w = m).
  Hypothesis Mx : moves n x (fun t => d (x t) w (xh t) what).
  Hypothesis Mxh : moves n xh (fun t => d (xh t) what (x t) w).
  Hypothesis Ms : moves n s (fun t => f (s t) (dist t)).
  Hypothesis Hd : forall t, 0 <= t -> within w what (dist t).
  Hypothesis H0 : within (x 0) (xh 0) (s 0).

  Let Lx t : length (x t) = n. Proof. apply Mx. Qed.
  Let Lxh t : length (xh t) = n. Proof. apply Mxh. Qed.
  Let Ls t : length (s t) = n. Proof. apply Ms. Qed.

  Lemma compare_eps T : 0 <= T -> exists L, 0 < L /\ forall e, 0 < e -> e * exp (L * T) <= 1 ->
    forall t, 0 <= t <= T -> forall i, (i < n)%nat ->
      nth i (x t) 0 - nth i (s t) 0 < e * exp (L * t) /\ nth i (s t) 0 - nth i (xh t) 0 < e * exp (L * t).
  Proof.
    intros HT. destruct Dec as (Dg & Mon & Lip).
    destruct (curve_bound HT Ms) as (B1 & B10 & HB1).
    destruct (vec_bound w) as (B2 & B20 & HB2). destruct (vec_bound what) as (B3 & B30 & HB3).
    destruct (Lip (B1 + 1 + B2 + B3)) as [K HK].
    pose (L := Rabs K + 1). assert (L0 : 0 < L) by (unfold L; pose proof (Rabs_pos K); lra).
    exists L. split; [exact L0|]. intros e E0 E1.
    pose (g := fun j t => if (j <? n)%nat then nth j (x t) 0 - nth j (s t) 0 - e * exp (L * t) else nth (j - n) (s t) 0 - nth (j - n) (xh t) 0 - e * exp (L * t)).
    assert (Der1 : forall i t, (i < n)%nat -> 0 <= t -> derivable_pt_lim (fun t => nth i (x t) 0 - nth i (s t) 0 - e * exp (L * t)) t
       (nth i (d (x t) w (xh t) what) 0 - nth i (f (s t) (dist t)) 0 - e * (L * exp (L * t)))).
    { intros i t Hi Ht. apply derivable_pt_lim_minus with (f1 := fun t => nth i (x t) 0 - nth i (s t) 0) (f2 := fun t => e * exp (L * t)); [|apply exp_der].
      apply derivable_pt_lim_minus with (f1 := fun t => nth i (x t) 0) (f2 := fun t => nth i (s t) 0).
      - apply (proj2 Mx); assumption.
      - apply (proj2 Ms); assumption. }
    assert (Der2 : forall i t, (i < n)%nat -> 0 <= t -> derivable_pt_lim (fun t => nth i (s t) 0 - nth i (xh t) 0 - e * exp (L * t)) t
       (nth i (f (s t) (dist t)) 0 - nth i (d (xh t) what (x t) w) 0 - e * (L * exp (L * t)))).
    { intros i t Hi Ht. apply derivable_pt_lim_minus with (f1 := fun t => nth i (s t) 0 - nth i (xh t) 0) (f2 := fun t => e * exp (L * t)); [|apply exp_der].
      apply derivable_pt_lim_minus with (f1 := fun t => nth i (s t) 0) (f2 := fun t => nth i (xh t) 0).
      - apply (proj2 Ms); assumption.
      - apply (proj2 Mxh); assumption. }
    assert (G1 : forall j, (j < n)%nat -> g j = fun t => nth j (x t) 0 - nth j (s t) 0 - e * exp (L * t)).
    { intros j Hj. unfold g. apply Nat.ltb_lt in Hj. rewrite Hj. reflexivity. }
    assert (G2 : forall j, (n <= j)%nat -> g j = fun t => nth (j - n) (s t) 0 - nth (j - n) (xh t) 0 - e * exp (L * t)).
    { intros j Hj. unfold g. apply Nat.ltb_ge in Hj. rewrite Hj. reflexivity. }
    assert (Neg : forall t, 0 <= t <= T -> forall j, (j < n + n)%nat -> g j t < 0).
    { apply never_crosses.
      - intros j t Hj Ht. destruct (Nat.lt_ge_cases j n) as [H|H]; [rewrite (G1 j H)|rewrite (G2 j H)]; eexists; [apply Der1|apply Der2]; auto; lia.
      - intros j Hj. destruct H0 as [[_ A1] [_ A2]]. destruct (Nat.lt_ge_cases j n) as [H|H]; [rewrite (G1 j H)|rewrite (G2 j H)]; rewrite Rmult_0_r, exp_0.
        + specialize (A1 j). lra.
        + specialize (A2 (j - n)%nat). lra.
      - intros i t Hi Ht Le Eq.
        assert (Le1 : forall j, (j < n)%nat -> nth j (x t) 0 <= nth j (s t) 0 + e * exp (L * t)).
        { intros j Hj. specialize (Le j ltac:(lia)). rewrite (G1 j Hj) in Le. lra. }
        assert (Le2 : forall j, (j < n)%nat -> nth j (s t) 0 - e * exp (L * t) <= nth j (xh t) 0).
        { intros j Hj. specialize (Le (n + j)%nat ltac:(lia)). rewrite G2 in Le by lia. replace (n + j - n)%nat with j in Le by lia. lra. }
        clear Le. set (u := e * exp (L * t)) in *.
        assert (U0 : 0 < u) by (apply Rmult_lt_0_compat; [exact E0|apply exp_pos]).
        assert (U1 : u <= 1).
        { eapply Rle_trans; [|exact E1]. apply Rmult_le_compat_l; [lra|].
          assert (Hm : L * t <= L * T) by (apply Rmult_le_compat_l; lra). destruct (Rle_lt_or_eq_dec _ _ Hm) as [H|H]; [left; apply exp_increasing, H|rewrite H; lra]. }
        destruct (Hd (t := t) ltac:(lra)) as [[Wl W1] [Wl' W2]].
        assert (Ld : length (dist t) = m) by congruence.
        assert (LuK : K * u < L * u).
        { apply Rmult_lt_compat_r; [exact U0|]. unfold L. pose proof (Rle_abs K). lra. }
        assert (Lf : e * (L * exp (L * t)) = L * u) by (unfold u; ring).
        assert (Lipu : forall c c', Rabs c <= u -> Rabs c' <= u -> forall i, (i < n)%nat ->
           Rabs (nth i (d (shift c (s t)) (dist t) (shift c' (s t)) (dist t)) 0 - nth i (f (s t) (dist t)) 0) <= K * u).
        { intros c c' Hc Hc' i' Hi'. rewrite <- (Dg (s t) (dist t)) by (rewrite ?Ls; auto).
          assert (Bs : forall c j, Rabs c <= u -> Rabs (nth j (shift c (s t)) 0) <= B1 + 1 + B2 + B3).
          { intros c0 j Hc0. destruct (Nat.lt_ge_cases j n) as [H|H].
            - rewrite shift_nth by (rewrite Ls; exact H). eapply Rle_trans; [apply Rabs_triang|]. pose proof (HB1 t j ltac:(lra)). lra.
            - rewrite nth_overflow by (rewrite shift_len, Ls; exact H). rewrite Rabs_R0. lra. }
          assert (Ds : forall c j, Rabs c <= u -> Rabs (nth j (shift c (s t)) 0 - nth j (s t) 0) <= u).
          { intros c0 j Hc0. destruct (Nat.lt_ge_cases j n) as [H|H].
            - rewrite shift_nth by (rewrite Ls; exact H). replace (nth j (s t) 0 + c0 - nth j (s t) 0) with c0 by ring. exact Hc0.
            - rewrite !nth_overflow by (rewrite ?shift_len, Ls; exact H). rewrite Rminus_0_r, Rabs_R0. lra. }
          apply HK; rewrite ?shift_len, ?Ls; auto.
          intros j. pose proof (HB1 t j ltac:(lra)) as Hs. pose proof (HB2 j) as Hw2. pose proof (HB3 j) as Hw3.
          specialize (W1 j). specialize (W2 j).
          assert (Rabs (nth j (dist t) 0) <= B1 + 1 + B2 + B3).
          { clear - W1 W2 Hw2 Hw3 B10 B20 B30. unfold Rabs in *. repeat destruct Rcase_abs; lra. }
          repeat split; try (apply Bs; assumption); try assumption; lra. }
        assert (Au : Rabs u <= u) by (rewrite Rabs_right; lra). assert (Au' : Rabs (- u) <= u) by (rewrite Rabs_Ropp; exact Au).
        destruct (Nat.lt_ge_cases i n) as [H|H].
        + rewrite (G1 i H) in *. eexists. split; [apply Der1; [exact H|lra]|]. rewrite Lf.
          assert (nth i (d (x t) w (xh t) what) 0 <= nth i (d (shift u (s t)) (dist t) (shift (- u) (s t)) (dist t)) 0).
          { apply Mon; rewrite ?Lx, ?Lxh; auto; try congruence.
            - apply rle_nth; [rewrite shift_len, Lx, Ls; reflexivity|]. intros j Hj. rewrite Lx in Hj. rewrite shift_nth by (rewrite Ls; exact Hj). apply Le1, Hj.
            - rewrite shift_nth by (rewrite Ls; exact H). fold u in Eq. lra.
            - split; auto.
            - apply rle_nth; [rewrite shift_len, Lxh, Ls; reflexivity|]. intros j Hj. rewrite shift_len, Ls in Hj. rewrite shift_nth by (rewrite Ls; exact Hj). specialize (Le2 j Hj). lra.
            - split; auto. }
          pose proof (Lipu u (- u) Au Au' i H) as Hl. apply Rabs_le_inv' in Hl. lra.
        + rewrite (G2 i H) in *. assert (H' : (i - n < n)%nat) by lia. eexists. split; [apply Der2; [exact H'|lra]|]. rewrite Lf.
          assert (nth (i - n) (d (shift (- u) (s t)) (dist t) (shift u (s t)) (dist t)) 0 <= nth (i - n) (d (xh t) what (x t) w) 0).
          { apply Mon; rewrite ?shift_len, ?Ls; auto; try congruence.
            - apply rle_nth; [rewrite shift_len, Lxh, Ls; reflexivity|]. intros j Hj. rewrite shift_len, Ls in Hj. rewrite shift_nth by (rewrite Ls; exact Hj). specialize (Le2 j Hj). lra.
            - rewrite shift_nth by (rewrite Ls; exact H'). fold u in Eq. lra.
            - split; auto.
            - apply rle_nth; [rewrite shift_len, Lx, Ls; reflexivity|]. intros j Hj. rewrite Lx in Hj. rewrite shift_nth by (rewrite Ls; exact Hj). apply Le1, Hj.
            - split; auto. }
          pose proof (Lipu (- u) u Au' Au (i - n)%nat H') as Hl. apply Rabs_le_inv' in Hl. lra. }
    intros t Ht i Hi. pose proof (Neg t Ht i ltac:(lia)) as N1. pose proof (Neg t Ht (n + i)%nat ltac:(lia)) as N2.
    rewrite (G1 i Hi) in N1. rewrite G2 in N2 by lia. replace (n + i - n)%nat with i in N2 by lia. lra.
  Qed.

  Theorem compare t : 0 <= t -> within (x t) (xh t) (s t).
  Proof.
    intros Ht. destruct (compare_eps Ht) as (L & L0 & H).
    assert (G : forall a, (forall e, 0 < e -> e * exp (L * t) <= 1 -> a < e * exp (L * t)) -> a <= 0).
    { intros a Ha. destruct (Rle_lt_dec a 0) as [Hl|Hl]; [exact Hl|]. exfalso.
      pose (r := Rmin a 1). pose proof (exp_pos (L * t)) as Ep.
      assert (R0 : 0 < r) by (apply Rmin_pos; lra).
      assert (Er : r / exp (L * t) * exp (L * t) = r) by (field; lra).
      assert (a < r / exp (L * t) * exp (L * t)).
      { apply Ha; [apply Rdiv_lt_0_compat; assumption|]. rewrite Er. apply Rmin_r. }
      rewrite Er in H1. pose proof (Rmin_l a 1). fold r in H2. lra. }
    split; apply rle_nth; rewrite ?Lx, ?Ls, ?Lxh; auto; intros i Hi.
    - assert (nth i (x t) 0 - nth i (s t) 0 <= 0); [|lra]. apply G. intros e He E1. apply (H e He E1); [lra|exact Hi].
    - assert (nth i (s t) 0 - nth i (xh t) 0 <= 0); [|lra]. apply G. intros e He E1. apply (H e He E1); [lra|exact Hi].
  Qed.
End Compare.
