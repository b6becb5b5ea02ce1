(** The tubes with the global discrepancy contain the traces. *)
From Coq Require Import Reals Lra.
From Verif Require Import Base BaseFacts Dryvr DryvrProofs DryvrProps DryvrGlobal DryvrGlobalSpec DryvrGlobalProofs.
Set Implicit Arguments.
Open Scope R_scope.

Lemma Rabs_bounds x y : Rabs x <= y -> - y <= x <= y.
Proof. unfold Rabs. destruct (Rcase_abs x); lra. Qed.
(** The centre of a box. *)
Definition rmiddle (lo hi : list R) : list R := zipw (fun u l => (u + l) / 2) hi lo.

Section Main.
  Variable disc : bool.
  Variable hull : list (R * R) -> option (list nat).
  Variable d : nat.
  Variable tm : nat -> R.
  Variable sim : list R -> list (list R).
  Variable samples : list (list R).
  Variables lo hi : list R.
  Hypothesis hull_ok : forall pts vs, hull pts = Some vs -> corners_of pts vs.
  Hypothesis box : rbox_of d lo hi.
  Hypothesis sims : rsimulates d 2 tm sim.
  Hypothesis dims : forall p, In p samples -> length p = d.
  Hypothesis rising : forall k, tm k < tm (S k).
  Hypothesis from_0 : tm 0%nat = 0.

  Lemma rmiddle_len : length (rmiddle lo hi) = d.
  Proof. unfold rmiddle. rewrite zipw_length. destruct box as (A & B & _). lia. Qed.
  Lemma rmiddle_nth i : (i < d)%nat -> nth i (rmiddle lo hi) 0 = (nth i hi 0 + nth i lo 0) / 2.
  Proof. intros H. destruct box as (A & B & _). unfold rmiddle. rewrite (@zipw_nth _ _ _ _ _ _ i 0 0 0) by lia. reflexivity. Qed.
  Lemma tm_lt j k : (j < k)%nat -> tm j < tm k.
  Proof. induction 1 as [|k H IH]; [apply rising|]. pose proof (rising k). lra. Qed.

  Lemma whole_tube tb : global_tube disc hull sim samples lo hi = Some tb -> exists n, (2 <= n)%nat /\
    (forall p, p = rmiddle lo hi \/ In p samples -> (n <= length (sim p))%nat) /\
    (exists p, (p = rmiddle lo hi \/ In p samples) /\ n = length (sim p)) /\
    length tb = (2 * (if disc then n else n - 1))%nat /\
    (forall s, rin_box lo hi s -> rin_step tb 0 (tm 0%nat) s) /\
    (forall p k s j, p = rmiddle lo hi \/ In p samples /\ rinner lo hi p /\ (disc = true -> rsized lo hi) ->
      nth_error (sim p) k = Some (tm k :: s) -> (k < n)%nat -> rsteps disc n k j -> rin_step tb j (tm k) s).
  Proof.
    destruct box as (Llo & Lhi & Hle). pose proof rmiddle_len as Lc. intros E0.
    unfold global_tube in E0. rewrite Llo, Lhi, Nat.eqb_refl in E0. fold (rmiddle lo hi) in E0.
    set (radii := zipw (fun u l => (u - l) / 2) hi lo) in *.
    assert (Lr : length radii = d) by (unfold radii; rewrite zipw_length; lia).
    assert (Rn : forall i, (i < d)%nat -> nth i radii 0 = (nth i hi 0 - nth i lo 0) / 2).
    { intros i Hi. unfold radii. rewrite (@zipw_nth _ _ _ _ _ _ i 0 0 0) by lia. reflexivity. }
    assert (Rpos : forall i, (i < length radii)%nat -> 0 <= nth i radii 0).
    { rewrite Lr. intros i Hi. rewrite (Rn i Hi). specialize (Hle i Hi). lra. }
    destruct (fold_min_spec (map sim samples) (length (sim (rmiddle lo hi)))) as (N1 & N2 & N3).
    set (n := fold_left (fun m x => Nat.min m (length x)) (map sim samples) (length (sim (rmiddle lo hi)))) in *.
    assert (Hn : forall p, p = rmiddle lo hi \/ In p samples -> (n <= length (sim p))%nat) by (intros p [->|Hp]; [exact N1|apply N2, in_map, Hp]).
    assert (Hd : forall p, p = rmiddle lo hi \/ In p samples -> length p = d) by (intros p [->|Hp]; auto).
    assert (H2 : (2 <= n)%nat).
    { apply N3; [apply (sims (rmiddle lo hi) Lc)|]. intros x Hx. apply in_map_iff in Hx. destruct Hx as (p & <- & Hp). apply (sims p). auto. }
    assert (Hrow : forall p k, p = rmiddle lo hi \/ In p samples -> (k < n)%nat -> exists s, rrow (firstn n (sim p)) k = tm k :: s /\ length s = d /\ nth_error (sim p) k = Some (tm k :: s) /\ (k = 0%nat -> s = p)).
    { intros p k Hp Hk. destruct (sims p (Hd p Hp)) as (_ & S0 & SR). destruct (nth_error (sim p) k) as [r|] eqn:E.
      - destruct (SR k r E) as (s & -> & Ls). exists s. split; [|split; [exact Ls|split; [reflexivity|intros ->; congruence]]].
        unfold rrow. apply nth_error_nth. rewrite nth_error_firstn by exact Hk. exact E.
      - apply nth_error_None in E. specialize (Hn p Hp). lia. }
    destruct (rshaped (firstn n (sim (rmiddle lo hi))) (map (fun p => firstn n (sim p)) samples) radii); [|discriminate].
    set (c := firstn n (sim (rmiddle lo hi))) in *. set (ts := map (fun p => firstn n (sim p)) samples) in *.
    assert (Lcn : length c = n) by (unfold c; rewrite firstn_length; specialize (Hn _ (or_introl eq_refl)); lia).
    assert (Hc : forall k, (k < n)%nat -> exists s, rrow c k = tm k :: s /\ length s = d /\ (k = 0%nat -> s = rmiddle lo hi) /\ nth_error (sim (rmiddle lo hi)) k = Some (tm k :: s)).
    { intros k Hk. destruct (Hrow (rmiddle lo hi) k) as (s & E & Ls & Es & E1); [auto|exact Hk|]. exists s. auto. }
    assert (Tm : forall k, (k < n)%nat -> time c k = tm k) by (intros k Hk; unfold time; destruct (Hc k Hk) as (s & -> & _); reflexivity).
    unfold global_segment in E0. destruct (mapM (column disc hull c ts radii) (seq 0 (length radii))) as [cols|] eqn:Ec; [|discriminate]. cbn [obind] in E0.
    destruct (forallb (forallb (fun v => if Rle_dec 0 v then true else false)) cols) eqn:Ep; [|discriminate]. injection E0 as <-. rewrite Lcn.
    set (df := fun k => 0 :: map (fun col => nth k col 0) cols).
    assert (Lcols : length cols = d) by (rewrite (mapM_length _ _ Ec), seq_length; exact Lr).
    assert (Ldf : forall k, length (df k) = S d) by (intros k; unfold df; cbn [length]; rewrite map_length, Lcols; reflexivity).
    assert (Col : forall i, (i < d)%nat -> column disc hull c ts radii i = Some (nth i cols [])).
    { intros i Hi. apply mapM_Forall2 in Ec. assert (Es : nth_error (seq 0 (length radii)) i = Some i) by (rewrite nth_error_nth' with (d := 0%nat) by (rewrite seq_length; lia); rewrite seq_nth by lia; reflexivity).
      destruct (Forall2_nth_l i Ec Es) as (y & Ey & Hy). rewrite (nth_error_nth _ _ [] Ey). exact Hy. }
    assert (Dn : forall i k, (i < d)%nat -> nth (S i) (df k) 0 = nth k (nth i cols []) 0).
    { intros i k Hi. unfold df. cbn [nth]. rewrite nth_indep with (d' := (fun col => nth k col 0) []) by (rewrite map_length, Lcols; exact Hi). rewrite (map_nth (fun col => nth k col 0)). reflexivity. }
    assert (Dpos : forall i k, 0 <= nth i (df k) 0).
    { intros [|i] k; [cbn; lra|]. destruct (Nat.lt_ge_cases i d) as [Hi|Hi]; [|rewrite nth_overflow by (rewrite Ldf; lia); lra]. rewrite (Dn i k Hi). rewrite forallb_forall in Ep. assert (I : In (nth i cols []) cols) by (apply nth_In; lia). specialize (Ep _ I). rewrite forallb_forall in Ep.
      destruct (Nat.lt_ge_cases k (length (nth i cols []))) as [Hk|Hk]; [|rewrite nth_overflow by exact Hk; lra]. specialize (Ep _ (nth_In _ 0 Hk)). destruct (Rle_dec 0 (nth k (nth i cols []) 0)); [assumption|discriminate]. }
    assert (Rise : forall j k, (j < k)%nat -> (k < length c)%nat -> time c j < time c k) by (rewrite Lcn; intros j k A B; rewrite !Tm by lia; apply tm_lt; exact A).
    assert (T0 : time c 0 = 0) by (rewrite Tm by lia; exact from_0).
    assert (Rows : (2 <= length c)%nat) by lia.
    assert (CB : forall i, (i < d)%nat -> nth i radii 0 <= nth (S i) (df 0%nat) 0 /\ forall k, (0 < k)%nat -> (k < n)%nat -> exists y, rsens disc c ts radii i k = Some y /\ norm_scale (nth i radii 0) * y <= nth (S i) (df k) 0).
    { intros i Hi. assert (Hi' : (i < length radii)%nat) by lia. destruct (@column_bound disc hull c ts radii hull_ok Rpos Rows Rise T0 i (nth i cols []) Hi' (Col i Hi)) as [B0 B1]. split.
      - destruct B0 as [B0|B0]; [rewrite (Dn i 0%nat Hi); exact B0|]. rewrite B0. apply Dpos.
      - intros k K0 K1. rewrite (Dn i k Hi). apply B1; [exact K0|lia]. }
    (** a row that is close enough to the centre is in the step *)
    assert (Near : forall k j x, (k < n)%nat -> rsteps disc n k j -> length x = d -> (forall i, (i < d)%nat -> Rabs (rentry c k i - nth i x 0) <= nth (S i) (df k) 0) ->
       rin_step (if disc then flat_map (fun k => [zipw Rminus (rrow c k) (df k); zipw Rplus (rrow c k) (df k)]) (seq 0 n)
         else flat_map (fun k => [zipw Rmin (zipw Rminus (rrow c (S k)) (df (S k))) (zipw Rminus (rrow c k) (df k)); zipw Rmax (zipw Rplus (rrow c (S k)) (df (S k))) (zipw Rplus (rrow c k) (df k))]) (seq 0 (n - 1))) j (tm k) x).
    { intros k j x Hk Hj Lx Hx.
      assert (RL : forall k, (k < n)%nat -> length (rrow c k) = S d) by (intros q Hq; destruct (Hc q Hq) as (s & -> & Ls & _); cbn; lia).
      assert (B : forall i, (i < S d)%nat -> nth i (zipw Rminus (rrow c k) (df k)) 0 <= nth i (tm k :: x) 0 <= nth i (zipw Rplus (rrow c k) (df k)) 0).
      { intros i Hi. rewrite !(@zipw_nth _ _ _ _ _ _ i 0 0 0) by (rewrite ?Ldf, ?RL; lia). destruct i as [|i].
        - rewrite <- (Tm k Hk). unfold time, df. cbn [nth]. lra.
        - cbn [nth]. assert (Hi' : (i < d)%nat) by lia. specialize (Hx i Hi'). unfold rentry in Hx. apply Rabs_bounds in Hx. lra. }
      unfold rsteps in Hj. destruct disc.
      - subst j. destruct (flat_two (fun k => zipw Rminus (rrow c k) (df k)) (fun k => zipw Rplus (rrow c k) (df k)) Hk) as [F1 F2]. eexists _, _. split; [exact F1|]. split; [exact F2|].
        unfold rin_box. rewrite !zipw_length, Ldf, (RL k Hk). cbn [length]. split; [lia|]. split; [lia|]. intros i Hi. apply B. lia.
      - destruct Hj as [Hj Hj1]. destruct (flat_two (fun k => zipw Rmin (zipw Rminus (rrow c (S k)) (df (S k))) (zipw Rminus (rrow c k) (df k))) (fun k => zipw Rmax (zipw Rplus (rrow c (S k)) (df (S k))) (zipw Rplus (rrow c k) (df k))) Hj1) as [F1 F2].
        eexists _, _. split; [exact F1|]. split; [exact F2|]. assert (Hj0 : (j < n)%nat) by lia. assert (HjS : (S j < n)%nat) by lia. pose proof (RL j Hj0) as R0. pose proof (RL (S j) HjS) as R1.
        unfold rin_box. rewrite !zipw_length, !Ldf, R0, R1. cbn [length]. split; [lia|]. split; [lia|]. intros i Hi.
        rewrite (@zipw_nth _ _ _ Rmin _ _ i 0 0 0) by (rewrite !zipw_length, ?R0, ?R1, !Ldf; lia). rewrite (@zipw_nth _ _ _ Rmax _ _ i 0 0 0) by (rewrite !zipw_length, ?R0, ?R1, !Ldf; lia).
        assert (Hi' : (i < S d)%nat) by lia. specialize (B i Hi'). destruct Hj as [-> | <-].
        + split; [eapply Rle_trans; [apply Rmin_r|apply B]|eapply Rle_trans; [apply B|apply Rmax_r]].
        + split; [eapply Rle_trans; [apply Rmin_l|apply B]|eapply Rle_trans; [apply B|apply Rmax_l]]. }
    exists n. split; [exact H2|]. split; [exact Hn|]. split.
    { destruct (Nat.eq_dec n (length (sim (rmiddle lo hi)))) as [E|E]; [exists (rmiddle lo hi); auto|].
      assert (G : forall (l : list (list (list R))) m, let n := fold_left (fun m x => Nat.min m (length x)) l m in n = m \/ exists x, In x l /\ n = length x).
      { clear. induction l as [|y l IH]; intros m; cbn [fold_left]; [auto|]. destruct (IH (Nat.min m (length y))) as [E|(x & Hx & E)]; [|right; exists x; cbn; auto].
        destruct (Nat.min_dec m (length y)) as [E'|E']; [left; lia|right; exists y; cbn; split; [auto|lia]]. }
      destruct (G (map sim samples) (length (sim (rmiddle lo hi)))) as [E'|(x & Hx & E')]; fold n in E'; [congruence|]. apply in_map_iff in Hx. destruct Hx as (p & <- & Hp). exists p. auto. }
    split; [destruct disc; rewrite flat_two_len, seq_length; reflexivity|].
    split.
    - intros s (Ls & _ & Hs). apply Near; [lia|unfold rsteps; destruct disc; lia|lia|]. intros i Hi. destruct (Hc 0%nat) as (s0 & E & _ & E1 & _); [lia|]. unfold rentry. rewrite E, (E1 eq_refl). cbn [nth].
      destruct (CB i Hi) as [C0 _]. eapply Rle_trans; [|exact C0]. rewrite (rmiddle_nth Hi), (Rn i Hi). specialize (Hs i). rewrite Ls, Llo in Hs. specialize (Hs Hi). apply Rabs_le. lra.
    - intros p k s j Hp Ek Hk Hj. assert (Hp' : p = rmiddle lo hi \/ In p samples) by tauto. destruct (Hrow p k Hp' Hk) as (s' & E' & Ls' & Es' & E0'). rewrite Ek in Es'. injection Es' as <-.
      apply Near; [exact Hk|exact Hj|exact Ls'|]. intros i Hi. destruct (Hc k Hk) as (s0 & E & _ & E0 & Ec'). destruct Hp as [->|(Hp & Hin & Hsz)].
      + rewrite Ek in Ec'. injection Ec' as <-. unfold rentry. rewrite E. cbn [nth]. rewrite Rminus_diag_eq by reflexivity. rewrite Rabs_R0. apply Dpos.
      + destruct Hin as (Lp & Hin). rewrite Llo in Hin, Lp. destruct (CB i Hi) as [C0 C1]. destruct k as [|k].
        * rewrite (E0' eq_refl). unfold rentry. rewrite E, (E0 eq_refl). cbn [nth]. eapply Rle_trans; [|exact C0]. rewrite (rmiddle_nth Hi), (Rn i Hi). specialize (Hin i Hi). specialize (Hle i Hi).
          rewrite Rabs_minus_sym. eapply Rle_trans; [exact Hin|]. lra.
        * destruct (C1 (S k)) as (y & Ey & Hy); [lia|exact Hk|]. eapply Rle_trans; [|exact Hy].
          assert (Hti : In (firstn n (sim p)) ts) by (unfold ts; apply (in_map (fun x => firstn n (sim x))); exact Hp).
          assert (Hi' : (i < length radii)%nat) by lia.
          assert (Hsc : norm_sens disc (nth i radii 0) = norm_scale (nth i radii 0)).
          { unfold norm_sens, norm_scale. destruct disc; [|reflexivity]. rewrite (Rn i Hi). specialize (Hsz eq_refl i). rewrite Llo in Hsz. unfold small. destruct (Hsz Hi) as [Z|Z].
            - rewrite Z. destruct (Rlt_dec _ _); [|lra]. destruct (Req_EM_T _ _); [reflexivity|lra].
            - destruct (Rlt_dec _ _); [lra|]. destruct (Req_EM_T _ _); [lra|reflexivity]. }
          assert (D : rd disc c radii (firstn n (sim p)) + small <= 1).
          { assert (D : rd disc c radii (firstn n (sim p)) <= 1 - small); [|lra].
            unfold rd. apply rdist_le; [unfold small; lra|]. intros q Hq1 Hq2. rewrite zipw_length in Hq1, Hq2. unfold rnorms in Hq1, Hq2. rewrite map_length in Hq1, Hq2.
            destruct (Hc 0%nat) as (s1 & E1 & _ & E10 & _); [lia|]. destruct (Hrow p 0%nat Hp') as (s2 & E2 & _ & _ & E20); [lia|]. rewrite E1, (E10 eq_refl) in *. rewrite E2, (E20 eq_refl) in *. cbn [tl] in *.
            assert (Hq : (q < d)%nat) by lia. assert (Hq' : (q < length radii)%nat) by lia.
            rewrite !(@zipw_nth _ _ _ Rdiv _ _ q 0 0 0) by (unfold rnorms; rewrite ?map_length; lia). rewrite (rnorms_nth disc radii Hq'), (rmiddle_nth Hq).
            pose proof (norm_sens_pos disc (Rpos q Hq')) as Hnp. pose proof (norm_sens_ge disc (Rpos q Hq')) as Hng. specialize (Hin q Hq). rewrite <- (Rn q Hq) in Hin. specialize (Rpos q Hq').
            set (N := norm_sens disc (nth q radii 0)) in *. set (x := nth q p 0) in *. set (m := (nth q hi 0 + nth q lo 0) / 2) in *. set (r := nth q radii 0) in *. fold small in Hin.
            replace (m / N - x / N) with ((m - x) / N) by (field; lra). unfold Rdiv at 1. rewrite Rabs_mult, (Rabs_pos_eq (/ N)) by (apply Rlt_le, Rinv_0_lt_compat, Hnp).
            apply Rmult_le_reg_r with N; [exact Hnp|]. rewrite Rmult_assoc, Rinv_l by lra. rewrite Rmult_1_r, Rabs_minus_sym. eapply Rle_trans; [exact Hin|]. apply Rmult_le_compat_l; [unfold small; lra|exact Hng]. }
          pose proof (@rsens_bound disc c ts radii Rpos i (S k) y (firstn n (sim p)) Hi' Ey Hti D Hsc) as G. unfold rentry in G at 2. rewrite E' in G. cbn [nth] in G. exact G.
  Qed.
End Main.
