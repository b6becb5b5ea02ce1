(** DryVR tubes: property C46.

    [calc_bloated_tube disc sim samples lo hi] is the tube computed for the box [lo, hi] from the simulation from its
    centre and the simulations from the points [samples]; [disc] selects verse/analysis/dryvr_disc.py. *)
From Verif Require Import Base BaseFacts Boxes Dryvr DryvrSpec DryvrProofs.
From Coq Require Import Qabs Lqa.
Set Implicit Arguments.
Open Scope nat_scope.

Lemma fold_min_spec {A} (l : list (list A)) : forall m, let n := fold_left (fun m x => Nat.min m (length x)) l m in
  n <= m /\ (forall x, In x l -> n <= length x) /\ (forall b, b <= m -> (forall x, In x l -> b <= length x) -> b <= n).
Proof.
  induction l as [|y l IH]; intros m; cbn [fold_left]; [split; [lia|split; [intros ? []|auto]]|].
  destruct (IH (Nat.min m (length y))) as (A1 & A2 & A3). split; [lia|]. split.
  - intros x [<-|Hx]; [lia|auto].
  - intros b Hb H. apply A3; [specialize (H y (or_introl eq_refl)); lia|intros; apply H; cbn; auto].
Qed.

Definition middle (lo hi : vec) : vec := zipw (fun u l => (u + l) / 2)%Q hi lo.

(** The step(s) of a tube that belong to row [k] of a trace of [n] rows. *)
Definition steps_of_row (disc : bool) (n k j : nat) : Prop :=
  if disc then j = k else (j = k \/ S j = k) /\ j < n - 1.

Section Main.
  Variable disc : bool.
  Variable d : nat.
  Variable tm : nat -> Q.
  Variable sim : vec -> list vec.
  Variable samples : list vec.
  Variables lo hi : vec.
  Hypothesis box : box_of d lo hi.
  Hypothesis sims : simulates d 2 tm sim.
  Hypothesis drawn : samples <> [].
  Hypothesis dims : forall p, In p samples -> length p = d.

  Lemma middle_len : length (middle lo hi) = d.
  Proof. unfold middle. rewrite zipw_length. destruct box as (A & B & _). lia. Qed.
  Lemma middle_nth i : i < d -> nth i (middle lo hi) 0%Q = ((nth i hi 0 + nth i lo 0) / 2)%Q.
  Proof. intros H. destruct box as (A & B & _). unfold middle. rewrite (@zipw_nth _ _ _ _ _ _ i 0%Q 0%Q 0%Q) by lia. reflexivity. Qed.

  Lemma whole : exists tb n, calc_bloated_tube disc sim samples lo hi = Some tb /\ 2 <= n /\
    (forall p, p = middle lo hi \/ In p samples -> n <= length (sim p)) /\
    (exists p, (p = middle lo hi \/ In p samples) /\ n = length (sim p)) /\
    length tb = 2 * (if disc then n else n - 1) /\
    (forall s, in_box lo hi s -> in_step tb 0 (tm 0) s) /\
    (forall p k s j, p = middle lo hi \/ In p samples /\ inner lo hi p /\ (disc = true -> sized lo hi) -> nth_error (sim p) k = Some (tm k :: s) -> k < n -> steps_of_row disc n k j -> in_step tb j (tm k) s).
  Proof.
    destruct box as (Llo & Lhi & Hle). pose proof middle_len as Lc.
    unfold calc_bloated_tube, center_point, delta. rewrite Llo, Lhi, Nat.eqb_refl. cbn [obind]. fold (middle lo hi).
    set (radii := zipw (fun u l => ((u - l) / 2)%Q) hi lo).
    assert (Lr : length radii = d) by (unfold radii; rewrite zipw_length; lia).
    assert (Rn : forall i, i < d -> nth i radii 0%Q = ((nth i hi 0 - nth i lo 0) / 2)%Q).
    { intros i Hi. unfold radii. rewrite (@zipw_nth _ _ _ _ _ _ i 0%Q 0%Q 0%Q) by lia. reflexivity. }
    assert (Rpos : forall i, i < length radii -> (0 <= nth i radii 0)%Q).
    { rewrite Lr. intros i Hi. rewrite (Rn i Hi). specialize (Hle i Hi). apply Qle_shift_div_l; lra. }
    unfold trim_traces. destruct (fold_min_spec (map sim samples) (length (sim (middle lo hi)))) as (N1 & N2 & N3).
    set (n := fold_left (fun m x => Nat.min m (length x)) (map sim samples) (length (sim (middle lo hi)))) in *.
    assert (Hn : forall p, p = middle lo hi \/ In p samples -> n <= length (sim p)) by (intros p [->|Hp]; [exact N1|apply N2, in_map, Hp]).
    assert (Hd : forall p, p = middle lo hi \/ In p samples -> length p = d) by (intros p [->|Hp]; auto).
    assert (H2 : 2 <= n).
    { apply N3; [apply (sims (middle lo hi) Lc)|]. intros x Hx. apply in_map_iff in Hx. destruct Hx as (p & <- & Hp). apply (sims p). auto. }
    assert (Hrow : forall p k, p = middle lo hi \/ In p samples -> k < n -> exists s, row (firstn n (sim p)) k = tm k :: s /\ length s = d /\ nth_error (sim p) k = Some (tm k :: s) /\ (k = 0 -> s = p)).
    { intros p k Hp Hk. destruct (sims p (Hd p Hp)) as (_ & S0 & SR). destruct (nth_error (sim p) k) as [r|] eqn:E.
      - destruct (SR k r E) as (s & -> & Ls). exists s. split; [|split; [exact Ls|split; [reflexivity|intros ->; congruence]]].
        unfold row. apply nth_error_nth. rewrite nth_error_firstn by exact Hk. exact E.
      - apply nth_error_None in E. specialize (Hn p Hp). lia. }
    assert (Hlen : forall p, p = middle lo hi \/ In p samples -> length (firstn n (sim p)) = n) by (intros p Hp; rewrite firstn_length; specialize (Hn p Hp); lia).
    cbn [map]. set (c := firstn n (sim (middle lo hi))). set (ts := map (firstn n) (map sim samples)).
    assert (Lcn : length c = n) by (apply Hlen; auto).
    assert (Tin : forall t, In t ts -> exists p, In p samples /\ t = firstn n (sim p)).
    { intros t Ht. unfold ts in Ht. rewrite map_map in Ht. apply in_map_iff in Ht. destruct Ht as (p & <- & Hp). eauto. }
    assert (Hsh : shaped (c :: ts) radii = true).
    { unfold shaped. apply andb_true_intro. split; [apply andb_true_intro; split|].
      - rewrite Lcn. destruct (Nat.eqb_spec n 0); [lia|reflexivity].
      - apply forallb_forall. intros t Ht. assert (exists p, (p = middle lo hi \/ In p samples) /\ t = firstn n (sim p)) as (p & Hp & ->).
        { destruct Ht as [<-|Ht]; [eauto|]. destruct (Tin t Ht) as (p & Hp & ->). eauto. }
        rewrite (Hlen p Hp), Lcn, Nat.eqb_refl. cbn [andb]. apply forallb_forall. intros r Hr. apply In_nth with (d := []) in Hr. destruct Hr as (k & Hk & <-).
        rewrite (Hlen p Hp) in Hk. destruct (Hrow p k Hp Hk) as (s & E & Ls & _). unfold row in E. rewrite E. cbn [length]. rewrite Ls, Lr. apply Nat.eqb_refl.
      - apply forallb_forall. intros t Ht. destruct (Tin t Ht) as (p & Hp & ->). apply forallb_forall. intros k Hk. apply in_seq in Hk. rewrite Lcn in Hk.
        destruct (Hrow p k) as (s & E & _); [auto|lia|]. destruct (Hrow (middle lo hi) k) as (s' & E' & _); [auto|lia|]. unfold c. rewrite E, E'. cbn [nth]. apply Qeq_bool_iff. reflexivity. }
    assert (Hts : ts <> []). { unfold ts. destruct samples; [congruence|discriminate]. }
    destruct (@segment_spec disc c ts radii Rpos Hts Hsh) as (tb & Etb & Ltb & HS). rewrite Lcn in *.
    exists tb, n. split; [exact Etb|]. split; [exact H2|]. split; [exact Hn|]. split.
    { destruct (Nat.eq_dec n (length (sim (middle lo hi)))) as [E|E]; [exists (middle lo hi); auto|].
      assert (G : forall (l : list (list vec)) m, let n := fold_left (fun m x => Nat.min m (length x)) l m in n = m \/ exists x, In x l /\ n = length x).
      { clear. induction l as [|y l IH]; intros m; cbn [fold_left]; [auto|]. destruct (IH (Nat.min m (length y))) as [E|(x & Hx & E)]; [|right; exists x; cbn; auto].
        destruct (Nat.min_dec m (length y)) as [E'|E']; [left; lia|right; exists y; cbn; split; [auto|lia]]. }
      destruct (G (map sim samples) (length (sim (middle lo hi)))) as [E'|(x & Hx & E')]; fold n in E'; [congruence|]. apply in_map_iff in Hx. destruct Hx as (p & <- & Hp). exists p. auto. }
    split; [exact Ltb|].
    assert (Hc : forall k, k < n -> exists s, row c k = tm k :: s /\ length s = d /\ (k = 0 -> s = middle lo hi) /\ nth_error (sim (middle lo hi)) k = Some (tm k :: s)).
    { intros k Hk. destruct (Hrow (middle lo hi) k) as (s & E & Ls & Es & E0); [auto|exact Hk|]. exists s. auto. }
    split.
    - intros s Hs. assert (Hj : if disc then 0 = 0 /\ 0 < n else (0 = 0 \/ 0 = 1) /\ 1 < n) by (destruct disc; lia).
      destruct (@df_some disc c ts radii Rpos Hts 0) as (f & Ef & (_ & _ & _ & F0 & _)).
      apply (HS 0 0 (tm 0 :: s) Hj). exists f. split; [exact Ef|]. destruct (in_box_length _ _ _ Hs) as (Ls & _). split; [cbn [length]; lia|].
      destruct (Hc 0) as (s0 & E & _ & E0 & _); [lia|]. rewrite E, (E0 eq_refl). split; [reflexivity|]. intros i Hi. unfold entry. rewrite E, (E0 eq_refl). cbn [nth].
      eapply Qle_trans; [|apply (F0 eq_refl i Hi)]. rewrite Lr in Hi. rewrite (middle_nth Hi), (Rn i Hi). apply in_box_nth in Hs. destruct Hs as (_ & _ & Hs). specialize (Hs i). rewrite <- Ls in Hs. rewrite Llo in Hs. specialize (Hs Hi).
      apply Qabs_Qle_condition. unfold Qdiv. change (/ 2)%Q with (1 # 2)%Q. lra.
    - intros p k s j Hp Ek Hk Hj.
      assert (Hp' : p = middle lo hi \/ In p samples) by tauto.
      assert (Hjk : if disc then k = j /\ j < n else (k = j \/ k = S j) /\ S j < n) by (unfold steps_of_row in Hj; destruct disc; lia).
      destruct (@df_some disc c ts radii Rpos Hts k) as (f & Ef & (_ & _ & Fp & F0 & F1)).
      apply (HS j k (tm k :: s) Hjk). exists f. split; [exact Ef|]. destruct (Hrow p k Hp' Hk) as (s' & E' & Ls' & Es' & E0'). rewrite Ek in Es'. injection Es' as <-.
      split; [cbn [length]; lia|]. destruct (Hc k Hk) as (s0 & E & _ & E0 & Ec). split; [rewrite E; reflexivity|].
      intros i Hi. cbn [nth]. destruct Hp as [->|(Hp & Hin & Hsz)].
      + rewrite Ek in Ec. injection Ec as <-. unfold entry. rewrite E. cbn [nth]. setoid_replace (nth i s 0 - nth i s 0)%Q with 0%Q by ring. exact (Fp i Hi).
      + destruct Hin as (Lp & Hin). rewrite Llo in Hin, Lp. destruct k as [|k].
        * rewrite (E0' eq_refl). unfold entry. rewrite E, (E0 eq_refl). cbn [nth]. eapply Qle_trans; [|apply (F0 eq_refl i Hi)]. rewrite Lr in Hi. rewrite (middle_nth Hi), (Rn i Hi). specialize (Hin i Hi). specialize (Hle i Hi).
          rewrite Qabs_Qminus. eapply Qle_trans; [exact Hin|]. assert (0 <= (nth i hi 0 - nth i lo 0) / 2)%Q by (apply Qle_shift_div_l; lra). nra.
        * assert (Hti : In (firstn n (sim p)) ts) by (unfold ts; rewrite map_map; apply (in_map (fun x => firstn n (sim x))); exact Hp).
          assert (Hsc : (norm_radius disc (nth i radii 0) == norm_radius false (nth i radii 0))%Q).
          { unfold norm_radius. destruct disc; [|reflexivity]. assert (Hi' : i < d) by lia. rewrite (Rn i Hi'). specialize (Hsz eq_refl i). rewrite Llo in Hsz. destruct (Hsz Hi') as [Z|Z].
            - replace (Qle_bool small_eps ((nth i hi 0 - nth i lo 0) / 2)%Q) with false; [replace (Qeq_bool ((nth i hi 0 - nth i lo 0) / 2) 0)%Q with true; [reflexivity|]|].
              + symmetry. apply Qeq_bool_iff. setoid_rewrite <- Z. unfold Qdiv. ring.
              + symmetry. apply not_true_iff_false. intros Q. apply Qle_bool_iff in Q. unfold small_eps, Qdiv in Q. change (/ 2)%Q with (1 # 2)%Q in Q. lra.
            - replace (Qle_bool small_eps ((nth i hi 0 - nth i lo 0) / 2)%Q) with true; [replace (Qeq_bool ((nth i hi 0 - nth i lo 0) / 2) 0)%Q with false; [reflexivity|]|].
              + symmetry. apply not_true_iff_false. intros Q. apply Qeq_bool_iff in Q. unfold Qdiv in Q. change (/ 2)%Q with (1 # 2)%Q in Q. lra.
              + symmetry. apply Qle_bool_iff. unfold small_eps, Qdiv. change (/ 2)%Q with (1 # 2)%Q. lra. }
          specialize (F1 (Nat.lt_0_succ k) i (firstn n (sim p)) Hi Hsc Hti). unfold entry in F1 at 2. rewrite E' in F1. cbn [nth] in F1. apply F1.
          (* the normalised initial distance *)
          assert (D : (dist disc radii c (firstn n (sim p)) <= 1 - small_eps)%Q); [|lra].
          unfold dist. apply dist_inf_le; [unfold small_eps; lra|]. intros q Hq1 Hq2. rewrite zipw_length, (norms_len disc radii) in Hq1, Hq2.
          destruct (Hc 0) as (s1 & E1 & _ & E10 & _); [lia|]. destruct (Hrow p 0 Hp') as (s2 & E2 & _ & _ & E20); [lia|]. rewrite E1, (E10 eq_refl) in *. rewrite E2, (E20 eq_refl) in *. cbn [tl] in *.
          assert (Hq : q < d) by lia. assert (Hq' : q < length radii) by lia.
          rewrite !(@zipw_nth _ _ _ Qdiv _ _ q 0%Q 0%Q 0%Q) by (rewrite ?(norms_len disc radii); lia). rewrite (norms_nth0 disc radii Hq'), (middle_nth Hq).
          pose proof (norm_pos disc (Rpos q Hq')) as Hnp. pose proof (norm_ge disc (Rpos q Hq')) as Hng. specialize (Hin q Hq). rewrite <- (Rn q Hq) in Hin. specialize (Rpos q Hq').
          set (N := norm_radius disc (nth q radii 0%Q)) in *. set (x := nth q p 0%Q) in *. set (m := ((nth q hi 0 + nth q lo 0) / 2)%Q) in *. set (r := nth q radii 0%Q) in *. fold small_eps in Hin.
          setoid_replace (m / N - x / N)%Q with ((m - x) / N)%Q by (field; intros Z; rewrite Z in Hnp; lra). unfold Qdiv. rewrite Qabs_Qmult, (Qabs_pos (/ N)) by (apply Qlt_le_weak, Qinv_lt_0_compat, Hnp).
          apply Qle_shift_div_r; [exact Hnp|]. rewrite Qabs_Qminus. eapply Qle_trans; [exact Hin|]. unfold small_eps. nra.
  Qed.
End Main.

(** C46: the computation succeeds, and the tube contains the whole initial box at time 0. *)
Theorem C46_initial_box :
  forall disc d tm sim samples lo hi, box_of d lo hi -> simulates d 2 tm sim -> samples <> [] -> (forall p, In p samples -> length p = d) ->
  exists tb, calc_bloated_tube disc sim samples lo hi = Some tb /\ forall s, in_box lo hi s -> in_step tb 0 (tm 0) s.
Proof. intros disc d tm sim samples lo hi A B C D. destruct (@whole disc d tm sim samples lo hi A B C D) as (tb & n & E & _ & _ & _ & _ & H & _). eauto. Qed.
Print Assumptions C46_initial_box.

(** C46, training traces: the tube has a step for every row of the shortest trace (between every two rows), and
    contains, at every sampled time, the trace from the centre and every trace that starts in the inner part of the
    box.  Missing: traces from the outermost 1e-10th of the box ([C46_boundary_trace_refuted]) and, with the method for discrete
    time, boxes with a side shorter than 2e-10 that is not a point ([C46_small_box_refuted]). *)
Theorem C46_training_traces_partial :
  forall disc d tm sim samples lo hi, box_of d lo hi -> simulates d 2 tm sim -> samples <> [] -> (forall p, In p samples -> length p = d) ->
  exists tb n, calc_bloated_tube disc sim samples lo hi = Some tb /\
    (forall p, p = middle lo hi \/ In p samples -> n <= length (sim p)) /\
    (exists p, (p = middle lo hi \/ In p samples) /\ n = length (sim p)) /\
    length tb = 2 * (if disc then n else n - 1) /\
    forall p k s j, p = middle lo hi \/ In p samples /\ inner lo hi p /\ (disc = true -> sized lo hi) ->
      nth_error (sim p) k = Some (tm k :: s) -> k < n -> steps_of_row disc n k j -> in_step tb j (tm k) s.
Proof. intros disc d tm sim samples lo hi A B C D. destruct (@whole disc d tm sim samples lo hi A B C D) as (tb & n & E & _ & F & G & L & _ & H). exists tb, n. auto. Qed.
Print Assumptions C46_training_traces_partial.

(** ** C46 is false for a training trace that starts on the boundary

    x' = x over one step of doubling, from [-1, 1], with the sample 1: at time 1 the sample is at 2, but the tube ends
    at 2 / (1 + 1e-10). *)
Definition doubling (p : vec) : list vec := [0%Q :: p; 1%Q :: map (Qmult 2) p].
Lemma doubling_simulates d : simulates d 2 (fun k => inject_Z (Z.of_nat k)) doubling.
Proof.
  intros p Lp. split; [reflexivity|]. split; [reflexivity|]. intros [|[|k]] row E; cbn in E.
  - injection E as <-. exists p. auto.
  - injection E as <-. exists (map (Qmult 2) p). split; [reflexivity|]. rewrite map_length. exact Lp.
  - destruct k; discriminate.
Qed.

Theorem C46_boundary_trace_refuted :
  exists d tm sim samples lo hi tb p s,
    box_of d lo hi /\ simulates d 2 tm sim /\ In p samples /\ in_box lo hi p /\ (forall q, In q samples -> length q = d) /\
    calc_bloated_tube false sim samples lo hi = Some tb /\ nth_error (sim p) 1 = Some (tm 1 :: s) /\
    forall j, ~ in_step tb j (tm 1) s.
Proof.
  exists 1, (fun k => inject_Z (Z.of_nat k)), doubling, [[1]]%Q, [-(1)]%Q, [1]%Q. eexists. exists [1]%Q. eexists.
  split; [split; [reflexivity|split; [reflexivity|]]; intros [|i] Hi; [discriminate|lia]|]. split; [apply doubling_simulates|]. split; [left; reflexivity|].
  split; [cbn; repeat split; discriminate|]. split; [intros q [<-|[]]; reflexivity|]. split; [vm_compute; reflexivity|]. split; [reflexivity|].
  intros [|j] (lo & hi & E1 & E2 & HB).
  - cbn in E1, E2. injection E1 as <-. injection E2 as <-. cbn in HB. destruct HB as (_ & (_ & HB) & _). vm_compute in HB. exact (HB eq_refl).
  - replace (2 * S j) with (S (S (2 * j))) in E1 by lia. cbn in E1. destruct (j + (j + 0)); discriminate.
Qed.
Print Assumptions C46_boundary_trace_refuted.

(** ** C46 is false for very small boxes with the method for discrete time

    The same system from [-5e-11, 5e-11], with a sample halfway between the centre and the upper end: the sensitivity is computed for a
    radius of 1, but scaled back with the radius. *)
Theorem C46_small_box_refuted :
  exists d tm sim samples lo hi tb p s,
    box_of d lo hi /\ simulates d 2 tm sim /\ In p samples /\ inner lo hi p /\ (forall q, In q samples -> length q = d) /\
    calc_bloated_tube true sim samples lo hi = Some tb /\ nth_error (sim p) 1 = Some (tm 1 :: s) /\
    forall j, ~ in_step tb j (tm 1) s.
Proof.
  exists 1, (fun k => inject_Z (Z.of_nat k)), doubling, [[1 # 40000000000]]%Q, [-(1 # 20000000000)]%Q, [1 # 20000000000]%Q. eexists. exists [1 # 40000000000]%Q. eexists.
  split; [split; [reflexivity|split; [reflexivity|]]; intros [|i] Hi; [discriminate|lia]|]. split; [apply doubling_simulates|]. split; [left; reflexivity|].
  split; [split; [reflexivity|]; intros [|i] Hi; [vm_compute; discriminate|cbn in Hi; lia]|]. split; [intros q [<-|[]]; reflexivity|]. split; [vm_compute; reflexivity|]. split; [reflexivity|].
  intros [|[|j]] (lo & hi & E1 & E2 & HB).
  - cbn in E1, E2. injection E1 as <-. injection E2 as <-. cbn in HB. destruct HB as ((_ & HB) & _). vm_compute in HB. exact (HB eq_refl).
  - cbn in E1, E2. injection E1 as <-. injection E2 as <-. cbn in HB. destruct HB as (_ & (_ & HB) & _). vm_compute in HB. exact (HB eq_refl).
  - replace (2 * S (S j)) with (S (S (S (S (2 * j))))) in E1 by lia. cbn in E1. destruct (j + (j + 0)); discriminate.
Qed.
Print Assumptions C46_small_box_refuted.

(** A case that meets the hypotheses: the same system with the samples 1/2 and -1/3, both inner. *)
Example ex_sized : sized [-(1)]%Q [1]%Q.
Proof. intros [|i] Hi; [right; vm_compute; discriminate|cbn in Hi; lia]. Qed.
Example ex_C46 : box_of 1 [-(1)]%Q [1]%Q /\ simulates 1 2 (fun k => inject_Z (Z.of_nat k)) doubling /\
  inner [-(1)]%Q [1]%Q [1 # 2]%Q /\ inner [-(1)]%Q [1]%Q [-(1 # 3)]%Q /\
  exists tb, calc_bloated_tube false doubling [[1 # 2]; [-(1 # 3)]]%Q [-(1)]%Q [1]%Q = Some tb /\ in_step tb 0 1 [1]%Q.
Proof.
  split; [split; [reflexivity|split; [reflexivity|]]; intros [|i] Hi; [discriminate|lia]|]. split; [apply doubling_simulates|].
  split; [split; [reflexivity|]; intros [|i] Hi; [vm_compute; discriminate|cbn in Hi; lia]|].
  split; [split; [reflexivity|]; intros [|i] Hi; [vm_compute; discriminate|cbn in Hi; lia]|].
  eexists. split; [vm_compute; reflexivity|]. eexists _, _. split; [reflexivity|]. split; [reflexivity|]. vm_compute. repeat split; discriminate.
Qed.
