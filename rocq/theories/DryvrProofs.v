(** Proofs about the DryVR tubes. *)
From Verif Require Import Base BaseFacts Boxes Dryvr DryvrSpec.
From Coq Require Import Qabs Lqa.
Set Implicit Arguments.
Open Scope nat_scope.

Lemma fold_max_ge l : forall a, (a <= fold_left Qmax l a)%Q /\ forall x, In x l -> (x <= fold_left Qmax l a)%Q.
Proof.
  induction l as [|y l IH]; intros a; cbn [fold_left]; [split; [lra|intros ? []]|].
  destruct (IH (Qmax a y)) as [A B]. pose proof (Q.le_max_l a y). pose proof (Q.le_max_r a y). split; [lra|].
  intros x [->|Hx]; [lra|auto].
Qed.
Lemma fold_max_le l : forall a b, (a <= b)%Q -> (forall x, In x l -> (x <= b)%Q) -> (fold_left Qmax l a <= b)%Q.
Proof. induction l as [|y l IH]; intros a b Ha H; cbn [fold_left]; [exact Ha|]. apply IH; [apply Q.max_lub; [exact Ha|apply H; cbn; auto]|intros; apply H; cbn; auto]. Qed.

Lemma list_qmax_ge l m : list_qmax l = Some m -> forall x, In x l -> (x <= m)%Q.
Proof. destruct l as [|v vs]; [discriminate|]. intros [= <-] x. destruct (fold_max_ge vs v) as [A B]. intros [<-|H]; auto. Qed.
Lemma list_qmax_some l : l <> [] -> exists m, list_qmax l = Some m.
Proof. destruct l; [congruence|]. cbn. eauto. Qed.

Lemma dist_inf_le a b q : (0 <= q)%Q -> (forall i, i < length a -> i < length b -> (Qabs (nth i a 0 - nth i b 0) <= q)%Q) -> (dist_inf a b <= q)%Q.
Proof.
  intros Hq H. apply fold_max_le; [exact Hq|]. intros x Hx. apply In_nth with (d := 0%Q) in Hx. destruct Hx as (i & Hi & <-).
  rewrite zipw_length in Hi. rewrite (@zipw_nth _ _ _ _ _ _ i 0%Q 0%Q 0%Q) by lia. apply H; lia.
Qed.
Lemma dist_inf_nonneg a b : (0 <= dist_inf a b)%Q.
Proof. unfold dist_inf. exact (proj1 (fold_max_ge _ 0%Q)). Qed.

Lemma norm_pos disc r : (0 <= r)%Q -> (0 < norm_radius disc r)%Q.
Proof.
  intros H. unfold norm_radius. destruct disc.
  - destruct (Qle_bool small_eps r) eqn:E; [|reflexivity]. apply Qle_bool_iff in E. unfold small_eps in E. lra.
  - destruct (Qeq_bool r 0) eqn:E; [reflexivity|]. apply Qeq_bool_neq in E. destruct (Qlt_le_dec 0 r); [assumption|]. exfalso. apply E. lra.
Qed.
Lemma norm_ge disc r : (0 <= r)%Q -> (r <= norm_radius disc r)%Q.
Proof.
  intros H. unfold norm_radius. destruct disc.
  - destruct (Qle_bool small_eps r) eqn:E; [lra|]. assert (r < small_eps)%Q. { apply Qnot_le_lt. intros C. apply Qle_bool_iff in C. congruence. } unfold small_eps in *. lra.
  - destruct (Qeq_bool r 0) eqn:E; [|lra]. apply Qeq_bool_eq in E. lra.
Qed.

Lemma pairs_In {A} (c t : A) ts : In t ts -> In (c, t) (pairs (c :: ts)).
Proof. intros H. cbn. apply in_app_iff. left. apply in_map. exact H. Qed.

(** [x / n / w * n >= x] for [0 < w <= 1]. *)
Lemma scale_back x n w : (0 <= x -> 0 < n -> 0 < w -> w <= 1 -> x <= x / n / w * n)%Q.
Proof.
  intros Hx Hn Hw H1. setoid_replace (x / n / w * n)%Q with (x / w)%Q by (field; split; intros E; rewrite E in *; lra).
  apply Qle_shift_div_l; [exact Hw|]. nra.
Qed.

Section Proofs.
  Variable disc : bool.
  Variable c : list vec.
  Variable ts : list (list vec).
  Variable radii : vec.
  Hypothesis radii_nonneg : forall i, i < length radii -> (0 <= nth i radii 0)%Q.
  Hypothesis some_samples : ts <> [].

  Notation traces := (c :: ts).
  Notation norms := (norms disc radii).

  Lemma norms_len : length norms = length radii.
  Proof. apply map_length. Qed.
  Lemma norms_nth i : i < length radii -> nth i norms 1%Q = norm_radius disc (nth i radii 0%Q).
  Proof. intros H. unfold Dryvr.norms. rewrite nth_indep with (d' := norm_radius disc 0%Q) by (rewrite map_length; exact H). apply map_nth. Qed.
  Lemma norms_nth0 i : i < length radii -> nth i norms 0%Q = norm_radius disc (nth i radii 0%Q).
  Proof. intros H. rewrite <- (norms_nth H). apply nth_indep. rewrite norms_len. exact H. Qed.

  Notation scales := (scales radii).
  Lemma scales_len : length scales = length radii.
  Proof. apply map_length. Qed.
  Lemma scales_nth0 i : i < length radii -> nth i scales 0%Q = norm_radius false (nth i radii 0%Q).
  Proof. intros H. unfold Dryvr.scales. rewrite nth_indep with (d' := norm_radius false 0%Q) by (rewrite map_length; exact H). apply map_nth. Qed.

  Definition dist (t t' : list vec) : Q := dist_inf (zipw Qdiv (tl (row t 0)) norms) (zipw Qdiv (tl (row t' 0)) norms).

  Lemma pairs_ne : pairs traces <> [].
  Proof. destruct ts as [|t l]; [congruence|]. discriminate. Qed.

  Lemma sens_some d k : exists y, sensitivity disc traces radii d k = Some y.
  Proof. apply list_qmax_some. intros H. apply map_eq_nil in H. exact (pairs_ne H). Qed.

  Lemma sens_nonneg d k y : d < length radii -> sensitivity disc traces radii d k = Some y -> (0 <= y)%Q.
  Proof.
    intros Hd E. destruct ts as [|t l] eqn:El; [congruence|]. rewrite <- El in E.
    assert (Hin : In (c, t) (pairs (c :: ts))) by (apply pairs_In; rewrite El; left; reflexivity).
    pose proof (list_qmax_ge _ E _ (in_map _ _ _ Hin)) as H. cbn [fst snd] in H. refine (Qle_trans _ _ _ _ H). rewrite (norms_nth Hd).
    pose proof (norm_pos disc (radii_nonneg Hd)) as Hn. pose proof (dist_inf_nonneg (zipw Qdiv (tl (row c 0)) norms) (zipw Qdiv (tl (row t 0)) norms)) as Hw.
    apply Qle_shift_div_l; [unfold small_eps; lra|]. rewrite Qmult_0_l. apply Qle_shift_div_l; [exact Hn|]. rewrite Qmult_0_l. apply Qabs_nonneg.
  Qed.

  Lemma sens_bound d k y t : d < length radii -> sensitivity disc traces radii d k = Some y -> In t ts -> (dist c t + small_eps <= 1)%Q ->
    (Qabs (entry c k d - entry t k d) <= y * nth d norms 1)%Q.
  Proof.
    intros Hd E Ht Hw. pose proof (list_qmax_ge _ E _ (in_map _ _ _ (pairs_In c _ _ Ht))) as H. cbn [fst snd] in H. fold (dist c t) in H.
    rewrite (norms_nth Hd) in *. pose proof (norm_pos disc (radii_nonneg Hd)) as Hn. pose proof (dist_inf_nonneg (zipw Qdiv (tl (row c 0)) norms) (zipw Qdiv (tl (row t 0)) norms)) as Hw0. fold (dist c t) in Hw0.
    set (x := Qabs (entry c k d - entry t k d)) in *. set (n := norm_radius disc (nth d radii 0%Q)) in *. set (v := dist c t) in *.
    assert (0 <= x)%Q by apply Qabs_nonneg. eapply Qle_trans; [apply (@scale_back x n (v + small_eps)%Q); try assumption; unfold small_eps; lra|].
    apply Qmult_le_r; [exact Hn|]. exact H.
  Qed.

  (** Row [k] of [df]: the bounds on the traces. *)
  Definition df_ok (k : nat) (f : vec) : Prop :=
    length f = S (length radii) /\ (nth 0 f 0 == 0)%Q /\
    (forall d, d < length radii -> (0 <= nth (S d) f 0)%Q) /\
    (k = 0 -> forall d, d < length radii -> (nth d radii 0 <= nth (S d) f 0)%Q) /\
    (0 < k -> forall d t, d < length radii -> (norm_radius disc (nth d radii 0) == norm_radius false (nth d radii 0))%Q -> In t ts -> (dist c t + small_eps <= 1)%Q -> (Qabs (entry c k d - entry t k d) <= nth (S d) f 0)%Q).

  Lemma df_some k : exists f, df disc traces radii k = Some f /\ df_ok k f.
  Proof.
    unfold df. destruct k as [|k].
    - eexists. split; [reflexivity|]. 
      assert (E : forall d, d < length radii -> nth (S d) (0%Q :: zipw (fun r n => ((if Qeq_bool r 0 then 0 else 1) * n)%Q) radii scales) 0%Q = ((if Qeq_bool (nth d radii 0) 0 then 0 else 1) * norm_radius false (nth d radii 0%Q))%Q).
      { intros d Hd. cbn [nth]. rewrite (@zipw_nth _ _ _ _ _ _ d 0%Q 0%Q 0%Q) by (rewrite ?scales_len; lia). rewrite (scales_nth0 Hd). reflexivity. }
      assert (G : forall d, d < length radii -> (nth d radii 0 <= nth (S d) (0%Q :: zipw (fun r n => ((if Qeq_bool r 0 then 0 else 1) * n)%Q) radii scales) 0)%Q).
      { intros d Hd. rewrite (E d Hd). destruct (Qeq_bool (nth d radii 0%Q) 0) eqn:Eq; [apply Qeq_bool_eq in Eq; lra|]. pose proof (norm_ge false (radii_nonneg Hd)). lra. }
      split; [cbn [length]; rewrite zipw_length, scales_len; lia|]. split; [reflexivity|].
      split; [intros d Hd; specialize (G d Hd); specialize (radii_nonneg Hd); lra|]. split; [intros _; exact G|lia].
    - assert (T : exists ys, mapM (fun d => sensitivity disc traces radii d (S k)) (seq 0 (length radii)) = Some ys).
      { generalize (seq 0 (length radii)). intros l. induction l as [|d l (ys & E)]; [eexists; reflexivity|]. destruct (sens_some d (S k)) as (y & Ey). exists (y :: ys). cbn [mapM]. rewrite Ey. cbn [obind]. rewrite E. reflexivity. }
      destruct T as (ys & E). rewrite E. cbn [obind]. eexists. split; [reflexivity|]. pose proof (mapM_length _ _ E) as L. rewrite seq_length in L.
      apply mapM_Forall2 in E.
      assert (N : forall d, d < length radii -> exists y, sensitivity disc traces radii d (S k) = Some y /\ nth (S d) (0%Q :: zipw Qmult ys scales) 0%Q = (y * norm_radius false (nth d radii 0%Q))%Q).
      { intros d Hd. assert (Es : nth_error (seq 0 (length radii)) d = Some d). { rewrite nth_error_nth' with (d := 0) by (rewrite seq_length; exact Hd). rewrite seq_nth by exact Hd. reflexivity. }
        destruct (Forall2_nth_l d E Es) as (y & Ey & Hy). exists y. split; [exact Hy|]. cbn [nth]. rewrite (@zipw_nth _ _ _ _ _ _ d 0%Q 0%Q 0%Q) by (rewrite ?scales_len; lia). rewrite (scales_nth0 Hd), (nth_error_nth _ _ 0%Q Ey). reflexivity. }
      split; [cbn [length]; rewrite zipw_length, scales_len; lia|]. split; [reflexivity|].
      split.
      { intros d Hd. destruct (N d Hd) as (y & Hy & ->). pose proof (@sens_nonneg d (S k) y Hd Hy). pose proof (norm_pos false (radii_nonneg Hd)). nra. }
      split; [lia|]. intros _ d t Hd Hs Ht Hw. destruct (N d Hd) as (y & Hy & ->). rewrite <- Hs, <- (norms_nth Hd). apply sens_bound; assumption.
  Qed.

  Lemma dfs_some n : exists dfs, mapM (df disc traces radii) (seq 0 n) = Some dfs /\ length dfs = n /\ forall k, k < n -> df_ok k (nth k dfs []).
  Proof.
    assert (T : exists dfs, mapM (df disc traces radii) (seq 0 n) = Some dfs).
    { generalize (seq 0 n). intros l. induction l as [|d l (ys & E)]; [eexists; reflexivity|]. destruct (df_some d) as (y & Ey & _). exists (y :: ys). cbn [mapM]. rewrite Ey. cbn [obind]. rewrite E. reflexivity. }
    destruct T as (dfs & E). exists dfs. split; [exact E|]. pose proof (mapM_length _ _ E) as L. rewrite seq_length in L. split; [exact L|].
    intros k Hk. apply mapM_Forall2 in E. assert (Es : nth_error (seq 0 n) k = Some k). { rewrite nth_error_nth' with (d := 0) by (rewrite seq_length; exact Hk). rewrite seq_nth by exact Hk. reflexivity. }
    destruct (Forall2_nth_l k E Es) as (f & Ef & Hf). rewrite (nth_error_nth _ _ [] Ef). destruct (df_some k) as (f' & Ef' & Ok). congruence.
  Qed.

  Lemma dfs_nonneg n dfs : length dfs = n -> (forall k, k < n -> df_ok k (nth k dfs [])) -> forallb (forallb (fun q => Qle_bool 0 q)) dfs = true.
  Proof.
    intros L H. apply forallb_forall. intros f Hf. apply In_nth with (d := []) in Hf. destruct Hf as (k & Hk & <-). rewrite L in Hk.
    destruct (H k Hk) as (Lf & F0 & F1 & _). apply forallb_forall. intros q Hq. apply In_nth with (d := 0%Q) in Hq. destruct Hq as (i & Hi & <-). apply Qle_bool_iff.
    destruct i as [|d]; [rewrite F0; lra|]. apply F1. lia.
  Qed.

  Hypothesis is_shaped : shaped traces radii = true.

  Lemma shaped_row t k : In t traces -> k < length c -> length (row t k) = S (length radii).
  Proof.
    intros Ht Hk. unfold shaped in is_shaped. apply andb_prop in is_shaped as [H _]. apply andb_prop in H as [_ H]. rewrite forallb_forall in H. specialize (H t Ht).
    apply andb_prop in H as [HL HR]. apply Nat.eqb_eq in HL. rewrite forallb_forall in HR. unfold row. apply Nat.eqb_eq. apply HR. apply nth_In. lia.
  Qed.

  Lemma flat_two {A} (f g : nat -> A) n k : k < n -> nth_error (flat_map (fun k => [f k; g k]) (seq 0 n)) (2 * k) = Some (f k) /\
    nth_error (flat_map (fun k => [f k; g k]) (seq 0 n)) (2 * k + 1) = Some (g k).
  Proof.
    intros H. assert (G : forall s, nth_error (flat_map (fun k => [f k; g k]) (seq s n)) (2 * k) = Some (f (s + k)) /\ nth_error (flat_map (fun k => [f k; g k]) (seq s n)) (2 * k + 1) = Some (g (s + k))); [|exact (G 0)].
    revert k H. induction n as [|n IH]; intros k H s; [lia|]. cbn [seq flat_map]. destruct k as [|k]; [rewrite Nat.add_0_r; split; reflexivity|].
    replace (2 * S k) with (S (S (2 * k))) by lia. cbn [app nth_error Nat.add]. replace (s + S k) with (S s + k) by lia. apply IH. lia.
  Qed.
  Lemma flat_two_len {A} (f g : nat -> A) l : length (flat_map (fun k : nat => [f k; g k]) l) = 2 * length l.
  Proof. induction l as [|k l IH]; [reflexivity|]. cbn [flat_map]. rewrite app_length, IH. cbn. lia. Qed.

  Lemma times_eq t j : In t ts -> j < length c -> (nth 0 (row t j) 0 == nth 0 (row c j) 0)%Q.
  Proof.
    intros Ht Hj. unfold shaped in is_shaped. apply andb_prop in is_shaped as [_ H]. rewrite forallb_forall in H. specialize (H t Ht). rewrite forallb_forall in H.
    specialize (H j). apply Qeq_bool_eq. apply H. apply in_seq. lia.
  Qed.

  Theorem segment_spec : exists tb, reachtube_segment disc traces radii = Some tb /\
    length tb = 2 * (if disc then length c else length c - 1) /\
    forall k j x, (if disc then j = k /\ k < length c else (j = k \/ j = S k) /\ S k < length c) ->
      (exists f, df disc traces radii j = Some f /\ length x = S (length radii) /\ (nth 0 x 0 == nth 0 (row c j) 0)%Q /\
        forall d, d < length radii -> (Qabs (entry c j d - nth (S d) x 0) <= nth (S d) f 0)%Q) ->
      exists lo hi, nth_error tb (2 * k) = Some lo /\ nth_error tb (2 * k + 1) = Some hi /\ in_box lo hi x.
  Proof.
    destruct (dfs_some (length c)) as (dfs & E & L & H). unfold reachtube_segment. rewrite is_shaped, E. cbn [obind]. rewrite (@dfs_nonneg (length c) dfs L H).
    eexists. split; [reflexivity|].
    assert (RL : forall j, j < length c -> length (row c j) = S (length radii)) by (intros j Hj; apply shaped_row; [left; reflexivity|exact Hj]).
    assert (FE : forall j f, j < length c -> df disc traces radii j = Some f -> f = nth j dfs []).
    { intros j f Hj Ef. apply mapM_Forall2 in E. assert (Es : nth_error (seq 0 (length c)) j = Some j). { rewrite nth_error_nth' with (d := 0) by (rewrite seq_length; exact Hj). rewrite seq_nth by exact Hj. reflexivity. }
      destruct (Forall2_nth_l j E Es) as (f' & Ef' & Hf'). rewrite (nth_error_nth _ _ [] Ef'). congruence. }
    assert (B : forall j x, j < length c -> (exists f, df disc traces radii j = Some f /\ length x = S (length radii) /\ (nth 0 x 0 == nth 0 (row c j) 0)%Q /\
        forall d, d < length radii -> (Qabs (entry c j d - nth (S d) x 0) <= nth (S d) f 0)%Q) ->
        forall i, i < S (length radii) -> (nth i (zipw Qminus (row c j) (nth j dfs [])) 0 <= nth i x 0 /\ nth i x 0 <= nth i (zipw Qplus (row c j) (nth j dfs [])) 0)%Q).
    { intros j x Hj (f & Ef & Lx & X0 & X) i Hi. rewrite (FE j f Hj Ef) in *. destruct (H j Hj) as (Lf & F0 & _). specialize (RL j Hj).
      rewrite !(@zipw_nth _ _ _ _ _ _ i 0%Q 0%Q 0%Q) by lia. destruct i as [|d]; [lra|]. specialize (X d). unfold entry in X.
      assert (Hd : d < length radii) by lia. specialize (X Hd). apply Qabs_Qle_condition in X. lra. }
    destruct disc eqn:Edisc.
    - rewrite flat_two_len, seq_length. split; [reflexivity|]. intros k j x [-> Hk] Hx. destruct (flat_two (fun k => zipw Qminus (row c k) (nth k dfs [])) (fun k => zipw Qplus (row c k) (nth k dfs [])) Hk) as [N1 N2].
      eexists _, _. split; [exact N1|]. split; [exact N2|]. assert (Lx : length x = S (length radii)) by (destruct Hx as (? & _ & A & _); exact A).
      apply in_box_nth. rewrite !zipw_length, (RL k Hk). destruct (H k Hk) as (Lf & _). rewrite Lf, Lx. split; [lia|]. split; [lia|]. intros i Hi. apply B; assumption.
    - rewrite flat_two_len, seq_length. split; [reflexivity|]. intros k j x [Hj Hk] Hx. assert (Hk1 : k < length c - 1) by lia.
      destruct (flat_two (fun k => zipw Qmin (zipw Qminus (row c (S k)) (nth (S k) dfs [])) (zipw Qminus (row c k) (nth k dfs [])))
                  (fun k => zipw Qmax (zipw Qplus (row c (S k)) (nth (S k) dfs [])) (zipw Qplus (row c k) (nth k dfs []))) Hk1) as [N1 N2].
      eexists _, _. split; [exact N1|]. split; [exact N2|]. assert (Lx : length x = S (length radii)) by (destruct Hx as (? & _ & A & _); exact A).
      assert (Hk0 : k < length c) by lia. destruct (H k Hk0) as (Lf & _). destruct (H (S k) Hk) as (Lf' & _). pose proof (RL k Hk0) as R0. pose proof (RL (S k) Hk) as R1.
      apply in_box_nth. rewrite !zipw_length, R0, R1, Lf, Lf', Lx. split; [lia|]. split; [lia|]. intros i Hi.
      rewrite (@zipw_nth _ _ _ Qmin _ _ i 0%Q 0%Q 0%Q) by (rewrite !zipw_length, ?R0, ?R1, ?Lf, ?Lf'; lia).
      rewrite (@zipw_nth _ _ _ Qmax _ _ i 0%Q 0%Q 0%Q) by (rewrite !zipw_length, ?R0, ?R1, ?Lf, ?Lf'; lia).
      destruct Hj as [->| ->].
      + destruct (B k x Hk0 Hx i Hi) as [B1 B2]. split; [eapply Qle_trans; [apply Q.le_min_r|exact B1]|eapply Qle_trans; [exact B2|apply Q.le_max_r]].
      + destruct (B (S k) x Hk Hx i Hi) as [B1 B2]. split; [eapply Qle_trans; [apply Q.le_min_l|exact B1]|eapply Qle_trans; [exact B2|apply Q.le_max_l]].
  Qed.
End Proofs.
