(** Proofs about discrete mixed-monotone reachability. *)
From Coq Require Import Qround Lqa.
From Verif Require Import Base BaseFacts Boxes Round MixMono MixMonoSpec.
Set Implicit Arguments.
Open Scope nat_scope.

Lemma in_box_vle lo hi s : in_box lo hi s <-> vle lo s /\ vle s hi.
Proof.
  unfold vle. split.
  - revert hi s. induction lo as [|l lo IH]; intros [|h hi] [|x s]; cbn; try tauto; [split; constructor|]. intros [[A B] C]. destruct (IH _ _ C). split; constructor; auto.
  - revert hi s. induction lo as [|l lo IH]; intros [|h hi] [|x s] [A B]; inversion A; inversion B; subst; cbn; auto.
Qed.
Lemma vle_len a b : vle a b -> length a = length b.
Proof. apply Forall2_len. Qed.
Lemma vle_refl a : vle a a.
Proof. induction a; constructor; [lra|assumption]. Qed.
Lemma vle_trans a b c : vle a b -> vle b c -> vle a c.
Proof. intros H. revert c. induction H as [|x y a b Hxy H IH]; intros c H'; inversion H'; subst; constructor; try lra; fold vle in *; apply IH; assumption. Qed.
Lemma veq_le a b : veq a b -> vle a b.
Proof. intros H. induction H; constructor; [lra|assumption]. Qed.
Lemma veq_sym a b : veq a b -> veq b a.
Proof. intros H. induction H; constructor; [lra|assumption]. Qed.

Lemma zipw_min_l a b : length a = length b -> vle (zipw Qmin a b) a /\ vle (zipw Qmin a b) b.
Proof. revert b. induction a as [|x a IH]; intros [|y b] H; cbn in *; try discriminate; [split; constructor|]. destruct (IH b); [lia|]. split; constructor; auto; [apply Q.le_min_l|apply Q.le_min_r]. Qed.
Lemma zipw_max_l a b : length a = length b -> vle a (zipw Qmax a b) /\ vle b (zipw Qmax a b).
Proof. revert b. induction a as [|x a IH]; intros [|y b] H; cbn in *; try discriminate; [split; constructor|]. destruct (IH b); [lia|]. split; constructor; auto; [apply Q.le_max_l|apply Q.le_max_r]. Qed.

Lemma hull_min d a b : length (fst a) = d -> length (snd a) = d -> length (fst b) = d -> length (snd b) = d ->
  vle (hull_of Qmin a b) (fst a) /\ vle (hull_of Qmin a b) (fst b).
Proof.
  intros A1 A2 B1 B2. unfold hull_of. destruct (@zipw_min_l (fst a) (fst b)) as [P1 P2]; [lia|].
  assert (L1 : length (zipw Qmin (fst a) (fst b)) = d) by (rewrite zipw_length; lia).
  destruct (@zipw_min_l (zipw Qmin (fst a) (fst b)) (snd a)) as [Q1 _]; [lia|].
  assert (L2 : length (zipw Qmin (zipw Qmin (fst a) (fst b)) (snd a)) = d) by (rewrite zipw_length; lia).
  destruct (@zipw_min_l (zipw Qmin (zipw Qmin (fst a) (fst b)) (snd a)) (snd b)) as [R1 _]; [lia|].
  split; eapply vle_trans; try exact R1; eapply vle_trans; eauto.
Qed.
Lemma hull_max d a b : length (fst a) = d -> length (snd a) = d -> length (fst b) = d -> length (snd b) = d ->
  vle (snd a) (hull_of Qmax a b) /\ vle (snd b) (hull_of Qmax a b).
Proof.
  intros A1 A2 B1 B2. unfold hull_of.
  assert (L1 : length (zipw Qmax (fst a) (fst b)) = d) by (rewrite zipw_length; lia).
  destruct (@zipw_max_l (zipw Qmax (fst a) (fst b)) (snd a)) as [_ Q2]; [lia|].
  assert (L2 : length (zipw Qmax (zipw Qmax (fst a) (fst b)) (snd a)) = d) by (rewrite zipw_length; lia).
  destruct (@zipw_max_l (zipw Qmax (zipw Qmax (fst a) (fst b)) (snd a)) (snd b)) as [R1 R2]; [lia|].
  split; [eapply vle_trans; eauto|exact R2].
Qed.

Section Proofs.
  Variables d e : nat.
  Variable f : vec -> vec -> vec.
  Variable dec : vec -> vec -> vec -> vec -> Q -> option vec.
  Variables w what : vec.
  Variable dt : Q.

  (** The decomposition of an ordered pair bounds the dynamics. *)
  Definition bounding : Prop := forall x xhat, length x = d -> vle x xhat ->
    exists lo hi, dec x w xhat what dt = Some lo /\ dec xhat what x w dt = Some hi /\ length lo = d /\ length hi = d /\
      forall z v, in_box x xhat z -> in_box w what v -> vle lo (f z v) /\ vle (f z v) hi.
  Hypothesis Hb : bounding.
  Hypothesis Hw : vle w what.

  (** Times of the rows. *)
  Definition stamp (k : nat) : Q := match k with 0 => 0%Q | S j => py_round 10 (py_round 10 (inject_Z (Z.of_nat j) * dt) + dt) end.

  Lemma trace_spec n : forall i x xhat, length x = d -> vle x xhat ->
    exists tr, mm_trace dec w what dt n i (stamp i) x xhat = Some tr /\ length tr = S n /\
      nth_error tr 0 = Some (stamp i, (x, xhat)) /\
      (forall k t a b, nth_error tr k = Some (t, (a, b)) -> t = stamp (i + k) /\ length a = d /\ length b = d) /\
      forall ws z k t a b, (forall j, in_box w what (ws j)) -> in_box x xhat z -> nth_error tr k = Some (t, (a, b)) -> in_box a b (trajectory f ws z k).
  Proof.
    induction n as [|n IH]; intros i x xhat Lx Hle.
    - exists [(stamp i, (x, xhat))]. split; [reflexivity|]. split; [reflexivity|]. split; [reflexivity|]. split.
      + intros [|k] t a b E; cbn in E; [injection E as <- <- <-|destruct k; discriminate]. rewrite Nat.add_0_r. split; [reflexivity|]. split; [exact Lx|]. apply vle_len in Hle. congruence.
      + intros ws z [|k] t a b Hws Hz E; cbn in E; [injection E as <- <- <-; exact Hz|destruct k; discriminate].
    - destruct (Hb Lx Hle) as (lo & hi & E1 & E2 & L1 & L2 & HB). cbn [mm_trace]. unfold advance. rewrite E1, E2. cbn [obind]. rewrite L1, L2, Lx, Nat.eqb_refl. cbn [andb obind fst snd].
      assert (Hle' : vle lo hi).
      { destruct (HB x w) as [A B]; [apply in_box_vle; split; [apply vle_refl|exact Hle]|apply in_box_vle; split; [apply vle_refl|exact Hw]|]. eapply vle_trans; eauto. }
      destruct (IH (S i) lo hi L1 Hle') as (tr & Et & Lt & T0 & T1 & T2). change (py_round 10 (py_round 10 (inject_Z (Z.of_nat i) * dt) + dt)) with (stamp (S i)). rewrite Et. cbn [obind].
      eexists. split; [reflexivity|]. split; [cbn; lia|]. split; [reflexivity|]. split.
      + intros [|k] t a b E; cbn in E.
        * injection E as <- <- <-. rewrite Nat.add_0_r. split; [reflexivity|]. split; [exact Lx|]. apply vle_len in Hle. congruence.
        * destruct (T1 k t a b E) as (A & B). split; [rewrite A; f_equal; lia|exact B].
      + intros ws z [|k] t a b Hws Hz E; cbn in E; [injection E as <- <- <-; exact Hz|].
        assert (Hz' : in_box lo hi (f z (ws 0))) by (apply in_box_vle, HB; auto).
        specialize (T2 (fun j => ws (S j)) (f z (ws 0)) k t a b (fun j => Hws (S j)) Hz' E).
        replace (trajectory f ws z (S k)) with (trajectory f (fun j => ws (S j)) (f z (ws 0)) k); [exact T2|]. clear.
        induction k as [|k IHk]; [reflexivity|]. cbn [trajectory]. rewrite IHk. reflexivity.
  Qed.

  Lemma rows_spec tr : length (mm_rows tr) = 2 * (length tr - 1) /\
    forall k r0 r1, nth_error tr k = Some r0 -> nth_error tr (S k) = Some r1 ->
      nth_error (mm_rows tr) (2 * k) = Some (fst r0 :: hull_of Qmin (snd r0) (snd r1)) /\ nth_error (mm_rows tr) (2 * k + 1) = Some (fst r1 :: hull_of Qmax (snd r0) (snd r1)).
  Proof.
    induction tr as [|r0 tr [IH1 IH2]]; [split; [reflexivity|]; intros [|k]; discriminate|]. destruct tr as [|r1 tr]; [split; [reflexivity|]; intros [|k] ? ? _ E; [discriminate|destruct k; discriminate]|].
    split; [change (mm_rows (r0 :: r1 :: tr)) with ((fst r0 :: hull_of Qmin (snd r0) (snd r1)) :: (fst r1 :: hull_of Qmax (snd r0) (snd r1)) :: mm_rows (r1 :: tr)); cbn [length]; rewrite IH1; cbn [length]; lia|].
    intros [|k] a b Ea Eb.
    - cbn in Ea, Eb. injection Ea as <-. injection Eb as <-. split; reflexivity.
    - cbn [nth_error] in Ea. change (nth_error (r1 :: tr) (S k) = Some b) in Eb. destruct (IH2 k a b Ea Eb) as [A B].
      replace (2 * S k) with (S (S (2 * k))) by lia. split; [exact A|]. cbn [Nat.add]. exact B.
  Qed.

  Theorem tube_spec n lo hi rest T : length lo = d -> vle lo hi -> n = Z.to_nat (Qceiling (T / dt)) ->
    exists tb, compute_reachtube_mixmono_disc dec w what dt ((lo, hi) :: rest) T = Some tb /\ length tb = 2 * n /\
      (forall k, k < n -> exists a b, nth_error tb (2 * k) = Some (stamp k :: a) /\ nth_error tb (2 * k + 1) = Some (stamp (S k) :: b)) /\
      forall ws z k, (forall j, in_box w what (ws j)) -> in_box lo hi z -> k < n ->
        in_step tb k (trajectory f ws z k) /\ in_step tb k (trajectory f ws z (S k)).
  Proof.
    intros Ll Hle En. unfold compute_reachtube_mixmono_disc. cbn [nth_error obind fst snd]. rewrite (vle_len Hle), Nat.eqb_refl, <- En.
    destruct (@trace_spec n 0 lo hi Ll Hle) as (tr & Et & Lt & T0 & T1 & T2). change 0%Q with (stamp 0). rewrite Et. cbn [obind].
    destruct (rows_spec tr) as [R1 R2]. eexists. split; [reflexivity|]. split; [rewrite R1, Lt; lia|].
    assert (N : forall k, k < n -> exists a b a' b', nth_error tr k = Some (stamp k, (a, b)) /\ nth_error tr (S k) = Some (stamp (S k), (a', b'))).
    { intros k Hk. destruct (nth_error tr k) as [[t [a b]]|] eqn:E0; [|apply nth_error_None in E0; lia]. destruct (nth_error tr (S k)) as [[t' [a' b']]|] eqn:E1; [|apply nth_error_None in E1; lia].
      destruct (T1 _ _ _ _ E0) as (-> & _). destruct (T1 _ _ _ _ E1) as (-> & _). cbn [Nat.add]. exists a, b, a', b'. split; reflexivity. }
    split.
    - intros k Hk. destruct (N k Hk) as (a & b & a' & b' & E0 & E1). destruct (R2 _ _ _ E0 E1) as [A B]. eexists _, _. split; [exact A|exact B].
    - intros ws z k Hws Hz Hk. destruct (N k Hk) as (a & b & a' & b' & E0 & E1). destruct (R2 _ _ _ E0 E1) as [A B]. cbn [fst snd] in A, B.
      destruct (T1 _ _ _ _ E0) as (_ & La & Lb). destruct (T1 _ _ _ _ E1) as (_ & La' & Lb').
      destruct (@hull_min d (a, b) (a', b') La Lb La' Lb') as [M1 M2]. destruct (@hull_max d (a, b) (a', b') La Lb La' Lb') as [X1 X2]. cbn [fst snd] in *.
      pose proof (T2 ws z k _ _ _ Hws Hz E0) as S0. pose proof (T2 ws z (S k) _ _ _ Hws Hz E1) as S1. apply in_box_vle in S0, S1.
      split; eexists _, _, _, _; (split; [exact A|split; [exact B|]]); apply in_box_vle; split.
      + eapply vle_trans; [exact M1|tauto].
      + eapply vle_trans; [|exact X1]. tauto.
      + eapply vle_trans; [exact M2|tauto].
      + eapply vle_trans; [|exact X2]. tauto.
  Qed.
End Proofs.

(** Mixed-monotone decompositions bound the dynamics. *)
Lemma mixed_bounding d e f g w what dt : mixed_monotone d e f g -> length w = e -> vle w what ->
  bounding d f (fun x w y v _ => Some (g x w y v)) w what dt.
Proof.
  intros (HL & HD & HM) Lw Hw x xhat Lx Hle. pose proof (vle_len Hle) as Lh. pose proof (vle_len Hw) as Lwh.
  eexists _, _. split; [reflexivity|]. split; [reflexivity|]. split; [apply HL; congruence|]. split; [apply HL; congruence|].
  intros z v Hz Hv. apply in_box_vle in Hz, Hv. destruct Hz as [Z1 Z2], Hv as [V1 V2]. pose proof (vle_len Z1) as Lz. pose proof (vle_len V1) as Lv.
  assert (D : veq (g z v z v) (f z v)) by (apply HD; congruence). split.
  - eapply vle_trans; [|apply veq_le; exact D]. apply HM; congruence || assumption.
  - eapply vle_trans; [apply veq_le, veq_sym; exact D|]. apply HM; congruence || assumption.
Qed.

(** So do decompositions computed by exact optimisation. *)
Lemma all_le_vle x y : length x = length y -> (all_le x y = true <-> vle x y).
Proof.
  unfold all_le, vle. revert y. induction x as [|a x IH]; intros [|b y] H; cbn in *; try discriminate; [split; [constructor|reflexivity]|].
  rewrite andb_true_iff, Qle_bool_iff, IH by lia. split; [intros [A B]; constructor; assumption|intros A; inversion A; auto].
Qed.

Lemma vle_nth a b : length a = length b -> (forall i, i < length a -> (nth i a 0 <= nth i b 0)%Q) -> vle a b.
Proof.
  unfold vle. revert b. induction a as [|x a IH]; intros [|y b] H N; cbn in *; try discriminate; constructor; [apply (N 0); lia|]. apply IH; [lia|]. intros i Hi. apply (N (S i)). lia.
Qed.
Lemma vle_antisym_box x y z : vle x y -> vle y x -> in_box x y z -> veq x z /\ veq y z.
Proof.
  intros A B H. apply in_box_vle in H. destruct H as [H1 H2]. unfold veq, vle in *. revert y z A B H1 H2. induction x as [|a x IH]; intros y z A B H1 H2; inversion A; subst; inversion H1; subst; inversion B; subst; inversion H2; subst.
  - split; constructor.
  - destruct (IH l' l'0) as [P Q]; try assumption. split; constructor; try assumption; lra.
Qed.

Lemma optimised_bounding d e f find_min find_max w what dt :
  (forall x w, length x = d -> length w = e -> length (f x w) = d) ->
  (forall x x' w w', veq x x' -> veq w w' -> veq (f x w) (f x' w')) ->
  (forall i b v, i < d -> length (fst b) = d -> length (fst v) = e -> vle (fst b) (snd b) -> vle (fst v) (snd v) -> is_min f i b v (find_min i b v dt)) ->
  (forall i b v, i < d -> length (fst b) = d -> length (fst v) = e -> vle (fst b) (snd b) -> vle (fst v) (snd v) -> is_max f i b v (find_max i b v dt)) ->
  length w = e -> vle w what -> bounding d f (optimised find_min find_max) w what dt.
Proof.
  intros HL HE Hmin Hmax Lw Hw x xhat Lx Hle. pose proof (vle_len Hle) as Lh. pose proof (vle_len Hw) as Lwh.
  assert (M : forall i, i < d -> is_min f i (x, xhat) (w, what) (find_min i (x, xhat) (w, what) dt)) by (intros i Hi; apply Hmin; auto).
  assert (X : forall i, i < d -> is_max f i (x, xhat) (w, what) (find_max i (x, xhat) (w, what) dt)) by (intros i Hi; apply Hmax; auto).
  assert (FL : forall z v, in_box x xhat z -> in_box w what v -> length (f z v) = d). { intros z v Hz Hv. apply in_box_length in Hz, Hv. apply HL; lia. }
  assert (N : forall (h : nat -> Q) i, i < d -> nth i (map h (seq 0 d)) 0%Q = h i).
  { intros h i Hi. rewrite nth_indep with (d' := h 0) by (rewrite map_length, seq_length; exact Hi). rewrite map_nth, seq_nth by exact Hi. reflexivity. }
  unfold optimised. rewrite <- Lh, <- Lwh, Lx, Lw, !Nat.eqb_refl. cbn [andb].
  rewrite (proj2 (all_le_vle x xhat Lh) Hle), (proj2 (all_le_vle w what Lwh) Hw). cbn [andb].
  eexists. destruct (all_le xhat x && all_le what w) eqn:E.
  - (* the pair is a point: both are minima *)
    apply andb_prop in E. destruct E as [E1 E2]. apply (proj1 (all_le_vle xhat x (eq_sym Lh))) in E1. apply (proj1 (all_le_vle what w (eq_sym Lwh))) in E2.
    eexists. split; [reflexivity|]. split; [reflexivity|]. rewrite !map_length, !seq_length. split; [reflexivity|]. split; [reflexivity|]. intros z v Hz Hv. pose proof (FL z v Hz Hv) as Lf. split.
    + apply vle_nth; rewrite map_length, seq_length; [auto|]. intros i Hi. rewrite N by exact Hi. apply (proj1 (M i Hi)); assumption.
    + apply vle_nth; [rewrite map_length, seq_length; auto|]. intros i Hi. rewrite Lf in Hi. rewrite N by exact Hi.
      assert (M' : is_min f i (xhat, x) (what, w) (find_min i (xhat, x) (what, w) dt)) by (apply Hmin; cbn [fst snd]; congruence || assumption). destruct M' as (_ & z' & v' & Hz' & Hv' & Eq). cbn [fst snd] in *.
      destruct (@vle_antisym_box x xhat z Hle E1 Hz) as [Q1 _]. destruct (@vle_antisym_box w what v Hw E2 Hv) as [Q2 _]. destruct (@vle_antisym_box xhat x z' E1 Hle Hz') as [_ Q3]. destruct (@vle_antisym_box what w v' E2 Hw Hv') as [_ Q4].
      assert (Ez : veq z z'). { clear - Q1 Q3. unfold veq in *. revert z z' Q1 Q3. induction x as [|a x IH]; intros z z' A B; inversion A; subst; inversion B; subst; constructor; [lra|auto]. }
      assert (Ev : veq v v'). { clear - Q2 Q4. unfold veq in *. revert v v' Q2 Q4. induction w as [|a w IH]; intros z z' A B; inversion A; subst; inversion B; subst; constructor; [lra|auto]. }
      pose proof (HE _ _ _ _ Ez Ev) as EF. unfold veq in EF. rewrite (Forall2_nth_iff _ _ _ 0%Q 0%Q) in EF. destruct EF as [_ EF]. specialize (EF i). rewrite Eq. rewrite Lf in EF. rewrite (EF Hi). lra.
  - eexists. split; [reflexivity|]. split; [reflexivity|].
    rewrite !map_length, !seq_length. split; [reflexivity|]. split; [reflexivity|]. intros z v Hz Hv. pose proof (FL z v Hz Hv) as Lf. split.
    + apply vle_nth; rewrite map_length, seq_length; [auto|]. intros i Hi. rewrite N by exact Hi. apply (proj1 (M i Hi)); assumption.
    + apply vle_nth; [rewrite map_length, seq_length; auto|]. intros i Hi. rewrite Lf in Hi. rewrite N by exact Hi. apply (proj1 (X i Hi)); assumption.
Qed.
