From Coq Require Import Ascii String Reals Qabs Qround.
From Verif Require Import Base BaseFacts PyText Dict ResetProofs StarDiam StarDiamSpec StarDiamProofs FixedPoints FixedPointsSpec FixedPointsProofs FixedPointsMain Spread SpreadSpec SpreadMain.
From Coq Require Import Lqa Lia.
Set Implicit Arguments.
Open Scope nat_scope.

Lemma l1_app a b a' b' : length a = length b -> (l1 (a ++ a') (b ++ b') == l1 a b + l1 a' b')%Q.
Proof. revert b. induction a as [|x a IH]; intros [|y b] L; try discriminate; cbn [app l1]; [lra|]. rewrite IH by (cbn in L; lia). lra. Qed.
Lemma l1_self a : (l1 a a == 0)%Q.
Proof. induction a as [|x a IH]; cbn [l1]; [reflexivity|]. rewrite IH, Qabs_pos by lra. lra. Qed.

Lemma step_l1 times k (Hk : 2 * k + 1 < length times) (dims : list (nat * nat)) : forall trs cs, Forall2 (fun d tr => tube_ok times (fst d) tr) dims trs -> length cs = length trs ->
  (l1 (concat (zipw (fun tr c => tl (nth (2 * k) (FixedPointsMain.rows_of tr) []) ++ c) trs cs)) (concat (zipw (fun tr c => tl (nth (2 * k + 1) (FixedPointsMain.rows_of tr) []) ++ c) trs cs))
   == fold_right Qplus 0 (map (fun tr => match tr with Some rows => l1 (tl (nth (2 * k) rows [])) (tl (nth (2 * k + 1) rows [])) | None => 0 end) trs))%Q.
Proof.
  induction dims as [|d dims IH]; intros trs cs F L; inversion F as [|? tr ? trs' Ht F']; subst; destruct cs as [|c cs]; try (cbn in L; discriminate).
  - reflexivity.
  - cbn [zipw concat map fold_right]. destruct (@tube_rows times (fst d) tr k Ht Hk) as [L1 [L2 _]]. rewrite l1_app by (rewrite !app_length; lia). rewrite l1_app by lia. rewrite l1_self, IH by (auto; cbn in L; lia).
    destruct Ht as [rows [-> _]]. cbn [FixedPointsMain.rows_of]. lra.
Qed.

(** The composed rows of a node start with the box of the first step. *)
Lemma node_first dims times E nd k ks c : dims <> [] -> node_ok dims times nd -> length E = length dims -> 2 * k + 1 < length times ->
  compose None (picks E nd (k :: ks)) = Some (Some c) -> exists lo hi, nth_error c 0 = Some lo /\ nth_error c 1 = Some hi /\ (manhattan lo hi == step_size nd k)%Q.
Proof.
  intros D [_ [_ [_ [Ft Fm]]]] LE B C.
  assert (Ltr : length (ftrace nd) = length dims) by (symmetry; eapply Forall2_len; exact Ft).
  assert (Lms : length (fmode nd) = length dims) by (symmetry; eapply Forall2_len; exact Fm).
  assert (Lcs : length (css E nd) = length (ftrace nd)) by (unfold css; rewrite zipw_len; congruence).
  destruct (@compose_spec (2 * length (k :: ks)) (picks E nd (k :: ks))) as [c' [C' [Lc H]]].
  - cbn; lia.
  - unfold picks. apply zipw_nil_iff; [congruence|]. intros Z. rewrite Z in Ltr. destruct dims; [congruence|discriminate].
  - unfold picks. clear. generalize (css E nd). induction (ftrace nd) as [|tr trs IH]; intros [|c l]; cbn [zipw]; constructor; auto. apply pick_length.
  - rewrite C in C'. injection C' as <-. exists (nth 0 c []), (nth 1 c []). split; [apply nth_error_nth'; cbn in Lc; lia|]. split; [apply nth_error_nth'; cbn in Lc; lia|].
    rewrite manhattan_l1, !H by (cbn; lia). unfold step_size. rewrite <- (@step_l1 times k B dims (ftrace nd) (css E nd) Ft Lcs).
    assert (X : forall i r, (r = 2 * k /\ i = 0) \/ (r = 2 * k + 1 /\ i = 1) -> map (fun r => nth i r []) (picks E nd (k :: ks)) = zipw (fun tr c => tl (nth r (FixedPointsMain.rows_of tr) []) ++ c) (ftrace nd) (css E nd)).
    { intros i r Hir. unfold picks. clear - Hir. generalize (css E nd). induction (ftrace nd) as [|tr trs IH]; intros [|c0 l]; cbn [zipw map]; try reflexivity. f_equal; [|apply IH].
      destruct Hir as [[-> ->]|[-> ->]]; [exact (@pick_lo (FixedPointsMain.rows_of tr) c0 (k :: ks) 0 ltac:(cbn; lia))|exact (@pick_hi (FixedPointsMain.rows_of tr) c0 (k :: ks) 0 ltac:(cbn; lia))]. }
    rewrite (X 0 (2 * k)), (X 1 (2 * k + 1)) by tauto. reflexivity.
Qed.

Lemma lies_inside times a b k : (exists m, length times = 2 * S m) -> lies_in times a b k <-> In k (filter (inside times a b) (seq 0 (length times / 2))).
Proof.
  intros [m L]. rewrite filter_In, in_seq, L, half. unfold lies_in, inside. rewrite L, andb_true_iff, !Qle_bool_iff. split; [intros (A & B & D); repeat split; auto; lia|intros ([_ A] & B & D); repeat split; auto; lia].
Qed.
Lemma first_seq (p : nat -> bool) n : forall s k ks, filter p (seq s n) = k :: ks -> forall k', In k' (filter p (seq s n)) -> k <= k'.
Proof.
  induction n as [|n IH]; intros s k ks E k' Hk; cbn [seq filter] in *; [discriminate|]. destruct (p s).
  - injection E as <- _. destruct Hk as [<-|Hk]; [lia|]. apply filter_In in Hk. destruct Hk as [Hk _]. apply in_seq in Hk. lia.
  - exact (IH _ _ _ E _ Hk).
Qed.
Lemma first_steps times a b : (exists m, length times = 2 * S m) -> match filter (inside times a b) (seq 0 (length times / 2)) with
  | [] => forall k, ~ lies_in times a b k
  | k :: ks => first_in times a b k
  end.
Proof.
  intros L. destruct (filter _ _) as [|k ks] eqn:E.
  - intros k H. apply (@lies_inside _ a b _ L) in H. rewrite E in H. destruct H.
  - split; [apply (@lies_inside _ a b _ L); rewrite E; left; reflexivity|]. intros k' H. apply (@lies_inside _ a b _ L) in H. exact (first_seq _ _ _ E _ H).
Qed.
Lemma first_unique times a b k k' : first_in times a b k -> first_in times a b k' -> k = k'.
Proof. intros [H1 H2] [H3 H4]. specialize (H2 _ H3). specialize (H4 _ H1). lia. Qed.

Lemma node_diams out (P : Q -> Prop) : (forall rows, In (Some rows) out -> exists lo hi, nth_error rows 0 = Some lo /\ nth_error rows 1 = Some hi) ->
  exists ds, node_diameters out = Some ds /\ forall d, In d ds <-> exists rows lo hi, In (Some rows) out /\ nth_error rows 0 = Some lo /\ nth_error rows 1 = Some hi /\ d = manhattan lo hi.
Proof.
  induction out as [|[rows|] out IH]; intros H; cbn [node_diameters].
  - exists []. split; [reflexivity|]. intros d. split; [intros []|intros (? & ? & ? & [] & _)].
  - destruct (H rows (or_introl eq_refl)) as (lo & hi & E1 & E2). rewrite E1, E2. cbn [obind]. destruct IH as [ds [-> M]]; [intros r Hr; apply H; right; exact Hr|]. cbn [obind].
    eexists. split; [reflexivity|]. intros d. cbn [In]. rewrite M. split.
    + intros [<-|(r & a & b & Hr & K)]; [exists rows, lo, hi; auto|exists r, a, b; auto].
    + intros (r & a & b & [[= <-]|Hr] & Ea & Eb & ->); [left; congruence|right; exists r, a, b; auto].
  - destruct IH as [ds [-> M]]; [intros r Hr; apply H; right; exact Hr|]. exists ds. split; [reflexivity|]. intros d. rewrite M. split.
    + intros (r & a & b & Hr & K). exists r, a, b. cbn. auto.
    + intros (r & a & b & [Hr|Hr] & K); [discriminate|]. exists r, a, b. auto.
Qed.

Lemma rect_window dims times t a b dt : tree_ok dims times t ->
  exists ds, rect_step t dt a b = Some ds /\ window_diameter times t (a - dt * (5 # 100)) (b + dt * (5 # 100)) ds.
Proof.
  intros [D [Hl H]]. unfold rect_step. set (lo := (a - dt * (5 # 100))%Q). set (hi := (b + dt * (5 # 100))%Q).
  destruct (enums0_ok dims) as [L0 F0]. assert (Mall : forall n, In n (fnodes t) -> modes_ok dims (fmode n)) by (intros n Hn; apply (H n Hn)).
  destruct (finals_spec (fnodes t) Mall L0 F0) as [LE _]. fold (final_enums dims t) in LE.
  assert (FR : exists first rest, fnodes t = first :: rest) by (destruct (fnodes t); [destruct Hl|eauto]). destruct FR as [first [rest FR]].
  assert (EN : map (fun _ => new_enum) (ftrace first) = enums0 dims).
  { assert (Hf : In first (fnodes t)) by (rewrite FR; left; reflexivity). destruct (H _ Hf) as [_ [_ [_ [Ft _]]]]. clear -Ft. unfold enums0. induction Ft; cbn; congruence. }
  destruct (@reach_nodes_ok (Some (lo, hi)) 0%Q dims times (fnodes t) (enums0 dims) D H L0 F0) as [out [R [P _]]].
  { intros nd Hn K. destruct (@node_union dims (times nd) (final_enums dims t) nd (steps (Some (lo, hi)) 0%Q (times nd))) as [c [C _]]; [exact D|apply H, Hn|exact LE|exact K| |exists c; exact C].
    intros k Hk. eapply steps_bound; [apply (H nd Hn)|exact Hk]. }
  fold (final_enums dims t) in P.
  assert (RA : reach_at_fix t (Some (lo, hi)) = Some out) by (unfold reach_at_fix; rewrite FR at 1; cbn [hd_error obind]; rewrite EN; exact R).
  rewrite RA. cbn [obind].
  assert (N : forall rows, In (Some rows) out -> exists nd k a b, In nd (fnodes t) /\ first_in (times nd) lo hi k /\ nth_error rows 0 = Some a /\ nth_error rows 1 = Some b /\ (manhattan a b == step_size nd k)%Q).
  { intros rows Hr. apply P in Hr. destruct Hr as (nd & Hn & K & C). assert (Ln := proj1 (H nd Hn)). cbn [steps] in K, C. assert (F := @first_steps (times nd) lo hi Ln). destruct (filter _ _) as [|k ks] eqn:E; [congruence|].
    destruct (@node_first dims (times nd) (final_enums dims t) nd k ks rows D (H nd Hn) LE (proj1 (proj1 F)) C) as (x & y & E1 & E2 & S). exists nd, k, x, y. auto. }
  assert (N' : forall nd k, In nd (fnodes t) -> first_in (times nd) lo hi k -> exists rows a b, In (Some rows) out /\ nth_error rows 0 = Some a /\ nth_error rows 1 = Some b /\ (manhattan a b == step_size nd k)%Q).
  { intros nd k Hn Fk. assert (Ln := proj1 (H nd Hn)). assert (F := @first_steps (times nd) lo hi Ln).
    destruct (@node_union dims (times nd) (final_enums dims t) nd (steps (Some (lo, hi)) 0%Q (times nd))) as [c [C _]]; [exact D|apply H, Hn|exact LE| | |].
    - cbn [steps]. intros K. rewrite K in F. exact (F k (proj1 Fk)).
    - intros k' Hk. eapply steps_bound; [exact Ln|exact Hk].
    - assert (Hc : In (Some c) out). { apply P. exists nd. split; [exact Hn|]. split; [|exact C]. cbn [steps]. intros K. rewrite K in F. exact (F k (proj1 Fk)). }
      exists c. cbn [steps] in C. destruct (filter _ _) as [|k' ks] eqn:E; [destruct (F k (proj1 Fk))|]. assert (k' = k) as -> by exact (first_unique F Fk).
      destruct (@node_first dims (times nd) (final_enums dims t) nd k ks c D (H nd Hn) LE (proj1 (proj1 F)) C) as (x & y & E1 & E2 & S). exists x, y. auto. }
  destruct (@node_diams out (fun _ => True)) as [ds [-> M]]; [intros rows Hr; destruct (N rows Hr) as (_ & _ & x & y & _ & _ & E1 & E2 & _); eauto|]. cbn [obind].
  destruct ds as [|x rest']; (eexists; split; [reflexivity|]).
  - left. split; [reflexivity|]. intros nd k Hn Hk. assert (F := @first_steps (times nd) lo hi (proj1 (H nd Hn))). destruct (filter _ _) as [|k' ks]; [exact (F k Hk)|].
    destruct (N' nd k' Hn F) as (rows & u & v & Hr & E1 & E2 & _). apply (proj2 (M (manhattan u v))). exists rows, u, v. auto.
  - right. destruct (max_of_spec rest' x) as [U V]. exists (max_of x rest'). split; [reflexivity|]. split.
    + apply M in V. destruct V as (rows & u & v & Hr & E1 & E2 & E3). destruct (N rows Hr) as (nd & k & u' & v' & Hn & Fk & E1' & E2' & S). exists nd, k. split; [exact Hn|]. split; [exact Fk|]. rewrite E3. congruence.
    + intros nd k Hn Fk. destruct (N' nd k Hn Fk) as (rows & u & v & Hr & E1 & E2 & S). rewrite <- S. apply U, M. exists rows, u, v. auto.
Qed.

Lemma linspace_nth H dt i : let n := Z.to_nat (Qfloor (H / dt)) in i <= n -> 0 < n -> nth i (linspace H dt) 0%Q = (inject_Z (Z.of_nat i) * H / inject_Z (Z.of_nat n))%Q.
Proof.
  intros n Hi Hn. unfold linspace. fold n. rewrite StarDiamProofs.nth_map_seq by lia. destruct (n =? 0) eqn:E; [apply Nat.eqb_eq in E; lia|reflexivity].
Qed.
