(** C123: confidence regions of estimated parameters. *)
From Coq Require Import Reals List Lra Lia.
From Verif Require Import Base BaseFacts Confidence.
Import ListNotations.
Set Implicit Arguments.
Open Scope R_scope.

(** [x] lies in the box. *)
Inductive within : rvec -> rvec -> rvec -> Prop :=
| within_nil : within [] [] []
| within_cons l h x lo hi xs : l <= x <= h -> within lo hi xs -> within (l :: lo) (h :: hi) (x :: xs).
(** Sum of products, as a recursion. *)
Fixpoint ip (a b : rvec) : R := match a, b with x :: a', y :: b' => x * y + ip a' b' | _, _ => 0 end.
Definition rsub (a b : rvec) : rvec := zipw Rminus a b.
Definition radd (a b : rvec) : rvec := zipw Rplus a b.
(** [v^T G v]. *)
Definition quad (G : list rvec) (v : rvec) : R := ip v (map (fun row => ip row v) G).
(** Convex combinations of points. *)
Definition hull (n : nat) (vs : list rvec) (x : rvec) : Prop :=
  length x = n /\ exists ws, length ws = length vs /\ Forall (Rle 0) ws /\ fold_right Rplus 0 ws = 1 /\ forall j, (j < n)%nat -> nth j x 0 = ip ws (map (fun v => nth j v 0) vs).

Lemma rdot_ip a b : rdot a b = ip a b.
Proof. unfold rdot. revert b. induction a as [|x a IH]; intros [|y b]; cbn; try reflexivity. rewrite <- IH. reflexivity. Qed.
Lemma ip_sub a b p : length a = length b -> length a = length p -> ip (rsub a b) p = ip a p - ip b p.
Proof. revert b p. induction a as [|x a IH]; intros [|y b] [|z p] L M; cbn in *; try lia; [lra|]. unfold rsub in IH. rewrite IH by lia. ring. Qed.
Lemma ip_pos a : 0 <= ip a a.
Proof. induction a; cbn; [lra|nra]. Qed.
Lemma ip_comm a b : ip a b = ip b a.
Proof. revert b. induction a as [|x a IH]; intros [|y b]; cbn; try reflexivity. rewrite IH. ring. Qed.
(** Cauchy-Schwarz. *)
Lemma schwarz a b : length a = length b -> ip a b * ip a b <= ip a a * ip b b.
Proof.
  intros L. assert (P : forall t, 0 <= ip a a - 2 * t * ip a b + t * t * ip b b).
  { intros t. revert b L. induction a as [|x a IH]; intros [|y b] L; cbn in *; try lia; [lra|]. specialize (IH b ltac:(lia)). pose proof (Rle_0_sqr (x - t * y)) as S. unfold Rsqr in S. nra. }
  pose proof (ip_pos a) as Pa. pose proof (ip_pos b) as Pb. destruct (Req_dec (ip b b) 0) as [E|N].
  - assert (Z : ip a b = 0). { destruct (Req_dec (ip a b) 0) as [Z|Z]; [exact Z|]. exfalso. specialize (P ((ip a a + 1) / (2 * ip a b))). rewrite E in P. assert (2 * ((ip a a + 1) / (2 * ip a b)) * ip a b = ip a a + 1) by (field; exact Z). lra. }
    rewrite Z, E. lra.
  - specialize (P (ip a b / ip b b)). assert (H : ip a a - 2 * (ip a b / ip b b) * ip a b + ip a b / ip b b * (ip a b / ip b b) * ip b b = ip a a - ip a b * ip a b / ip b b) by (field; exact N). rewrite H in P.
    assert (Hp : 0 < ip b b) by lra. apply (Rmult_le_reg_r (/ ip b b)); [apply Rinv_0_lt_compat; exact Hp|]. assert (E2 : ip a a * ip b b * / ip b b = ip a a) by (field; exact N). rewrite E2. unfold Rdiv in P. lra.
Qed.

Lemma clip_in a l h : l <= h -> l <= clip a l h <= h.
Proof. intros H. unfold clip, Rmin, Rmax. repeat destruct (Rle_dec _ _); lra. Qed.
Lemma clip_id a l h : l <= a <= h -> clip a l h = a.
Proof. intros H. unfold clip, Rmin, Rmax. repeat destruct (Rle_dec _ _); lra. Qed.
Lemma clip_all_ok x lo hi : length x = length lo -> Forall2 Rle lo hi -> exists r, clip_all x lo hi = Some r /\ within lo hi r /\ (within lo hi x -> r = x).
Proof.
  intros L F. revert x L. induction F as [|l h lo hi H F IH]; intros [|a x] L; cbn in *; try lia; [exists []; repeat split; constructor|].
  destruct (IH x ltac:(lia)) as (r & E & W & K). rewrite E. cbn [obind]. eexists. split; [reflexivity|]. split; [constructor; [apply clip_in; exact H|exact W]|]. intros I. inversion I; subst. rewrite (clip_id H3), K by assumption. reflexivity.
Qed.
Lemma within_len lo hi x : within lo hi x -> length x = length lo /\ length hi = length lo.
Proof. induction 1; cbn; lia. Qed.
Lemma signs_len n : length (signs n) = (2 ^ n)%nat.
Proof. induction n; [reflexivity|]. cbn [signs Nat.pow]. rewrite app_length, !map_length. unfold rvec in *. rewrite IHn. lia. Qed.
Lemma moved_le lo hi x : Forall2 Rle lo hi -> length x = length lo -> Forall2 Rle (zipw Rminus lo x) (zipw Rminus hi x).
Proof. intros F. revert x. induction F; intros [|a x'] L; cbn in *; try lia; constructor; [lra|apply IHF; lia]. Qed.
Lemma zipw_len (a b : rvec) f : length a = length b -> length (zipw f a b : rvec) = length a.
Proof. revert b. induction a as [|x a IH]; intros [|y b] L; cbn in *; try lia. rewrite IH; lia. Qed.
Lemma moved_within lo hi x d : length x = length lo -> length hi = length lo -> within (zipw Rminus lo x) (zipw Rminus hi x) d <-> length d = length lo /\ within lo hi (radd x d).
Proof.
  unfold radd. revert hi x d. induction lo as [|l lo IH]; intros [|h hi] [|a x] d L M; cbn in *; try lia.
  - split; [intros H; inversion H; split; [reflexivity|constructor]|]. intros [H _]. destruct d; [constructor|discriminate].
  - specialize (IH hi x). split.
    + intros H. inversion H; subst. destruct (proj1 (IH xs ltac:(lia) ltac:(lia)) H6) as [E W]. split; [cbn; lia|]. constructor; [lra|exact W].
    + intros [E W]. destruct d as [|b d]; [discriminate|]. inversion W; subst. constructor; [lra|]. apply IH; [lia|lia|]. split; [cbn in E; lia|assumption].
Qed.

(** C123.  The bound that is used for the parameters is the least one for all within the box. *)
Theorem C123_bound lo hi : lo <> [] -> Forall2 Rle lo hi -> exists b, abs_max (lo ++ hi) = Some b /\
  (forall x j, within lo hi x -> Rabs (nth j x 0) <= b) /\ exists x j, within lo hi x /\ (j < length lo)%nat /\ Rabs (nth j x 0) = b.
Proof.
  intros Ne F. assert (G : forall l : rvec, l <> [] -> exists b, abs_max l = Some b /\ (forall y, In y l -> Rabs y <= b) /\ exists y, In y l /\ Rabs y = b).
  { intros [|a l] N; [contradiction|]. cbn [abs_max]. eexists. split; [reflexivity|]. clear. induction l as [|c l IH]; cbn [map fold_right].
    - split; [intros y [<-|[]]; lra|exists a; split; [left; reflexivity|reflexivity]].
    - destruct IH as [H (y & I & E)]. split.
      + intros z [<-|[<-|Iz]]; [apply (Rle_trans _ _ _ (H a (or_introl eq_refl)) (Rmax_r _ _))|apply Rmax_l|apply (Rle_trans _ _ _ (H z (or_intror Iz)) (Rmax_r _ _))].
      + destruct (Rle_dec (Rabs c) (fold_right Rmax (Rabs a) (map Rabs l))) as [L|L]; [exists y; rewrite Rmax_right by lra; split; [destruct I as [<-|I]; [left; reflexivity|right; right; exact I]|exact E]|exists c; rewrite Rmax_left by lra; split; [right; left; reflexivity|reflexivity]]. }
  destruct (G (lo ++ hi)) as (b & E & Up & (y & I & Ey)); [destruct lo; [contradiction|discriminate]|]. exists b. split; [exact E|]. split.
  - assert (Ub : forall lo' hi' x, within lo' hi' x -> (forall y, In y (lo' ++ hi') -> Rabs y <= b) -> 0 <= b -> forall j, Rabs (nth j x 0) <= b).
    { intros lo' hi' x W. induction W as [|l h a lo' hi' xs Hx W IH]; intros U Pb j; [destruct j; cbn; rewrite Rabs_R0; exact Pb|]. destruct j as [|j]; cbn [nth].
      - pose proof (U l (or_introl eq_refl)) as U1. pose proof (U h ltac:(apply in_or_app; right; left; reflexivity)) as U2. revert U1 U2. unfold Rabs. repeat destruct (Rcase_abs _); lra.
      - apply IH; [|exact Pb]. intros z Iz. apply U. apply in_app_or in Iz. apply in_or_app. destruct Iz; [left; right|right; right]; assumption. }
    intros x j W. apply (Ub lo hi x W Up). rewrite <- Ey. apply Rabs_pos.
  - apply in_app_or in I. assert (Wl : within lo hi lo /\ within lo hi hi). { clear - F. induction F as [|l h lo hi H F [A B]]; [split; constructor|]. split; constructor; auto; lra. }
    assert (Lh : length hi = length lo) by (symmetry; clear - F; induction F; cbn; congruence). destruct I as [I|I]; destruct (In_nth _ _ 0 I) as (j & Hj & Nj); [exists lo, j|exists hi, j]; (split; [tauto|split; [lia|rewrite Nj; exact Ey]]).
Qed.
Print Assumptions C123_bound.

Section Conf.
  Variable ellipsoid : dataset -> R -> option (rvec * list rvec * R).
  Variable radius_matrix : list rvec -> R -> option (list rvec).
  Variable least_eig : list rvec -> option R.

  (** C123.  The estimate and all corners of the polytope are within the given box; an estimate or a corner that was there already is not changed. *)
  Theorem C123_polytope data lo hi b theta gramian beta rm : lo <> [] -> Forall2 Rle lo hi -> abs_max (lo ++ hi) = Some b ->
    ellipsoid data b = Some (theta, gramian, beta) -> length theta = length lo -> radius_matrix gramian beta = Some rm -> length rm = length lo ->
    exists theta' ds, confidence_polytope ellipsoid radius_matrix data (Some (lo, hi)) = Some (theta', ds, gramian, beta) /\ within lo hi theta' /\ (within lo hi theta -> theta' = theta) /\
      length ds = (2 ^ length lo)%nat /\
      forall k h, nth_error (signs (length lo)) k = Some h -> exists d, nth_error ds k = Some d /\ within lo hi (radd theta' d) /\
        let d0 := map (fun row => ip row h) rm in (within lo hi (radd theta' d0) -> d = d0).
  Proof.
    intros Ne F Ab El Lt Rm Lr. unfold confidence_polytope. cbn [obind]. rewrite Ab. cbn [obind]. rewrite El. cbn [obind]. rewrite Rm. cbn [obind].
    destruct (@clip_all_ok theta lo hi Lt F) as (th & -> & W & K). cbn [obind]. destruct (within_len W) as [L1 L2]. rewrite Lt.
    set (G := fun d => clip_all d (zipw Rminus lo th) (zipw Rminus hi th)).
    assert (HG : forall d, length d = length lo -> exists r, G d = Some r /\ within lo hi (radd th r) /\ (within lo hi (radd th d) -> r = d)).
    { intros d Ld. destruct (@clip_all_ok d (zipw Rminus lo th) (zipw Rminus hi th)) as (r & E & Wr & Kr); [rewrite zipw_len; lia|apply moved_le; [exact F|lia]|]. exists r. split; [exact E|].
      split; [apply (proj1 (@moved_within lo hi th r L1 L2) Wr)|]. intros Hd. apply Kr. apply moved_within; auto. }
    assert (Hl : forall h, length (map (fun row => rdot row h) rm) = length lo) by (intros h; rewrite map_length; exact Lr).
    assert (M : forall hs, exists ds, mapM G (map (fun h => map (fun row => rdot row h) rm) hs) = Some ds /\ length ds = length hs /\ forall k h, nth_error hs k = Some h -> exists d, nth_error ds k = Some d /\ G (map (fun row => rdot row h) rm) = Some d).
    { induction hs as [|h hs IH]; [exists []; split; [reflexivity|split; [reflexivity|intros [|k] h H; discriminate]]|]. cbn [map mapM]. destruct (HG _ (Hl h)) as (r & Er & _). rewrite Er. cbn [obind]. destruct IH as (ds & -> & Ld & Hk). cbn [obind]. exists (r :: ds). split; [reflexivity|]. split; [cbn; lia|].
      intros [|k] h' H'; cbn in *; [injection H' as <-; eauto|auto]. }
    destruct (M (signs (length lo))) as (ds & E & Ld & Hk). fold G. rewrite E. cbn [obind]. exists th, ds. split; [reflexivity|]. split; [exact W|]. split; [exact K|]. split; [rewrite Ld; apply signs_len|].
    intros k h H. destruct (Hk k h H) as (d & Nd & Gd). exists d. split; [exact Nd|]. destruct (HG _ (Hl h)) as (r & Er & Wr & Kr). rewrite Gd in Er. injection Er as <-. split; [exact Wr|].
    cbn. assert (Em : map (fun row => rdot row h) rm = map (fun row => ip row h) rm) by (apply map_ext; intros; apply rdot_ip). rewrite <- Em. exact Kr.
  Qed.

  (** C123.  Every observation that some parameter of the ellipsoid explains with an error below sigma is accepted. *)
  Theorem C123_valid y phi theta gramian beta sigma l truth : length theta = length phi -> length truth = length theta -> least_eig gramian = Some l -> 0 < l -> 0 <= beta ->
    (forall v, length v = length theta -> l * ip v v <= quad gramian v) ->                        (* [l] is a lower bound of the eigenvalues *)
    quad gramian (rsub truth theta) <= beta * beta -> Rabs (y - ip truth phi) < sigma ->
    is_valid_observation least_eig y phi theta gramian beta sigma = Some true.
  Proof.
    clear ellipsoid radius_matrix. intros L1 L2 El Pl Pb Eig Ell Noise. unfold is_valid_observation. rewrite L1, Nat.eqb_refl, El. cbn [obind]. rewrite !rdot_ip. destruct (Rlt_dec _ _) as [H|N]; [reflexivity|]. exfalso. apply N. clear N.
    set (v := rsub truth theta) in *. assert (Lv : length v = length theta) by (unfold v, rsub; rewrite zipw_len; lia).
    assert (D : ip v phi = ip truth phi - ip theta phi) by (apply ip_sub; lia).
    assert (B : Rabs (ip v phi) <= sqrt (ip phi phi / l) * beta).
    { pose proof (@schwarz v phi ltac:(lia)) as S. pose proof (Eig v Lv) as Ev. pose proof (ip_pos phi) as Pp. assert (Pq : 0 <= ip phi phi / l) by (apply Rmult_le_pos; [exact Pp|left; apply Rinv_0_lt_compat; exact Pl]).
      apply Rsqr_incr_0_var; [|apply Rmult_le_pos; [apply sqrt_pos|exact Pb]]. rewrite <- Rsqr_abs. rewrite Rsqr_mult, Rsqr_sqrt by exact Pq. unfold Rsqr.
      assert (Iv : ip v v <= beta * beta / l). { apply (Rmult_le_reg_l l); [exact Pl|]. assert (l * (beta * beta / l) = beta * beta) by (field; lra). lra. }
      apply (Rle_trans _ (ip v v * ip phi phi)); [exact S|]. replace (ip phi phi / l * (beta * beta)) with (beta * beta / l * ip phi phi) by (field; lra). apply Rmult_le_compat_r; [exact Pp|exact Iv]. }
    replace (y - ip theta phi) with ((y - ip truth phi) + ip v phi) by lra. pose proof (Rabs_triang (y - ip truth phi) (ip v phi)). lra.
  Qed.
  (** C123.  An observation whose error from the estimate is too great is rejected. *)
  Theorem C123_invalid y phi theta gramian beta sigma l : length theta = length phi -> least_eig gramian = Some l ->
    (is_valid_observation least_eig y phi theta gramian beta sigma = Some true <-> Rabs (y - ip theta phi) < sqrt (ip phi phi / l) * beta + sigma).
  Proof.
    clear ellipsoid radius_matrix. intros L El. unfold is_valid_observation. rewrite L, Nat.eqb_refl, El. cbn [obind]. rewrite !rdot_ip. destruct (Rlt_dec _ _) as [H|H]; split; intros H'; [exact H|reflexivity|discriminate|contradiction].
  Qed.

  (** C123.  A dataset with one observation is consistent, with a box or without. *)
  Theorem C123_single phi y box : is_consistent_dataset ellipsoid radius_matrix least_eig (Data [phi] [y]) box = Some true.
  Proof. reflexivity. Qed.
  Lemma pop_snoc {A} (l : list A) x : pop (l ++ [x]) = Some (l, x).
  Proof. unfold pop. rewrite rev_app_distr. cbn. rewrite rev_involutive. reflexivity. Qed.
  (** C123.  One with more is consistent exactly if the last observation is valid for the region of those before. *)
  Theorem C123_consistent phis ys phi y box : phis <> [] -> ys <> [] ->
    is_consistent_dataset ellipsoid radius_matrix least_eig (Data (phis ++ [phi]) (ys ++ [y])) box =
      (do p <- confidence_polytope ellipsoid radius_matrix (Data phis ys) box; let '(theta, _, gramian, beta) := p in is_valid_observation least_eig y phi theta gramian beta (1 / 10)).
  Proof. intros N1 N2. unfold is_consistent_dataset. cbn [outputs features]. rewrite !pop_snoc. cbn [obind fst snd]. destruct ys; [contradiction|]. destruct phis; [contradiction|]. reflexivity. Qed.
  (** C123.  Without a box, the default, it raises. *)
  Theorem C123_default_refuted phis ys phi y : phis <> [] -> ys <> [] -> is_consistent_dataset ellipsoid radius_matrix least_eig (Data (phis ++ [phi]) (ys ++ [y])) None = None.
  Proof. intros N1 N2. rewrite C123_consistent by assumption. reflexivity. Qed.
End Conf.
Print Assumptions C123_polytope.
Print Assumptions C123_valid.
Print Assumptions C123_invalid.
Print Assumptions C123_single.
Print Assumptions C123_consistent.
Print Assumptions C123_default_refuted.

(** C123.  The polytope of the clipped corners loses parameters of the region that are within the box: here (1, 1). *)
Theorem C123_clipped_refuted : exists ellipsoid radius_matrix data lo hi theta rm ds gramian beta x,
  ellipsoid data (3 / 2) = Some (theta, gramian, beta) /\ radius_matrix gramian beta = Some rm /\ within lo hi theta /\
  confidence_polytope ellipsoid radius_matrix data (Some (lo, hi)) = Some (theta, ds, gramian, beta) /\
  within lo hi x /\ hull 2 (map (fun h => radd theta (map (fun row => ip row h) rm)) (signs 2)) x /\ ~ hull 2 (map (radd theta) ds) x.
Proof.
  exists (fun _ _ => Some ([0; 0], [[1; 0]; [0; 1]], 1)), (fun _ _ => Some [[1; 1]; [1; -1]]), (Data [] []), [-(3 / 2); -(3 / 2)], [3 / 2; 3 / 2], [0; 0], [[1; 1]; [1; -1]], [[-(3 / 2); 0]; [0; -(3 / 2)]; [0; 3 / 2]; [3 / 2; 0]], [[1; 0]; [0; 1]], 1, [1; 1].
  split; [reflexivity|]. split; [reflexivity|]. split; [repeat constructor; lra|]. split; [|split; [repeat constructor; lra|split]].
  - unfold confidence_polytope. cbn [obind app abs_max length signs map List.app zipw clip_all mapM rdot fold_right].
    assert (Z : clip 0 (- (3 / 2)) (3 / 2) = 0) by (apply clip_id; lra). rewrite !Z. replace (- (3 / 2) - 0) with (- (3 / 2)) by ring. replace (3 / 2 - 0) with (3 / 2) by ring.
    replace (clip (1 * -1 + (1 * -1 + 0)) (- (3 / 2)) (3 / 2)) with (- (3 / 2)) by (unfold clip, Rmin, Rmax; repeat destruct (Rle_dec _ _); lra).
    replace (clip (1 * -1 + (-1 * -1 + 0)) (- (3 / 2)) (3 / 2)) with (0) by (unfold clip, Rmin, Rmax; repeat destruct (Rle_dec _ _); lra).
    replace (clip (1 * -1 + (1 * 1 + 0)) (- (3 / 2)) (3 / 2)) with (0) by (unfold clip, Rmin, Rmax; repeat destruct (Rle_dec _ _); lra).
    replace (clip (1 * -1 + (-1 * 1 + 0)) (- (3 / 2)) (3 / 2)) with (- (3 / 2)) by (unfold clip, Rmin, Rmax; repeat destruct (Rle_dec _ _); lra).
    replace (clip (1 * 1 + (1 * -1 + 0)) (- (3 / 2)) (3 / 2)) with (0) by (unfold clip, Rmin, Rmax; repeat destruct (Rle_dec _ _); lra).
    replace (clip (1 * 1 + (-1 * -1 + 0)) (- (3 / 2)) (3 / 2)) with (3 / 2) by (unfold clip, Rmin, Rmax; repeat destruct (Rle_dec _ _); lra).
    replace (clip (1 * 1 + (1 * 1 + 0)) (- (3 / 2)) (3 / 2)) with (3 / 2) by (unfold clip, Rmin, Rmax; repeat destruct (Rle_dec _ _); lra).
    replace (clip (1 * 1 + (-1 * 1 + 0)) (- (3 / 2)) (3 / 2)) with (0) by (unfold clip, Rmin, Rmax; repeat destruct (Rle_dec _ _); lra).
    reflexivity.
  - split; [reflexivity|]. exists [0; 0; 1 / 2; 1 / 2]. split; [reflexivity|]. split; [repeat constructor; lra|]. split; [cbn; lra|]. intros [|[|j]] Hj; cbn; try lra; lia.
  - intros (_ & ws & Lw & Pw & Sw & H). destruct ws as [|a [|b [|c [|d [|? ?]]]]]; try discriminate. pose proof (H 0%nat ltac:(lia)) as H0. pose proof (H 1%nat ltac:(lia)) as H1. cbn in H0, H1, Sw. repeat match goal with X : Forall _ (_ :: _) |- _ => inversion X; clear X; subst end. lra.
Qed.
Print Assumptions C123_clipped_refuted.

Module Example_confidence.
  Definition ellipsoid (_ : dataset) (_ : R) : option (rvec * list rvec * R) := Some ([0; 2], [[1; 0]; [0; 1]], 1).
  Definition radius_matrix (_ : list rvec) (_ : R) : option (list rvec) := Some [[1; 1]; [1; -1]].
  (** The hypotheses of C123_polytope: the estimate (0, 2) is moved to (0, 1). *)
  Example moved : exists ds, confidence_polytope ellipsoid radius_matrix (Data [[1; 1]] [1]) (Some ([-1; -1], [1; 1])) = Some ([0; 1], ds, [[1; 0]; [0; 1]], 1) /\ length ds = 4%nat.
  Proof.
    assert (F : Forall2 Rle [-1; -1] [1; 1]) by (repeat constructor; lra).
    destruct (@C123_polytope ellipsoid radius_matrix (Data [[1; 1]] [1]) [-1; -1] [1; 1] _ _ _ _ _ ltac:(discriminate) F eq_refl eq_refl eq_refl eq_refl eq_refl) as (theta' & ds & E & W & _ & L & _).
    exists ds. split; [|exact L]. rewrite E. do 4 f_equal. unfold confidence_polytope in E. cbn [obind app abs_max ellipsoid radius_matrix clip_all] in E. destruct (mapM _ _) in E; [|discriminate]. cbn [obind] in E. injection E as <- _.
    unfold clip, Rmin, Rmax. repeat destruct (Rle_dec _ _); repeat f_equal; lra.
  Qed.
  (** The hypotheses of C123_valid. *)
  Example accepted : is_valid_observation (fun _ => Some 1) 1 [1; 1] [0; 0] [[1; 0]; [0; 1]] 1 (1 / 10) = Some true.
  Proof.
    apply (@C123_valid (fun _ => Some 1) 1 [1; 1] [0; 0] [[1; 0]; [0; 1]] 1 (1 / 10) 1 [1; 0]); try reflexivity; try lra.
    - intros [|a [|b [|? ?]]] L; try discriminate. unfold quad. cbn. nra.
    - unfold quad. cbn. lra.
    - cbn. replace (1 - (1 * 1 + (0 * 1 + 0))) with 0 by ring. rewrite Rabs_R0. lra.
  Qed.
  Example rejected : is_valid_observation (fun _ => Some 1) 5 [1; 0] [0; 0] [[1; 0]; [0; 1]] 1 (1 / 10) <> Some true.
  Proof.
    rewrite (@C123_invalid (fun _ => Some 1) 5 [1; 0] [0; 0] [[1; 0]; [0; 1]] 1 (1 / 10) 1 eq_refl eq_refl). cbn. replace ((1 * 1 + (0 * 0 + 0)) / 1) with 1 by field. rewrite sqrt_1. replace (5 - (0 * 1 + (0 * 0 + 0))) with 5 by ring. rewrite Rabs_right by lra. lra.
  Qed.
End Example_confidence.
