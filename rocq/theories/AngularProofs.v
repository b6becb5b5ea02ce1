(** Proofs about bounds of angles: wrapping, differences, unions. *)
From Coq Require Import Sorting.Sorted Reals Lra Lia Psatz List Permutation.
From Verif Require Import Base Angle AngleSpec AngleProofs Angular AngularSpec.
Import ListNotations.
Set Implicit Arguments.
Open Scope R_scope.

Lemma same_turn x y k : x = y + 2 * PI * IZR k -> same_angle x y.
Proof. exists k. assumption. Qed.
Ltac turn k := apply (@same_turn _ _ k); simpl; ring.

(** * Wrapping *)
Lemma rmod_same x : same_angle (rmod x (2 * PI)) x.
Proof. exists (- Int_part (x / (2 * PI)))%Z. unfold rmod. rewrite opp_IZR. ring. Qed.
Lemma wrap_angle_spec x : - PI < wrap_angle x <= PI /\ same_angle (wrap_angle x) x.
Proof.
  pose proof PI_RGT_0. unfold wrap_angle. destruct (Req_EM_T (rmod x (2 * PI)) PI) as [E|N].
  - split; [lra|]. rewrite <- E. apply rmod_same.
  - change (rmod (x + PI) (2 * PI) - PI) with (wrap_to_pi x). pose proof (wrap_range x). split; [|apply wrap_same]. split; [|lra].
    destruct (Req_dec (wrap_to_pi x) (- PI)) as [E|]; [|lra]. exfalso. apply N.
    assert (Hs : same_angle (rmod x (2 * PI)) PI).
    { eapply same_trans; [apply rmod_same|]. eapply same_trans; [apply same_sym, wrap_same|]. rewrite E. turn (-1)%Z. }
    apply same_close; [exact Hs|]. pose proof (rmod_range x _ two_pi_pos). apply Rabs_def1; lra.
Qed.
Lemma wrap_angle_unique x y : - PI < y <= PI -> same_angle y x -> wrap_angle x = y.
Proof.
  intros Hy Hs. destruct (wrap_angle_spec x) as [R S]. apply same_close; [exact (same_trans _ _ _ S (same_sym _ _ Hs))|]. apply Rabs_def1; lra.
Qed.

(** * Differences *)
Lemma diff_interval t1 t2 r1 r2 d : t1 <= t2 -> r1 <= r2 -> t1 - r2 <= d <= t2 - r1 -> exists a c, t1 <= a <= t2 /\ r1 <= c <= r2 /\ d = a - c.
Proof.
  intros H1 H2 H3. destruct (Rle_dec t1 (d + r1)).
  - exists (d + r1), r1. repeat split; lra.
  - exists t1, (t1 - d). repeat split; lra.
Qed.

(** The angles in [[lo, hi]], as one or two intervals. *)
Lemma bound_of_interval lo hi : 0 <= lo <= 2 * PI -> lo <= hi < lo + 2 * PI ->
  let b := if Rle_dec lo PI then
      if Rle_dec PI hi then Many [(lo, PI); (- PI, hi - 2 * PI)]
      else let a := wrap_angle lo in let b := wrap_angle hi in if Rlt_dec b a then Many [(a, PI); (- PI, b)] else One a b
    else let a := wrap_angle lo in let b := wrap_angle hi in if Rlt_dec b a then Many [(a, PI); (- PI, b)] else One a b in
  forall x, in_bound b x <-> exists y, same_angle x y /\ lo <= y <= hi.
Proof.
  intros Hl Hh b x. pose proof PI_RGT_0 as P. unfold b. clear b. destruct (Rle_dec lo PI) as [Lp|Lp].
  - destruct (Rle_dec PI hi) as [Ph|Ph].
    + split.
      * intros (y & i & Hs & [<-|[<-|[]]] & Hi); cbn [fst snd] in Hi; [exists y; split; [exact Hs|lra]|].
        exists (y + 2 * PI). split; [eapply same_trans; [exact Hs|turn (-1)%Z]|lra].
      * intros (y & Hs & Hy). destruct (Rle_dec y PI).
        -- exists y, (lo, PI). split; [exact Hs|]. split; [left; reflexivity|]. cbn. lra.
        -- exists (y - 2 * PI), (- PI, hi - 2 * PI). split; [eapply same_trans; [exact Hs|turn 1%Z]|]. split; [right; left; reflexivity|]. cbn. lra.
    + cbv zeta. rewrite (@wrap_angle_unique lo lo) by (try apply same_refl; lra). rewrite (@wrap_angle_unique hi hi) by (try apply same_refl; lra).
      destruct (Rlt_dec hi lo); [lra|]. cbn [in_bound]. split.
      * intros (y & Hs & [[_ Hy]|[Hy _]]); [exists y; auto|lra].
      * intros (y & Hs & Hy). exists y. split; [exact Hs|]. left. split; [lra|exact Hy].
  - cbv zeta. rewrite (@wrap_angle_unique lo (lo - 2 * PI)) by (try turn (-1)%Z; lra).
    destruct (Rle_dec hi (3 * PI)) as [H3|H3].
    + rewrite (@wrap_angle_unique hi (hi - 2 * PI)) by (try turn (-1)%Z; lra). destruct (Rlt_dec (hi - 2 * PI) (lo - 2 * PI)); [lra|]. cbn [in_bound]. split.
      * intros (y & Hs & [[_ Hy]|[Hy _]]); [|lra]. exists (y + 2 * PI). split; [eapply same_trans; [exact Hs|turn (-1)%Z]|lra].
      * intros (y & Hs & Hy). exists (y - 2 * PI). split; [eapply same_trans; [exact Hs|turn 1%Z]|]. left. lra.
    + rewrite (@wrap_angle_unique hi (hi - 4 * PI)) by (try turn (-2)%Z; lra). destruct (Rlt_dec (hi - 4 * PI) (lo - 2 * PI)); [|lra]. cbn [in_bound]. split.
      * intros (y & i & Hs & [<-|[<-|[]]] & Hi); cbn [fst snd] in Hi.
        -- exists (y + 2 * PI). split; [eapply same_trans; [exact Hs|turn (-1)%Z]|lra].
        -- exists (y + 4 * PI). split; [eapply same_trans; [exact Hs|turn (-2)%Z]|lra].
      * intros (y & Hs & Hy). destruct (Rle_dec y (3 * PI)).
        -- exists (y - 2 * PI), (lo - 2 * PI, PI). split; [eapply same_trans; [exact Hs|turn 1%Z]|]. split; [left; reflexivity|]. cbn. lra.
        -- exists (y - 4 * PI), (- PI, hi - 4 * PI). split; [eapply same_trans; [exact Hs|turn 2%Z]|]. split; [right; left; reflexivity|]. cbn. lra.
Qed.

Lemma on_full x : on_arc (- PI) PI x.
Proof.
  pose proof PI_RGT_0. exists (wrap_to_pi x). split; [apply same_sym, wrap_same|]. left. pose proof (wrap_range x). lra.
Qed.

Lemma lift_once fuel d : - (2 * PI) <= d -> (1 <= fuel)%nat -> lift fuel d 0 = Some (if Rlt_dec d 0 then (d + 2 * PI, 1%nat) else (d, 0%nat)).
Proof.
  intros H F. destruct fuel as [|fuel]; [lia|]. cbn [lift]. destruct (Rlt_dec d 0); [|reflexivity].
  destruct fuel; cbn [lift]; destruct (Rlt_dec (d + 2 * PI) 0); try lra; reflexivity.
Qed.

Definition is_full (i : R * R) : Prop := i = (- PI, PI).
Lemma diff_spec fuel theta ref : proper theta -> proper ref -> (1 <= fuel)%nat ->
  (snd theta - fst theta + (snd ref - fst ref) < 2 * PI \/ is_full theta \/ is_full ref) ->
  exists b, diff_bounds fuel theta ref = Some b /\
    forall x, in_bound b x <-> exists a c, fst theta <= a <= snd theta /\ fst ref <= c <= snd ref /\ same_angle x (a - c).
Proof.
  destruct theta as [t1 t2], ref as [r1 r2]. unfold proper. cbn [fst snd]. intros Pt Pr Hf Hw. pose proof PI_RGT_0 as P. unfold diff_bounds. cbn [fst snd].
  assert (Full : (forall x, exists a c, t1 <= a <= t2 /\ r1 <= c <= r2 /\ same_angle x (a - c)) ->
    exists b, Some (One (- PI) PI) = Some b /\ forall x, in_bound b x <-> exists a c, t1 <= a <= t2 /\ r1 <= c <= r2 /\ same_angle x (a - c)).
  { intros H. exists (One (- PI) PI). split; [reflexivity|]. intros x. split; [intros _; apply H|intros _; apply on_full]. }
  assert (Ft : t1 = - PI -> t2 = PI -> forall x, exists a c, t1 <= a <= t2 /\ r1 <= c <= r2 /\ same_angle x (a - c)).
  { intros -> -> x. exists (wrap_to_pi (x + r1)), r1. pose proof (wrap_range (x + r1)). split; [lra|]. split; [lra|]. apply same_sym.
    replace x with (x + r1 - r1) at 2 by ring. apply (same_plus _ _ (- r1)), wrap_same. }
  assert (Fr : r1 = - PI -> r2 = PI -> forall x, exists a c, t1 <= a <= t2 /\ r1 <= c <= r2 /\ same_angle x (a - c)).
  { intros -> -> x. exists t1, (wrap_to_pi (t1 - x)). pose proof (wrap_range (t1 - x)). split; [lra|]. split; [lra|].
    destruct (wrap_same (t1 - x)) as [k Ek]. exists k. rewrite Ek. ring. }
  destruct (Req_EM_T t1 (- PI)) as [A1|A1]; [destruct (Req_EM_T t2 PI) as [A2|A2]|]; [cbn [orb]; apply Full; auto| |];
    (destruct (Req_EM_T r1 (- PI)) as [B1|B1]; [destruct (Req_EM_T r2 PI) as [B2|B2]|]; [cbn [orb]; apply Full; auto| |]); cbn [orb];
    (assert (W : t2 - t1 + (r2 - r1) < 2 * PI) by (unfold is_full in Hw; destruct Hw as [W|[W|W]]; [exact W|injection W; congruence|injection W; congruence]));
    clear Hw Full Ft Fr;
    (rewrite lift_once by (try exact Hf; lra)); cbn [obind fst snd];
    (match goal with |- context [if Rlt_dec ?d 0 then (_, 1%nat) else _] => destruct (Rlt_dec d 0) as [N|N] end); cbn [fst snd INR];
    (match goal with |- exists b, (if Rle_dec ?lo PI then if Rle_dec PI ?hi then _ else _ else _) = Some b /\ _ => 
       assert (G := @bound_of_interval lo hi ltac:(lra) ltac:(lra)); cbv zeta in G;
       destruct (Rle_dec lo PI); [destruct (Rle_dec PI hi)|]; (eexists; split; [reflexivity|]; intros x; etransitivity; [apply G|]; clear G) end);
    (split; [intros (y & Hs & Hy)|intros (a & c & Ha & Hc & Hs)]).
  all: try match goal with N : ?d < 0, Hs : same_angle ?x ?y |- exists a c, _ => 
        destruct (@diff_interval t1 t2 r1 r2 (y - 2 * PI)) as (a & c & Ha & Hc & E); [lra|lra|lra|];
        exists a, c; split; [exact Ha|]; split; [exact Hc|]; rewrite <- E; eapply same_trans; [exact Hs|turn 1%Z] end.
  all: try match goal with N : ~ ?d < 0, Hs : same_angle ?x ?y |- exists a c, _ => 
        destruct (@diff_interval t1 t2 r1 r2 y) as (a & c & Ha & Hc & E); [lra|lra|lra|];
        exists a, c; split; [exact Ha|]; split; [exact Hc|]; rewrite <- E; exact Hs end.
  all: try match goal with N : ?d < 0 |- exists y, _ => exists (a - c + 2 * PI); split; [eapply same_trans; [exact Hs|turn (-1)%Z]|lra] end.
  all: exists (a - c); split; [exact Hs|lra].
Qed.

(** * Unions *)
Lemma normalized_spec bs x : angle_in (normalized bs) x <-> exists b, In b bs /\ in_bound b x.
Proof.
  pose proof PI_RGT_0. unfold normalized. split.
  - intros (y & i & Hs & Hi & Hy). apply in_flat_map in Hi. destruct Hi as (b & Hb & Hi). exists b. split; [exact Hb|]. destruct b as [lo hi|l].
    + destruct (Rlt_dec hi lo) as [L|L].
      * exists y. split; [exact Hs|]. right. split; [exact L|]. destruct Hi as [<-|[<-|[]]]; cbn in Hy; lra.
      * destruct Hi as [<-|[]]. cbn in Hy. exists y. split; [exact Hs|]. left. lra.
    + exists y, i. auto.
  - intros (b & Hb & Hi). destruct b as [lo hi|l].
    + destruct Hi as (y & Hs & Hy).
      assert (E : exists i, In i (if Rlt_dec hi lo then [(lo, PI); (- PI, hi)] else [(lo, hi)]) /\ fst i <= y <= snd i).
      { destruct (Rlt_dec hi lo) as [L|L].
        - destruct Hy as [?|[_ [Hy|Hy]]]; [lra| |]; [exists (lo, PI)|exists (- PI, hi)]; cbn; auto.
        - destruct Hy as [[_ Hy]|[? _]]; [|lra]. exists (lo, hi). cbn; auto. }
      destruct E as (i & Ei & Ey). exists y, i. split; [exact Hs|]. split; [|exact Ey]. apply in_flat_map. exists (One lo hi). auto.
    + destruct Hi as (y & i & Hs & Hi & Hy). exists y, i. split; [exact Hs|]. split; [|exact Hy]. apply in_flat_map. exists (Many l). auto.
Qed.

(** The numbers in one of the intervals. *)
Definition covered (l : list (R * R)) (y : R) : Prop := exists i, In i l /\ fst i <= y <= snd i.
Lemma angle_covered l m : (forall y, covered l y <-> covered m y) -> forall x, angle_in l x <-> angle_in m x.
Proof.
  intros H x. split; intros (y & i & Hs & Hi & Hy); [destruct (proj1 (H y)) as (j & Hj & Hy')|destruct (proj2 (H y)) as (j & Hj & Hy')]; try (exists i; auto; fail); exists y, j; auto.
Qed.

Lemma le_iff a b : le a b = true <-> a <= b.
Proof. unfold le. destruct (Rle_dec a b); split; auto; try discriminate; try contradiction. Qed.
Lemma lt_iff a b : lt a b = true <-> a < b.
Proof. unfold lt. destruct (Rlt_dec a b); split; auto; try discriminate; try contradiction. Qed.
Lemma le_false a b : le a b = false <-> b < a.
Proof. unfold le. destruct (Rle_dec a b); split; intros; try discriminate; try lra; auto. Qed.
Lemma overlap_iff i j : overlap i j = true <-> fst i <= snd i /\ fst j <= snd j /\ fst i <= snd j /\ fst j <= snd i.
Proof.
  unfold overlap. destruct (le (fst i) (snd i)) eqn:A, (le (fst j) (snd j)) eqn:B; cbn [andb];
    rewrite ?le_iff, ?le_false in *; try (split; [discriminate|lra]).
  rewrite Bool.andb_true_iff, !le_iff. tauto.
Qed.

Definition good (i : R * R) : Prop := fst i <= snd i.
Lemma merge_step_covered m cur : Forall good m -> good cur -> Forall good (merge_step m cur) /\ forall y, covered (merge_step m cur) y <-> covered (cur :: m) y.
Proof.
  intros Hm Hc. destruct m as [|l m]; cbn [merge_step]; [split; [auto|tauto]|]. inversion Hm as [|? ? Gl Gm]; subst. destruct (overlap l cur) eqn:Eo.
  - apply overlap_iff in Eo. unfold good in *. split; [constructor; [cbn; unfold good; cbn; pose proof (Rmin_l (fst l) (fst cur)); pose proof (Rmax_l (snd l) (snd cur)); lra|exact Gm]|].
    intros y. split.
    + intros (i & [<-|Hi] & Hy); [|exists i; cbn; auto]. cbn [fst snd] in Hy.
      destruct (Rle_dec (fst cur) y); [destruct (Rle_dec y (snd cur)); [exists cur; cbn; auto|]|].
      * exists l. split; [cbn; auto|]. unfold Rmin, Rmax in Hy. destruct (Rle_dec (fst l) (fst cur)), (Rle_dec (snd l) (snd cur)); lra.
      * exists l. split; [cbn; auto|]. unfold Rmin, Rmax in Hy. destruct (Rle_dec (fst l) (fst cur)), (Rle_dec (snd l) (snd cur)); lra.
    + intros (i & [<-|[<-|Hi]] & Hy); [| |exists i; cbn; auto];
        (eexists; split; [left; reflexivity|]; cbn [fst snd]; unfold Rmin, Rmax; destruct (Rle_dec (fst l) (fst cur)), (Rle_dec (snd l) (snd cur)); lra).
  - split; [constructor; assumption|tauto].
Qed.
Lemma covered_app l m y : covered (l ++ m) y <-> covered l y \/ covered m y.
Proof.
  unfold covered. split.
  - intros (i & Hi & Hy). apply in_app_or in Hi. destruct Hi; eauto.
  - intros [(i & Hi & Hy)|(i & Hi & Hy)]; exists i; split; auto; apply in_or_app; auto.
Qed.
Lemma covered_cons i l y : covered (i :: l) y <-> fst i <= y <= snd i \/ covered l y.
Proof. split; [intros (j & [<-|Hj] & Hy); [auto|right; exists j; auto]|intros [Hy|(j & Hj & Hy)]; [exists i; cbn; auto|exists j; cbn; auto]]. Qed.
Lemma merge_fold : forall l m, Forall good l -> Forall good m ->
  Forall good (fold_left merge_step l m) /\ forall y, covered (fold_left merge_step l m) y <-> covered l y \/ covered m y.
Proof.
  induction l as [|c l IH]; intros m Hl Hm; cbn [fold_left]; [split; [exact Hm|]; intros y; split; [auto|intros [(i & [] & _)|H]; exact H]|].
  inversion Hl as [|? ? Gc Gl]; subst. destruct (merge_step_covered Hm Gc) as [G C]. destruct (IH _ Gl G) as [G' C']. split; [exact G'|].
  intros y. rewrite C', C, !covered_cons. tauto.
Qed.
Lemma covered_same l m y : (forall i, In i l <-> In i m) -> covered l y <-> covered m y.
Proof. intros H. split; intros (i & Hi & Hy); exists i; split; auto; apply H; exact Hi. Qed.
Lemma merged_covered l : Forall good l -> Forall good (merged l) /\ forall y, covered (merged l) y <-> covered l y.
Proof.
  intros H. destruct (merge_fold H (Forall_nil good)) as [G C]. unfold merged. split; [apply Forall_rev, G|]. intros y.
  rewrite (@covered_same (rev (fold_left merge_step l [])) (fold_left merge_step l [])) by (intros i; symmetry; apply in_rev). rewrite C.
  split; [intros [A|(i & [] & _)]; exact A|auto].
Qed.

Lemma insert_in i : forall l j, In j (insert i l) <-> j = i \/ In j l.
Proof. induction l as [|k l IH]; intros j; cbn; [intuition|]. destruct (key_le i k); cbn; [intuition|]. rewrite IH. intuition. Qed.
Lemma sorted_in l j : In j (sorted l) <-> In j l.
Proof. unfold sorted. induction l as [|i l IH]; cbn; [tauto|]. rewrite insert_in, IH. intuition. Qed.
(** Nonnegative starts come first, and the starts of both parts ascend. *)
Definition starts_le (i j : R * R) : Prop := fst i <= fst j.
Definition front (l : list (R * R)) : Prop := exists ps ns, l = ps ++ ns /\ Forall (fun i => 0 <= fst i) ps /\ Forall (fun i => fst i < 0) ns /\
  StronglySorted starts_le ps /\ StronglySorted starts_le ns.
Lemma key_le_iff i j : key_le i j = true <-> (0 <= fst i /\ fst j < 0) \/ (0 <= fst i /\ 0 <= fst j /\ fst i <= fst j) \/ (fst i < 0 /\ fst j < 0 /\ fst i <= fst j).
Proof.
  unfold key_le. destruct (Rle_dec 0 (fst i)), (Rle_dec 0 (fst j)), (Rle_dec (fst i) (fst j)); split; intros; try reflexivity; try discriminate; lra.
Qed.
Lemma key_le_false i j : key_le i j = false -> key_le j i = true.
Proof. rewrite <- Bool.not_true_iff_false, !key_le_iff. lra. Qed.
Lemma insert_sorted i l : StronglySorted (fun i j => key_le i j = true) l -> StronglySorted (fun i j => key_le i j = true) (insert i l).
Proof.
  induction 1 as [|j l Sl IH Hj]; cbn [insert]; [repeat constructor|]. destruct (key_le i j) eqn:E.
  - constructor; [constructor; assumption|]. constructor; [exact E|]. rewrite Forall_forall in *. intros k Hk. specialize (Hj k Hk). rewrite key_le_iff in *. lra.
  - constructor; [exact IH|]. apply Forall_forall. intros k Hk. apply insert_in in Hk. destruct Hk as [->|Hk]; [apply key_le_false, E|]. rewrite Forall_forall in Hj. apply Hj, Hk.
Qed.
Lemma sorted_front l : front (sorted l).
Proof.
  assert (S : StronglySorted (fun i j => key_le i j = true) (sorted l)).
  { unfold sorted. induction l as [|i l IH]; cbn; [constructor|apply insert_sorted, IH]. }
  induction S as [|i m Sm IH Hi]; [exists [], []; repeat split; constructor|]. destruct IH as (ps & ns & -> & Hp & Hn & Sp & Sn). rewrite Forall_forall in Hi.
  destruct (Rle_dec 0 (fst i)) as [A|A].
  - exists (i :: ps), ns. split; [reflexivity|]. split; [constructor; assumption|]. split; [exact Hn|]. split; [|exact Sn]. constructor; [exact Sp|].
    apply Forall_forall. intros j Hj. assert (B := proj1 (Forall_forall _ _) Hp j Hj). specialize (Hi j (in_or_app _ _ _ (or_introl Hj))). apply key_le_iff in Hi. unfold starts_le. cbn beta in B. lra.
  - assert (ps = []) as ->.
    { destruct ps as [|p ps]; [reflexivity|]. exfalso. specialize (Hi p (or_introl eq_refl)). apply key_le_iff in Hi. inversion Hp; subst. lra. }
    exists [], (i :: ns). split; [reflexivity|]. split; [constructor|]. split; [constructor; [lra|exact Hn]|]. split; [constructor|]. constructor; [exact Sn|].
    apply Forall_forall. intros j Hj. assert (B := proj1 (Forall_forall _ _) Hn j Hj). specialize (Hi j Hj). apply key_le_iff in Hi. unfold starts_le. cbn beta in B. lra.
Qed.


Lemma merge_keeps (Q : R * R -> Prop) : (forall i j, Q i -> Q j -> overlap i j = true -> Q (Rmin (fst i) (fst j), Rmax (snd i) (snd j))) ->
  forall l m, Forall Q l -> Forall Q m -> Forall Q (fold_left merge_step l m).
Proof.
  intros HQ. induction l as [|c l IH]; intros m Hl Hm; cbn [fold_left]; [exact Hm|]. inversion Hl as [|? ? Qc Ql]; subst. apply IH; [exact Ql|].
  destruct m as [|x m]; cbn [merge_step]; [auto|]. inversion Hm; subst. destruct (overlap x c) eqn:Eo; constructor; auto.
Qed.
Lemma positive_merge i j : positive i -> positive j -> positive (Rmin (fst i) (fst j), Rmax (snd i) (snd j)).
Proof. unfold positive. cbn. unfold Rmin, Rmax. destruct (Rle_dec (fst i) (fst j)), (Rle_dec (snd i) (snd j)); lra. Qed.
Lemma negative_merge i j : negative i -> negative j -> negative (Rmin (fst i) (fst j), Rmax (snd i) (snd j)).
Proof. unfold negative. cbn. unfold Rmin, Rmax. destruct (Rle_dec (fst i) (fst j)), (Rle_dec (snd i) (snd j)); lra. Qed.

Lemma filter_all {A} (p : A -> bool) l : Forall (fun x => p x = true) l -> filter p l = l.
Proof. induction 1 as [|x l Hx _ IH]; cbn; [reflexivity|]. rewrite Hx, IH. reflexivity. Qed.
Lemma filter_none {A} (p : A -> bool) l : Forall (fun x => p x = false) l -> filter p l = [].
Proof. induction 1 as [|x l Hx _ IH]; cbn; [reflexivity|]. rewrite Hx. exact IH. Qed.

Lemma last_index_gen {A} (p : A -> bool) l : forall n r, Forall (fun x => p x = true) l ->
  snd (fold_left (fun st x => (S (fst st), if p x then Some (fst st) else snd st)) l (n, r)) = match l with [] => r | _ => Some (n + length l - 1)%nat end.
Proof.
  induction l as [|x l IH]; intros n r H; cbn [fold_left snd]; [reflexivity|]. inversion H as [|? ? Hx Hl]; subst. cbn [fst snd]. rewrite Hx, IH by exact Hl.
  destruct l as [|y l]; cbn [length]; f_equal; lia.
Qed.
Lemma last_index_none {A} (p : A -> bool) l : forall n, Forall (fun x => p x = false) l ->
  snd (fold_left (fun st x => (S (fst st), if p x then Some (fst st) else snd st)) l (n, None)) = None.
Proof. induction l as [|x l IH]; intros n H; cbn [fold_left snd]; [reflexivity|]. inversion H as [|? ? Hx Hl]; subst. cbn [fst snd]. rewrite Hx. apply IH. exact Hl. Qed.

Lemma combine_unfold bs : combine_bounds bs = match sorted (normalized bs) with [] => [] | _ => format (merge_wrapped (merged (sorted (normalized bs)))) end.
Proof.
  unfold combine_bounds. destruct (sorted (normalized bs)) as [|i l]; [reflexivity|]. f_equal. set (m := merged (i :: l)).
  destruct (1 <? length m)%nat eqn:E; [reflexivity|]. unfold merge_wrapped. apply Nat.ltb_ge in E. destruct (length m <? 2)%nat eqn:E2; [reflexivity|apply Nat.ltb_ge in E2; lia].
Qed.

Lemma format_positive m : Forall positive m -> format (merge_wrapped m) = m.
Proof.
  intros H. assert (E : merge_wrapped m = m).
  { unfold merge_wrapped. destruct (length m <? 2)%nat eqn:El; [reflexivity|]. apply Nat.ltb_ge in El.
    unfold last_index. rewrite last_index_gen by (eapply Forall_impl; [|exact H]; intros i Hi; apply le_iff; unfold positive in Hi; lra).
    destruct m as [|x m]; [reflexivity|]. replace (0 + length (x :: m) - 1)%nat with (length (x :: m) - 1)%nat by lia. rewrite Nat.eqb_refl. reflexivity. }
  rewrite E. unfold format. rewrite filter_all by (eapply Forall_impl; [|exact H]; intros i Hi; apply le_iff; unfold positive in Hi; lra).
  rewrite (@filter_none _ (fun i => le (snd i) 0)) by (eapply Forall_impl; [|exact H]; intros i Hi; apply le_false; unfold positive in Hi; lra).
  destruct m; reflexivity.
Qed.
Lemma format_negative m : Forall negative m -> format (merge_wrapped m) = m.
Proof.
  intros H. assert (E : merge_wrapped m = m).
  { unfold merge_wrapped. destruct (length m <? 2)%nat eqn:El; [reflexivity|].
    unfold last_index. rewrite last_index_none by (eapply Forall_impl; [|exact H]; intros i Hi; apply le_false; unfold negative in Hi; lra). reflexivity. }
  rewrite E. unfold format. rewrite (@filter_none _ (fun i => le 0 (fst i))) by (eapply Forall_impl; [|exact H]; intros i Hi; apply le_false; unfold negative in Hi; lra).
  rewrite filter_all by (eapply Forall_impl; [|exact H]; intros i Hi; apply le_iff; unfold negative in Hi; lra).
  destruct m; reflexivity.
Qed.

(** Merging intervals without gaps. *)
Definition gapless (l : list (R * R)) : Prop := forall x y z, covered l x -> covered l z -> x <= y <= z -> covered l y.
Lemma fold_gapless (Q : R * R -> Prop) rest : (forall i j, Q i -> Q j -> Q (Rmin (fst i) (fst j), Rmax (snd i) (snd j))) ->
  forall l c, Forall Q l -> Q c -> Forall good (c :: l) -> StronglySorted starts_le (c :: l) -> gapless (c :: l) ->
  exists c', fold_left merge_step l (c :: rest) = c' :: rest /\ Q c'.
Proof.
  intros HQ. induction l as [|x l IH]; intros c Hl Hc Hg Hs Hu; cbn [fold_left]; [exists c; auto|].
  inversion Hl as [|? ? Qx Ql]; subst. inversion Hg as [|? ? Gc G2]; subst. inversion G2 as [|? ? Gx Gl]; subst.
  inversion Hs as [|? ? S2 Fc]; subst. inversion S2 as [|? ? Sl Fx]; subst. inversion Fc as [|? ? Cx Fl]; subst. unfold good, starts_le in *. cbn [merge_step].
  destruct (overlap c x) eqn:Eo.
  - assert (Em : Rmin (fst c) (fst x) = fst c) by (apply Rmin_left, Cx). assert (Ov := proj1 (overlap_iff _ _) Eo).
    apply IH; [exact Ql|apply HQ; assumption| | |].
    + constructor; [|exact Gl]. cbn. rewrite Em. pose proof (Rmax_l (snd c) (snd x)). lra.
    + constructor; [exact Sl|]. cbn. rewrite Em. exact Fl.
    + assert (Eq : forall y, covered ((Rmin (fst c) (fst x), Rmax (snd c) (snd x)) :: l) y <-> covered (c :: x :: l) y).
      { intros y. rewrite !covered_cons. cbn [fst snd]. rewrite Em. unfold Rmax. destruct (Rle_dec (snd c) (snd x)); split; intros [?|?]; auto; try (destruct (Rle_dec (fst x) y); lra); destruct H; auto; left; lra. }
      intros a y b. rewrite !Eq. apply Hu.
  - exfalso. assert (No : snd c < fst x).
    { destruct (Rlt_dec (snd c) (fst x)); [assumption|]. assert (overlap c x = true) by (apply overlap_iff; lra). congruence. }
    assert (C : covered (c :: x :: l) ((snd c + fst x) / 2)).
    { apply (Hu (snd c) _ (fst x)); [exists c; split; [left; reflexivity|lra]|exists x; split; [right; left; reflexivity|lra]|lra]. }
    rewrite !covered_cons in C. destruct C as [C|[C|(j & Hj & C)]]; [lra|lra|]. rewrite Forall_forall in Fx. specialize (Fx j Hj). lra.
Qed.

Lemma covered_filter (Q : R * R -> Prop) l ps ns y : (forall i, In i l <-> In i (ps ++ ns)) -> Forall Q ps -> Forall (fun i => ~ Q i) ns ->
  covered ps y <-> exists i, In i l /\ Q i /\ fst i <= y <= snd i.
Proof.
  intros H Hp Hn. rewrite Forall_forall in *. split.
  - intros (i & Hi & Hy). exists i. split; [apply H, in_or_app; auto|]. auto.
  - intros (i & Hi & Q0 & Hy). apply H, in_app_or in Hi. destruct Hi as [Hi|Hi]; [exists i; auto|]. exfalso. exact (Hn i Hi Q0).
Qed.

Definition covered_by (Q : R * R -> Prop) (l : list (R * R)) (y : R) : Prop := exists i, In i l /\ Q i /\ fst i <= y <= snd i.

Lemma combine_spec bs :
  (forall i, In i (normalized bs) -> positive i) \/ (forall i, In i (normalized bs) -> negative i) \/
  ((forall i, In i (normalized bs) -> positive i \/ negative i) /\ no_gap (covered_by positive (normalized bs)) /\ no_gap (covered_by negative (normalized bs))) ->
  forall x, angle_in (combine_bounds bs) x <-> exists b, In b bs /\ in_bound b x.
Proof.
  intros H x. rewrite <- normalized_spec. revert x. apply angle_covered. intros y. rewrite combine_unfold.
  assert (S : forall y, covered (sorted (normalized bs)) y <-> covered (normalized bs) y) by (intros z; apply covered_same, sorted_in).
  rewrite <- S. clear S. destruct (sorted_front (normalized bs)) as (ps & ns & Es & Hp & Hn & Sp & Sn).
  assert (Sin := sorted_in (normalized bs)). destruct (sorted (normalized bs)) as [|i0 l0] eqn:El; [tauto|]. rewrite <- El in *. clear El i0 l0.
  set (l := sorted (normalized bs)) in *. clearbody l.
  assert (Gl : Forall good l).
  { apply Forall_forall. intros i Hi. apply Sin in Hi. unfold good. destruct H as [H|[H|[H _]]]; specialize (H i Hi); unfold positive, negative in H; lra. }
  destruct (merged_covered Gl) as [_ Cm]. destruct H as [H|[H|(H & Cp & Cn)]].
  - rewrite format_positive; [apply Cm|]. unfold merged. apply Forall_rev. apply merge_keeps; [intros; apply positive_merge; assumption| |constructor].
    apply Forall_forall. intros i Hi. apply H, Sin, Hi.
  - rewrite format_negative; [apply Cm|]. unfold merged. apply Forall_rev. apply merge_keeps; [intros; apply negative_merge; assumption| |constructor].
    apply Forall_forall. intros i Hi. apply H, Sin, Hi.
  - rewrite <- Cm. clear Cm.
    assert (Pp : Forall positive ps).
    { apply Forall_forall; intros i Hi; (destruct (H i) as [A|A]; [apply Sin; rewrite Es; apply in_or_app; left; exact Hi|auto|]).
      exfalso; apply (proj1 (Forall_forall _ _) Hp) in Hi; unfold negative in A; lra. }
    assert (Pn : Forall negative ns).
    { apply Forall_forall; intros i Hi; (destruct (H i) as [A|A]; [apply Sin; rewrite Es; apply in_or_app; right; exact Hi| |auto]).
      exfalso; apply (proj1 (Forall_forall _ _) Hn) in Hi; unfold positive in A; lra. }
    assert (Up : gapless ps).
    { assert (E : forall y, covered ps y <-> covered_by positive (normalized bs) y).
      { intros z. apply (@covered_filter positive (normalized bs) ps ns); [intros i; rewrite <- Es; symmetry; apply Sin|exact Pp|].
        eapply Forall_impl; [|exact Pn]. unfold positive, negative. intros i A B. lra. }
      intros a b c. rewrite !E. apply Cp. }
    assert (Un : gapless ns).
    { assert (E : forall y, covered ns y <-> covered_by negative (normalized bs) y).
      { intros z. apply (@covered_filter negative (normalized bs) ns ps); [intros i; rewrite in_app_iff, or_comm, <- in_app_iff, <- Es; symmetry; apply Sin|exact Pn|].
        eapply Forall_impl; [|exact Pp]. unfold positive, negative. intros i A B. lra. }
      intros a b c. rewrite !E. apply Cn. }
    assert (Gp : Forall good ps) by (eapply Forall_impl; [|exact Pp]; unfold positive, good; intros; lra).
    assert (Gn : Forall good ns) by (eapply Forall_impl; [|exact Pn]; unfold negative, good; intros; lra).
    assert (Fm : format (merge_wrapped (merged l)) = merged l); [|rewrite Fm; tauto].
    unfold merged. rewrite Es, fold_left_app. destruct ps as [|p ps].
    + apply format_negative. cbn [fold_left]. apply Forall_rev. apply merge_keeps; [intros; apply negative_merge; assumption|exact Pn|constructor].
    + inversion Pp as [|? ? Pp1 Pp2]; subst. cbn [fold_left merge_step].
      destruct (@fold_gapless positive [] positive_merge ps p Pp2 Pp1 Gp Sp Up) as (P & EP & QP). rewrite EP. destruct ns as [|n ns].
      * cbn [fold_left rev app]. apply format_positive. auto.
      * inversion Pn as [|? ? Pn1 Pn2]; subst. inversion Gn as [|? ? Gn1 Gn2]; subst. inversion Sn as [|? ? Sn2 Sn1]; subst. cbn [fold_left merge_step]. destruct (overlap P n) eqn:Eo.
        -- apply overlap_iff in Eo.
           assert (Em : (Rmin (fst P) (fst n), Rmax (snd P) (snd n)) = (fst n, snd P)) by (unfold positive, negative in *; f_equal; [apply Rmin_right|apply Rmax_left]; lra). rewrite Em.
           destruct (@fold_gapless (fun i => fst i < 0 /\ fst i <= snd i /\ 0 < snd i \/ negative i) []) with (l := ns) (c := (fst n, snd P)) as (X & EX & QX).
           { intros i j. unfold negative. cbn. unfold Rmin, Rmax. destruct (Rle_dec (fst i) (fst j)), (Rle_dec (snd i) (snd j)); lra. }
           { eapply Forall_impl; [|exact Pn2]. intros i Hi. right. exact Hi. }
           { left. unfold positive, negative in *. cbn. lra. }
           { constructor; [unfold good, positive, negative in *; cbn; lra|exact Gn2]. }
           { constructor; [exact Sn2|]. exact Sn1. }
           { intros a b c Ca Cc Hb. rewrite covered_cons in *. cbn [fst snd] in *. destruct (Rle_dec (fst n) b); [destruct (Rle_dec b (snd P)); [auto|]|].
             - exfalso. destruct Cc as [Cc|(j & Hj & Cc)]; [lra|]. rewrite Forall_forall in Pn2. specialize (Pn2 j Hj). unfold positive, negative in *. lra.
             - exfalso. destruct Ca as [Ca|(j & Hj & Ca)]; [lra|]. rewrite Forall_forall in Sn1. specialize (Sn1 j Hj). unfold starts_le in Sn1. lra. }
           rewrite EX. cbn [rev app]. unfold merge_wrapped. cbn [length Nat.ltb Nat.leb]. unfold format. cbn [filter].
           assert (A : le 0 (fst X) = false) by (apply le_false; unfold negative in QX; lra). rewrite A. destruct (le (snd X) 0); reflexivity.
        -- destruct (@fold_gapless negative [P] negative_merge ns n Pn2 Pn1 Gn Sn Un) as (N & EN & QN). rewrite EN. cbn [rev app].
           assert (A1 : le 0 (fst P) = true) by (apply le_iff; unfold positive in QP; lra). assert (A2 : le 0 (fst N) = false) by (apply le_false; unfold negative in QN; lra).
           assert (A3 : le (snd P) 0 = false) by (apply le_false; unfold positive in QP; lra). assert (A4 : le (snd N) 0 = true) by (apply le_iff; unfold negative in QN; lra).
           unfold merge_wrapped, last_index. cbn [length Nat.ltb Nat.leb fold_left fst snd]. rewrite A1, A2. cbn [Nat.eqb Nat.sub last]. rewrite A4.
           unfold format. cbn [filter]. rewrite A1, A2, A3, A4. reflexivity.
Qed.

Lemma piece_normalized bs i : In i (normalized bs) <-> exists b, In b bs /\ piece b i.
Proof.
  unfold normalized. rewrite in_flat_map. split; intros (b & Hb & H); exists b; (split; [exact Hb|]); destruct b as [lo hi|l]; cbn [piece] in *; auto.
  - destruct (Rlt_dec hi lo); cbn in H; [right|left]; [|destruct H as [<-|[]]; split; [lra|reflexivity]]. split; [assumption|]. destruct H as [<-|[<-|[]]]; auto.
  - destruct (Rlt_dec hi lo); destruct H as [[A ->]|[A [->| ->]]]; try lra; cbn; auto.
Qed.
