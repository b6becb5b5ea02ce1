(** Lemmas about the split sensor analysis. *)
From Coq Require Import QArith.Qminmax Reals Qreals Lra.
From Verif Require Import Base BaseFacts PyText Dict ParseArray ParseArraySpec ParseArrayProofs SplitSensor SplitSensorSpec.
Set Implicit Arguments.
Open Scope nat_scope.

Lemma zipw_length {A B C} (f : A -> B -> C) l : forall m, length l = length m -> length (zipw f l m) = length l.
Proof. induction l as [| a l IH]; intros [| b m] H; try discriminate; [reflexivity |]. cbn in *. rewrite IH by lia. reflexivity. Qed.
Lemma zipw_nth (f : Q -> Q -> Q) l : forall m j, length l = length m -> j < length l -> nth j (zipw f l m) 0%Q = f (nth j l 0%Q) (nth j m 0%Q).
Proof. induction l as [| a l IH]; intros [| b m] [| j] H Hj; cbn in *; try discriminate; try lia; [reflexivity |]. apply IH; lia. Qed.

Definition shaped (m : nat) (r : vec * vec) : Prop := length (fst r) = m /\ length (snd r) = m.
(** [lb, ub] is the hull of the results [rs]. *)
Definition hull (m : nat) (rs : list (vec * vec)) (b : vec * vec) : Prop :=
  shaped m b /\ (forall r j, In r rs -> j < m -> (nth j (fst b) 0 <= nth j (fst r) 0)%Q /\ (nth j (snd r) 0 <= nth j (snd b) 0)%Q)
  /\ (forall j, j < m -> (exists r, In r rs /\ (nth j (fst b) 0 == nth j (fst r) 0)%Q) /\ exists r, In r rs /\ (nth j (snd b) 0 == nth j (snd r) 0)%Q).
Lemma hull_one m r : shaped m r -> hull m [r] r.
Proof.
  intros S. split; [exact S |]. split; [intros r' j [<- | []] _; split; apply Qle_refl |]. intros j _. split; exists r; (split; [left; reflexivity | reflexivity]).
Qed.
Lemma hull_more m rs b r : hull m rs b -> shaped m r -> hull m (rs ++ [r]) (zipw Qmin (fst b) (fst r), zipw Qmax (snd b) (snd r)).
Proof.
  intros [[S1 S2] [H1 H2]] [T1 T2]. cbn [fst snd]. unfold hull, shaped. cbn [fst snd]. split; [rewrite !zipw_length by congruence; auto |]. split.
  - intros r' j Hr Hj. rewrite !zipw_nth by congruence. apply in_app_or in Hr as [Hr | [<- | []]].
    + destruct (H1 r' j Hr Hj) as [A B]. split; [eapply Qle_trans; [apply Q.le_min_l | exact A] | eapply Qle_trans; [exact B | apply Q.le_max_l]].
    + split; [apply Q.le_min_r | apply Q.le_max_r].
  - intros j Hj. rewrite !zipw_nth by congruence. destruct (H2 j Hj) as [[r1 [I1 E1]] [r2 [I2 E2]]]. split.
    + destruct (Q.min_spec (nth j (fst b) 0%Q) (nth j (fst r) 0%Q)) as [[_ E] | [_ E]].
      * exists r1. split; [apply in_or_app; left; exact I1 | rewrite E; exact E1].
      * exists r. split; [apply in_or_app; right; left; reflexivity | rewrite E; reflexivity].
    + destruct (Q.max_spec (nth j (snd b) 0%Q) (nth j (snd r) 0%Q)) as [[_ E] | [_ E]].
      * exists r. split; [apply in_or_app; right; left; reflexivity | rewrite E; reflexivity].
      * exists r2. split; [apply in_or_app; left; exact I2 | rewrite E; exact E2].
Qed.
Lemma hull_fold m l : forall rs b, hull m rs b -> (forall r, In r l -> shaped m r) -> exists b', fold_left update l (Some b) = Some b' /\ hull m (rs ++ l) b'.
Proof.
  induction l as [| r l IH]; intros rs b H S; cbn [fold_left]; [exists b; rewrite app_nil_r; auto |].
  destruct b as [lb ub]. cbn [update]. destruct (IH (rs ++ [r]) (zipw Qmin lb (fst r), zipw Qmax ub (snd r))) as [b' [E Hb]].
  - apply (hull_more H). apply S. left. reflexivity.
  - intros r' Hr. apply S. right. exact Hr.
  - exists b'. split; [exact E |]. rewrite <- app_assoc in Hb. exact Hb.
Qed.
Lemma hull_all m l : l <> [] -> (forall r, In r l -> shaped m r) -> exists b, fold_left update l None = Some b /\ hull m l b.
Proof.
  destruct l as [| r l]; [congruence |]. intros _ S. cbn [fold_left update]. apply (@hull_fold m l [r] r); [apply hull_one, S; left; reflexivity | intros r' H; apply S; right; exact H].
Qed.
Lemma fold_map {A B C} (f : C -> B -> C) (h : A -> B) l : forall c, fold_left (fun c a => f c (h a)) l c = fold_left f (map h l) c.
Proof. induction l as [| a l IH]; intros c; [reflexivity |]. cbn. apply IH. Qed.

Section Cover.
  Variable F : Type.
  Variable f32 : Q -> Q.
  Variable crown : F -> list (Q * Q) -> vec * vec.
  Variable run : F -> list R -> list R.
  Hypothesis SC : sound_crown run crown.
  Hypothesis RS : respects f32.

  Lemma part_point n b c : 0 < n -> In c (parts n b) -> is_part n b c.
  Proof.
    intros Hn. unfold parts. destruct (Qeq_bool (fst b) (snd b)) eqn:E.
    - intros [<- | []]. left. apply Qeq_bool_iff in E. cbn. split; [exact E | split; reflexivity].
    - intros H. apply in_map_iff in H as [i [<- Hi]]. apply in_seq in Hi. right. split; [intros E'; apply Qeq_bool_iff in E'; congruence |].
      assert (NZ : ~ (inject_Z (Z.of_nat n) == 0)%Q) by (change 0%Q with (inject_Z 0); rewrite inject_Z_injective; lia).
      assert (P : forall k, k <= n -> (split_point (fst b) (snd b) n k == fst b + inject_Z (Z.of_nat k) * (snd b - fst b) / inject_Z (Z.of_nat n))%Q).
      { intros k Hk. unfold split_point. destruct (Nat.eqb_spec k n) as [-> | N]; field; exact NZ. }
      exists i. split; [lia |]. cbn [fst snd]. rewrite !P by lia. replace (i + 1) with (S i) by lia. split; reflexivity.
  Qed.
  Lemma parts_nonempty n b : 0 < n -> parts n b <> [].
  Proof. intros H. unfold parts. destruct (Qeq_bool _ _); [discriminate |]. destruct n; [lia | discriminate]. Qed.
  Lemma product_nonempty {A} (ls : list (list A)) : (forall l, In l ls -> l <> []) -> product ls <> [].
  Proof.
    induction ls as [| l ls IH]; intros H; [discriminate |]. cbn [product]. destruct l as [| a l]; [exfalso; apply (H []); [left; reflexivity | reflexivity] |].
    cbn [flat_map]. destruct (product ls) as [| p ps] eqn:E; [exfalso; apply IH; [intros l' Hl; apply H; right; exact Hl | reflexivity] |]. discriminate.
  Qed.

  Lemma converted_upto lo hi n v : (Q2R (f32 lo) <= v)%R -> forall m, (v <= Q2R (f32 (split_point lo hi n m)))%R -> 0 < m -> m <= n ->
    exists i, i < m /\ (Q2R (f32 (split_point lo hi n i)) <= v <= Q2R (f32 (split_point lo hi n (S i))))%R.
  Proof.
    intros L. induction m as [| m IH]; intros H P Q; [lia |]. destruct (Rle_dec (Q2R (f32 (split_point lo hi n m))) v) as [K | K].
    - exists m. split; [lia | split; assumption].
    - destruct m as [| m].
      + exfalso. apply K. replace (Q2R (f32 (split_point lo hi n 0))) with (Q2R (f32 lo)); [exact L |]. apply Qeq_eqR. apply RS.
        unfold split_point. destruct (Nat.eqb_spec 0 n); [lia |]. change (inject_Z (Z.of_nat 0)) with 0%Q. ring.
      + destruct IH as [i [Hi B]]; [lra | lia | lia |]. exists i. split; [lia | exact B].
  Qed.
  Lemma part_covers n b v : 0 < n -> (Q2R (f32 (fst b)) <= v <= Q2R (f32 (snd b)))%R ->
    exists c, In c (parts n b) /\ (Q2R (f32 (fst c)) <= v <= Q2R (f32 (snd c)))%R.
  Proof.
    intros Hn B. unfold parts. destruct (Qeq_bool (fst b) (snd b)) eqn:E.
    - exists (fst b, fst b). split; [left; reflexivity |]. cbn. apply Qeq_bool_iff in E. rewrite <- (Qeq_eqR _ _ (RS E)) in B. exact B.
    - destruct (@converted_upto (fst b) (snd b) n v (proj1 B) n) as [i [Hi C]]; [rewrite split_last; apply B | exact Hn | lia |].
      eexists. split; [apply in_map_iff; exists i; split; [reflexivity | apply in_seq; lia] | exact C].
  Qed.
  Lemma piece_covers n bs vs : 0 < n -> in_box vs (converted f32 bs) -> exists p, In p (product (map (parts n) bs)) /\ in_box vs (bounded_inputs f32 p).
  Proof.
    intros Hn B. enough (exists p, Forall2 (fun x l => In x l) p (map (parts n) bs) /\ in_box vs (bounded_inputs f32 p)) as [p [H1 H2]] by (exists p; split; [apply In_product; exact H1 | exact H2]).
    revert vs B. induction bs as [| b bs IH]; intros vs B; cbn [converted map] in B; inversion B as [| v c vs' bs' Hv B']; subst; [exists []; split; constructor |].
    destruct (IH vs' B') as [p [H1 H2]]. destruct (@part_covers n b v Hn Hv) as [c [C1 C2]]. exists (c :: p). split; [constructor; assumption | constructor; assumption].
  Qed.

  Lemma bound_hull code bs n : 0 < n -> exists m b, (forall box, shaped m (crown code box)) /\ bound_pieces f32 crown code bs n = Some b /\
    hull m (map (fun p => crown code (bounded_inputs f32 p)) (product (map (parts n) bs))) b.
  Proof.
    intros Hn. destruct SC as [_ SH]. destruct (SH code) as [m Hm]. exists m.
    enough (exists b, bound_pieces f32 crown code bs n = Some b /\ hull m (map (fun p => crown code (bounded_inputs f32 p)) (product (map (parts n) bs))) b) as [b [H1 H2]] by (exists b; split; [exact Hm | split; assumption]).
    unfold bound_pieces. rewrite (fold_map (@update) (fun p => crown code (bounded_inputs f32 p))). apply hull_all.
    - intros E. apply map_eq_nil in E. revert E. apply product_nonempty. intros l Hl. apply in_map_iff in Hl as [b [<- _]]. apply parts_nonempty. exact Hn.
    - intros r Hr. apply in_map_iff in Hr as [p [<- _]]. apply Hm.
  Qed.
  Lemma bound_covers code bs n vs : 0 < n -> in_box vs (converted f32 bs) -> exists b, bound_pieces f32 crown code bs n = Some b /\ inside (run code vs) b.
  Proof.
    intros Hn B. destruct (@bound_hull code bs n Hn) as [m [b [Hm [E [[S1 S2] [H1 _]]]]]]. exists b. split; [exact E |].
    destruct (@piece_covers n bs vs Hn B) as [p [Hp Hb]]. destruct SC as [SI _]. destruct (SI code _ _ Hb) as [L1 [L2 HI]].
    assert (IN : In (crown code (bounded_inputs f32 p)) (map (fun p => crown code (bounded_inputs f32 p)) (product (map (parts n) bs)))) by (apply (in_map (fun p => crown code (bounded_inputs f32 p))); exact Hp).
    assert (M : length (run code vs) = m) by (rewrite <- L1; apply Hm).
    split; [congruence |]. split; [congruence |]. intros j Hj. destruct (H1 _ j IN) as [A B']; [lia |]. specialize (HI j Hj).
    apply Qle_Rle in A. apply Qle_Rle in B'. lra.
  Qed.
End Cover.

Section History.
  Variable F : Type.
  Variable f32 : Q -> Q.
  Variable crown : F -> list (Q * Q) -> vec * vec.
  Variable K : Type.
  Variable keqb : K -> K -> bool.
  Hypothesis keqb_eq : forall a b, keqb a b = true <-> a = b.
  Variable key : list (Q * Q) -> word -> nat -> K.
  Variable good : K -> answer -> Prop.

  (** Every file holds a good answer. *)
  Definition all_good (st : cache K) : Prop := forall k r, dget keqb k st = Some r -> good k r.
  Lemma serve_good st r : all_good st -> (forall fn bs n, r = Ask fn bs n -> good (key bs (sensor_name fn) n) (bound_pieces f32 crown (sensor_code fn) bs n)) ->
    all_good (fst (serve f32 crown keqb key st r)) /\ forall fn bs n, r = Ask fn bs n -> exists a, snd (serve f32 crown keqb key st r) = Some a /\ good (key bs (sensor_name fn) n) a.
  Proof.
    intros G H. destruct r as [fn bs n | code bs n |]; cbn [serve].
    - unfold parsed_sensor. destruct (dget keqb (key bs (sensor_name fn) n) st) as [r |] eqn:E; cbn [fst snd].
      + split; [exact G |]. intros fn' bs' n' [= <- <- <-]. exists r. split; [reflexivity | apply G; exact E].
      + split.
        * intros k r Hr. unfold dset in Hr. destruct (keqb k (key bs (sensor_name fn) n)) eqn:Ek.
          -- apply keqb_eq in Ek. subst k. rewrite dget_alter_same in Hr by exact keqb_eq. injection Hr as <-. apply H. reflexivity.
          -- rewrite dget_alter_other in Hr; [apply G; exact Hr | exact keqb_eq |]. intros Ek'. apply keqb_eq in Ek'. congruence || (rewrite (proj2 (keqb_eq _ _) (eq_sym (proj1 (keqb_eq _ _) Ek'))) in Ek; discriminate).
        * intros fn' bs' n' [= <- <- <-]. eexists. split; [reflexivity | apply H; reflexivity].
    - split; [exact G | discriminate].
    - split; [intros k r Hr; discriminate Hr | discriminate].
  Qed.
  Lemma serve_all_good rs : forall st, all_good st ->
    (forall fn bs n, In (Ask fn bs n) rs -> good (key bs (sensor_name fn) n) (bound_pieces f32 crown (sensor_code fn) bs n)) ->
    forall i fn bs n, nth_error rs i = Some (Ask fn bs n) -> exists a, nth_error (snd (serve_all f32 crown keqb key st rs)) i = Some (Some a) /\ good (key bs (sensor_name fn) n) a.
  Proof.
    induction rs as [| r rs IH]; intros st G H i fn bs n E; [destruct i; discriminate |]. cbn [serve_all].
    destruct (@serve_good st r G) as [G1 A1]; [intros fn' bs' n' ->; apply H; left; reflexivity |].
    destruct (serve f32 crown keqb key st r) as [st1 a] eqn:Es. destruct (serve_all f32 crown keqb key st1 rs) as [st2 l] eqn:El. cbn [snd].
    destruct i as [| i]; cbn [nth_error] in *.
    - injection E as ->. destruct (A1 fn bs n eq_refl) as [a' [E1 E2]]. cbn [snd] in E1. subst a. exists a'. auto.
    - cbn [fst] in G1. destruct (IH st1 G1 (fun fn bs n Hi => H fn bs n (or_intror Hi)) i fn bs n E) as [a' [E1 E2]]. rewrite El in E1. exists a'. auto.
  Qed.
  Lemma serve_all_expr rs : forall st i code bs n, nth_error rs i = Some (AskExpr code bs n) ->
    nth_error (snd (serve_all f32 crown keqb key st rs)) i = Some (Some (bound_pieces f32 crown code bs n)).
  Proof.
    induction rs as [| r rs IH]; intros st i code bs n E; [destruct i; discriminate |]. cbn [serve_all].
    destruct (serve f32 crown keqb key st r) as [st1 a] eqn:Es. destruct (serve_all f32 crown keqb key st1 rs) as [st2 l] eqn:El. cbn [snd].
    destruct i as [| i]; cbn [nth_error] in *.
    - injection E as ->. cbn in Es. injection Es as <- <-. reflexivity.
    - specialize (IH st1 i code bs n E). rewrite El in IH. exact IH.
  Qed.
  Lemma serve_keeps st r k a : r <> ClearCache F -> dget keqb k st = Some a -> dget keqb k (fst (serve f32 crown keqb key st r)) = Some a.
  Proof.
    intros NC H. destruct r as [fn bs n | code bs n |]; cbn [serve]; [| exact H | congruence]. unfold parsed_sensor.
    destruct (dget keqb (key bs (sensor_name fn) n) st) as [r |] eqn:E; cbn [fst]; [exact H |]. unfold dset. rewrite dget_alter_other; [exact H | exact keqb_eq |].
    intros Ek. subst k. congruence.
  Qed.
  Lemma serve_all_keeps rs : forall st k a, ~ In (ClearCache F) rs -> dget keqb k st = Some a -> dget keqb k (fst (serve_all f32 crown keqb key st rs)) = Some a.
  Proof.
    induction rs as [| r rs IH]; intros st k a NC H; [exact H |]. cbn [serve_all]. pose proof (@serve_keeps st r k a) as SK.
    destruct (serve f32 crown keqb key st r) as [st1 x]. specialize (IH st1 k a). destruct (serve_all f32 crown keqb key st1 rs) as [st2 l]. cbn [fst] in *. apply IH.
    - intros Hi. apply NC. right. exact Hi.
    - apply SK; [intros ->; apply NC; left; reflexivity | exact H].
  Qed.
End History.
