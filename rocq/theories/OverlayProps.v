(** Property theorems about tubes computed for a list of initial sets (verse/analysis/verifier.py:238-377). *)
From Verif Require Import Base BaseFacts Boxes BoxesSpec BoxesProofs Overlay OverlaySpec OverlayProofs.
From Coq Require Import Lqa.
Open Scope nat_scope.

(** A one-dimensional engine used by the examples: the state moves by one per step, three steps. *)
Definition drift (s : vec) (j : nat) (s' : vec) : Prop :=
  exists x, s = [x] /\ s' = [(x + inject_Z (Z.of_nat j))%Q].
Definition drift_engine (b : vec * vec) : list vec :=
  let l := nth 0 (fst b) 0%Q in let h := nth 0 (snd b) 0%Q in
  [[0; l + 0]; [1; h + 0]; [1; l + 1]; [2; h + 1]; [2; l + 2]; [3; h + 2]]%Q.

Lemma drift_engine_sound : engine_sound 3 1 drift drift_engine.
Proof.
  intros [|l [|? ?]] [|h [|? ?]] H1 H2; simpl in H1, H2; try lia. split.
  - split; [reflexivity|]. intros row Hr. simpl in Hr.
    repeat (destruct Hr as [<-|Hr]; [reflexivity|]). destruct Hr.
  - intros s j s' Hs Hj (x & -> & ->). simpl in Hs. destruct Hs as [[A B] _].
    destruct j as [|[|[|j]]]; [..|lia]; unfold covers; simpl; (eexists; eexists; split; [reflexivity|split; [reflexivity|]]);
      cbn [tl in_box]; (split; [|exact I]); unfold inject_Z; simpl; split; lra.
Qed.

(** C21, the case [combine_seg_length = 1]: with one initial set per row, the tube of the node covers, at the
    right time, every trajectory that starts in the [i]-th initial set [i] steps after the node starts.  The
    full property, for every value of [combine_seg_length], is false: [C21_combined_segments_refuted]. *)
Theorem C21_tube_covers_starts_partial :
  forall N d flow engine inits,
  engine_sound N d flow engine -> dim_ok d inits -> inits <> [] ->
  exists t, calc_full_plain engine inits 1 = Some t /\ tube_shape N d t /\
  forall i b s j s', nth_error inits i = Some b -> in_box (fst b) (snd b) s -> flow s j s' ->
    i + j < N -> covers t (i + j) s'.
Proof. exact calc_full_plain_one. Qed.
Print Assumptions C21_tube_covers_starts_partial.

(** C21, same case, precision: each bound of the tube at step [r] is the bound at step [r - k] of the
    engine's tube for the [k]-th initial set, for some [k <= r]. *)
Theorem C21_tube_tight_partial :
  forall N d flow engine inits t,
  engine_sound N d flow engine -> dim_ok d inits -> inits <> [] -> calc_full_plain engine inits 1 = Some t ->
  forall r i, r < N -> i < d ->
   (exists k b lo lo', k <= r /\ nth_error inits k = Some b /\ nth_error t (2 * r) = Some lo /\
      nth_error (engine b) (2 * (r - k)) = Some lo' /\ nth (S i) lo 0%Q = nth (S i) lo' 0%Q) /\
   (exists k b hi hi', k <= r /\ nth_error inits k = Some b /\ nth_error t (2 * r + 1) = Some hi /\
      nth_error (engine b) (2 * (r - k) + 1) = Some hi' /\ nth (S i) hi 0%Q = nth (S i) hi' 0%Q).
Proof. exact calc_full_plain_tight. Qed.
Print Assumptions C21_tube_tight_partial.

(** C21, any segment length [L]: what is guaranteed is coverage with the clock of the segment, i.e. up to
    [L - 1] rows too early. *)
Theorem C21_tube_covers_shifted_partial :
  forall N d flow engine inits L,
  engine_sound N d flow engine -> dim_ok d inits -> inits <> [] -> 0 < L ->
  exists t, calc_full_plain engine inits L = Some t /\ tube_shape N d t /\
  forall i b s j s', nth_error inits i = Some b -> in_box (fst b) (snd b) s -> flow s j s' ->
    i / L * L + j < N -> covers t (i / L * L + j) s'.
Proof.
  intros N d flow engine inits L H1 H2 H3 H4. exact (@calc_full_plain_shifted N d flow engine inits L H1 H2 H3 H4).
Qed.
Print Assumptions C21_tube_covers_shifted_partial.

(** C21 is false for combined segments (the default is to combine 1000 initial sets): with two initial
    sets in one segment, a trajectory starting in the second is missed. *)
Theorem C21_combined_segments_refuted :
  exists N d flow engine inits t i b s j s',
    engine_sound N d flow engine /\ dim_ok d inits /\ calc_full_plain engine inits 1000 = Some t /\
    nth_error inits i = Some b /\ in_box (fst b) (snd b) s /\ flow s j s' /\ i + j < N /\ ~ covers t (i + j) s'.
Proof.
  exists 3, 1, drift, drift_engine, [([0], [0]); ([0], [0])]%Q.
  eexists. exists 1, ([0], [0])%Q, [0]%Q, 1, [0 + 1]%Q.
  split; [exact drift_engine_sound|]. split.
  { intros b [<-|[<-|[]]]; split; reflexivity. }
  split; [vm_compute; reflexivity|]. split; [reflexivity|]. split; [simpl; repeat split; lra|].
  split; [exists 0%Q; split; reflexivity|]. split; [lia|].
  intros (lo & hi & E1 & E2 & H). simpl in E1, E2. injection E1 as <-. injection E2 as <-.
  simpl in H. destruct H as [[A B] _]. vm_compute in A. apply A. reflexivity.
Qed.
Print Assumptions C21_combined_segments_refuted.

Example C21_case :
  engine_sound 3 1 drift drift_engine /\ dim_ok 1 [([0], [0]); ([5], [6])]%Q /\
  option_map (map (map Qred)) (calc_full_plain drift_engine [([0], [0]); ([5], [6])]%Q 1)
  = Some [[0; 0]; [1; 0]; [1; 1]; [2; 6]; [2; 2]; [3; 7]]%Q.
Proof.
  split; [exact drift_engine_sound|]. split; [|vm_compute; reflexivity].
  intros b [<-|[<-|[]]]; split; reflexivity.
Qed.

(** C43, when the first initial set is served from the cache or nothing is: the tube assembled from cached
    and freshly computed pieces covers every start at the right time, the cache still gives right answers
    afterwards (for the entries that were there and for the tubes recorded for insertion), and a tube is
    recorded for every initial set that was missing.  The full
    property allows any mixture of hits and misses and is false: [C43_partial_hit_refuted]. *)
Theorem C43_incremental_aligned_partial :
  forall N d flow engine inits lookup h,
  engine_sound N d flow engine -> dim_ok d inits -> inits <> [] -> length inits <= N ->
  cache_right N d flow lookup h ->
  (forall b0, nth_error inits 0 = Some b0 -> lookup b0 <> None) \/ (forall b, lookup b = None) ->
  exists h' t upd, calc_full_incremental engine lookup h inits 1 = Some (h', t, upd) /\
    tube_shape N d t /\ cache_right N d flow lookup h' /\
    (forall b c, In (b, c) upd -> exists t', nth_error h' c = Some t' /\ sound_tube N flow t' b) /\
    (forall b, In b inits -> lookup b = None -> exists c, In (b, c) upd) /\
    forall i b s j s', nth_error inits i = Some b -> in_box (fst b) (snd b) s -> flow s j s' ->
      i + j < N -> covers t (i + j) s'.
Proof.
  intros N d flow engine inits lookup h He Hd Hne HN [Hok Hlk] Hcase.
  assert (Lk : lookup_ok N d flow lookup h).
  { intros b c H1 H2 H3. destruct (Hlk b c H1 H2 H3) as (t & E & S). exists t. split; [exact E|].
    intros s j s' A B C. apply (S s); auto. }
  destruct (@incremental_sound N d flow engine inits 1 lookup He Hd (Nat.lt_0_succ 0) HN h Hne Hok Lk)
    as (h' & t & upd & E & Hs & Hok' & HG & Hlk' & Hu & Hrec & Hc).
  - destruct Hcase as [Hc|Hc]; [left|right].
    + destruct inits as [|b0 inits']; [congruence|]. unfold is_missing.
      destruct (Hd b0 (or_introl eq_refl)) as [D1 D2].
      rewrite (seg_hull_one (b0 :: inits') 0 (b := b0) eq_refl) by congruence.
      specialize (Hc b0 eq_refl). destruct (lookup b0); congruence.
    + intros k Hk. unfold is_missing. destruct (seg_hull inits 1 k); [rewrite Hc|]; reflexivity.
  - exists h', t, upd. split; [exact E|]. split; [exact Hs|]. split.
    + split; [exact Hok'|]. intros b c H1 H2 H3. destruct (Hlk' b c H1 H2 H3) as (t' & E' & S'). exists t'.
      split; [exact E'|]. intros s j s' A B C. apply (S' s j s'); auto.
    + split.
      * intros b c Hin. destruct (Hu b c Hin) as (t' & E' & S'). exists t'.
        split; [exact E'|]. intros s j s' A B C. apply (S' s j s'); auto.
      * split.
        { intros b Hb Hl. destruct (In_nth_error _ _ Hb) as (k & Hk). destruct (Hd b Hb) as [D1 D2].
          assert (Hkl : k < length inits) by (apply nth_error_Some; congruence).
          destruct (seg_starts (length inits) 1) as [segs|] eqn:Es; [|discriminate].
          refine (Hrec segs k b eq_refl _ _ Hl); [|apply seg_hull_one; [exact Hk|congruence]].
          rewrite (seg_starts_eq _ (Nat.lt_0_succ 0)) in Es. replace ((length inits + (1 - 1)) / 1) with (length inits) in Es by (rewrite Nat.div_1_r; lia).
          injection Es as <-. apply in_map_iff. exists k. split; [lia|]. apply in_seq. lia. }
      intros i b s j s' A B C D. specialize (Hc i b s j s' A B C).
        rewrite Nat.div_1_r, Nat.mul_1_r in Hc. auto.
Qed.
Print Assumptions C43_incremental_aligned_partial.

(** C43 is false in general: if the first initial set misses and the second hits, the cached tube is put at
    the start of the node instead of one step later, and trajectories of the second set are lost. *)
Theorem C43_partial_hit_refuted :
  exists N d flow engine inits lookup h h' t upd i b s j s',
    engine_sound N d flow engine /\ dim_ok d inits /\ length inits <= N /\ cache_right N d flow lookup h /\
    calc_full_incremental engine lookup h inits 1 = Some (h', t, upd) /\
    nth_error inits i = Some b /\ in_box (fst b) (snd b) s /\ flow s j s' /\ i + j < N /\ ~ covers t (i + j) s'.
Proof.
  exists 3, 1, drift, drift_engine, [([5], [5]); ([0], [0])]%Q.
  exists (fun b : vec * vec => if Qle_bool 0 (nth 0 (fst b) 0%Q) && Qle_bool (nth 0 (snd b) 0%Q) 0 then Some 0 else None).
  exists [drift_engine ([0], [0])%Q]. eexists. eexists. eexists.
  exists 1, ([0], [0])%Q, [0]%Q, 0, [0 + 0]%Q.
  split; [exact drift_engine_sound|]. split.
  { intros b [<-|[<-|[]]]; split; reflexivity. }
  split; [simpl; lia|]. split.
  { split.
    - intros [|[|a]] t E; simpl in E; try discriminate. injection E as <-.
      split; [reflexivity|]. intros row Hr. simpl in Hr.
      repeat (destruct Hr as [<-|Hr]; [reflexivity|]). destruct Hr.
    - intros b c L1 L2 E. destruct b as [[|l [|? ?]] [|u [|? ?]]]; simpl in L1, L2; try lia. cbn [fst snd nth] in E.
      destruct (Qle_bool 0 l) eqn:E1; [|discriminate]. destruct (Qle_bool u 0) eqn:E2; [|discriminate].
      apply Qle_bool_iff in E1, E2. injection E as <-. eexists. split; [reflexivity|].
      intros s j s' Hs Hf Hj. apply (proj2 (drift_engine_sound [0]%Q [0]%Q eq_refl eq_refl) s); auto.
      destruct s as [|x [|? ?]]; simpl in Hs |- *; try tauto. destruct Hs as [[A B] _]. split; [|exact I]. lra. }
  split; [vm_compute; reflexivity|]. split; [reflexivity|]. split; [simpl; repeat split; lra|].
  split; [exists 0%Q; split; reflexivity|]. split; [lia|].
  intros (lo & hi & E1 & E2 & H). simpl in E1, E2. injection E1 as <-. injection E2 as <-.
  simpl in H. destruct H as [[A B] _]. vm_compute in A. apply A. reflexivity.
Qed.
Print Assumptions C43_partial_hit_refuted.

(** C64, what does hold: a query never makes a stored tube smaller, so what a hit returned once stays
    covered.  (Stated for the same cases as C43.) *)
Theorem C64_stored_tubes_only_grow_partial :
  forall N d flow engine inits lookup h,
  engine_sound N d flow engine -> dim_ok d inits -> inits <> [] -> length inits <= N ->
  cache_right N d flow lookup h ->
  (forall b0, nth_error inits 0 = Some b0 -> lookup b0 <> None) \/ (forall b, lookup b = None) ->
  exists h' t upd, calc_full_incremental engine lookup h inits 1 = Some (h', t, upd) /\ heap_grows h h'.
Proof.
  intros N d flow engine inits lookup h He Hd Hne HN [Hok Hlk] Hcase.
  assert (Lk : lookup_ok N d flow lookup h).
  { intros b c H1 H2 H3. destruct (Hlk b c H1 H2 H3) as (t & E & S). exists t. split; [exact E|].
    intros s j s' A B C. apply (S s); auto. }
  destruct (@incremental_sound N d flow engine inits 1 lookup He Hd (Nat.lt_0_succ 0) HN h Hne Hok Lk)
    as (h' & t & upd & E & Hs & Hok' & HG & _).
  - destruct Hcase as [Hc|Hc]; [left|right].
    + destruct inits as [|b0 inits']; [congruence|]. unfold is_missing.
      destruct (Hd b0 (or_introl eq_refl)) as [D1 D2].
      rewrite (seg_hull_one (b0 :: inits') 0 (b := b0) eq_refl) by congruence.
      specialize (Hc b0 eq_refl). destruct (lookup b0); congruence.
    + intros k Hk. unfold is_missing. destruct (seg_hull inits 1 k); [rewrite Hc|]; reflexivity.
  - exists h', t, upd. auto.
Qed.
Print Assumptions C64_stored_tubes_only_grow_partial.

(** C64 is false: the array in the cache is itself the accumulator, so a query that hits on its first
    initial set widens the stored tube with the tubes of the other sets. *)
Theorem C64_lookup_mutates_cache_refuted :
  exists N d flow engine inits lookup h h' t upd a stored stored' r s,
    engine_sound N d flow engine /\ dim_ok d inits /\ cache_right N d flow lookup h /\
    calc_full_incremental engine lookup h inits 1 = Some (h', t, upd) /\
    nth_error h a = Some stored /\ nth_error h' a = Some stored' /\ covers stored' r s /\ ~ covers stored r s.
Proof.
  exists 3, 1, drift, drift_engine, [([0], [0]); ([5], [5])]%Q.
  exists (fun b : vec * vec => if Qle_bool 0 (nth 0 (fst b) 0%Q) && Qle_bool (nth 0 (snd b) 0%Q) 0 then Some 0 else None).
  exists [drift_engine ([0], [0])%Q]. eexists. eexists. eexists.
  exists 0. eexists. eexists. exists 1, [5]%Q.
  split; [exact drift_engine_sound|]. split.
  { intros b [<-|[<-|[]]]; split; reflexivity. }
  split.
  { split.
    - intros [|[|a]] t E; simpl in E; try discriminate. injection E as <-.
      split; [reflexivity|]. intros row Hr. simpl in Hr.
      repeat (destruct Hr as [<-|Hr]; [reflexivity|]). destruct Hr.
    - intros b c L1 L2 E. destruct b as [[|l [|? ?]] [|u [|? ?]]]; simpl in L1, L2; try lia. cbn [fst snd nth] in E.
      destruct (Qle_bool 0 l) eqn:E1; [|discriminate]. destruct (Qle_bool u 0) eqn:E2; [|discriminate].
      apply Qle_bool_iff in E1, E2. injection E as <-. eexists. split; [reflexivity|].
      intros s j s' Hs Hf Hj. apply (proj2 (drift_engine_sound [0]%Q [0]%Q eq_refl eq_refl) s); auto.
      destruct s as [|x [|? ?]]; simpl in Hs |- *; try tauto. destruct Hs as [[A B] _]. split; [|exact I]. lra. }
  split; [vm_compute; reflexivity|]. split; [reflexivity|]. split; [reflexivity|]. split.
  - unfold covers. simpl. eexists. eexists. split; [reflexivity|]. split; [reflexivity|].
    simpl. split; [|exact I]. split; vm_compute; congruence.
  - intros (lo & hi & E1 & E2 & H). simpl in E1, E2. injection E1 as <-. injection E2 as <-.
    simpl in H. destruct H as [[A B] _]. vm_compute in B. apply B. reflexivity.
Qed.
Print Assumptions C64_lookup_mutates_cache_refuted.

Example C43_case :
  cache_right 3 1 drift (fun b => if Qeq_bool (nth 0 (fst b) 0%Q) 0 && Qeq_bool (nth 0 (snd b) 0%Q) 0 then Some 0 else None)
              [drift_engine ([0], [0])%Q].
Proof.
  split.
  - intros [|[|a]] t E; simpl in E; try discriminate. injection E as <-.
    split; [reflexivity|]. intros row Hr. simpl in Hr.
    repeat (destruct Hr as [<-|Hr]; [reflexivity|]). destruct Hr.
  - intros b c L1 L2 E. destruct b as [[|l [|? ?]] [|u [|? ?]]]; simpl in L1, L2; try lia. cbn [fst snd nth] in E.
    destruct (Qeq_bool l 0) eqn:E1; [|discriminate]. destruct (Qeq_bool u 0) eqn:E2; [|discriminate].
    apply Qeq_bool_iff in E1, E2. injection E as <-. eexists. split; [reflexivity|].
    intros s j s' Hs Hf Hj. apply (proj2 (drift_engine_sound [0]%Q [0]%Q eq_refl eq_refl) s); auto.
    destruct s as [|x [|? ?]]; simpl in Hs |- *; try tauto. destruct Hs as [[A B] _]. split; [|exact I]. lra.
Qed.
