(** C124: incremental verification with star sets. *)
From Coq Require Import Lia.
From Verif Require Import Base Star Overlay StarCache.
Open Scope nat_scope.

Section StarCache.
  Variables star tube : Type.
  Variable combine_stars : list star -> option star.
  Variable calc_reach_tube : star -> option tube.
  Notation check := (check_cache_stars star tube).
  Notation node_tube := (node_tube star tube combine_stars calc_reach_tube).

  Lemma nth_error_seq_at i q : i < q -> nth_error (seq 0 q) i = Some i.
  Proof. intros H. rewrite (nth_error_nth' _ 0) by (rewrite seq_length; exact H). rewrite seq_nth by exact H. reflexivity. Qed.
  (** The positions 0, L, 2 L, ... below n. *)
  Definition starts_below (n L : nat) (l : list nat) : Prop := forall i k, nth_error l i = Some k <-> k = i * L /\ k < n.

  Lemma starts_spec n L l : seg_starts n L = Some l -> starts_below n L l.
  Proof.
    unfold seg_starts. destruct L as [|m]; [discriminate|]. intros E. injection E as <-. set (L := S m). intros i k.
    assert (PL : 1 <= L) by (unfold L; lia). change (nth_error (map (fun i => i * L) (seq 0 ((n + (L - 1)) / L))) i = Some k <-> k = i * L /\ k < n). clearbody L. clear m.
    pose proof (Nat.mul_div_le (n + (L - 1)) L ltac:(lia)) as D. assert (D' := fun z => Nat.div_le_lower_bound (n + (L - 1)) L z ltac:(lia)). set (q := (n + (L - 1)) / L) in *.
    destruct (Nat.lt_ge_cases i q) as [H|H].
    - rewrite (map_nth_error _ _ _ (nth_error_seq_at i q H)). split; [intros [= <-]|intros [-> _]; reflexivity]. split; [reflexivity|]. assert (L * (i + 1) <= L * q) by (apply Nat.mul_le_mono_l; lia). nia.
    - rewrite (proj2 (nth_error_None _ _)) by (rewrite map_length, seq_length; exact H). split; [discriminate|]. intros [-> Hn]. specialize (D' (S i)). assert (L * S i <= n + (L - 1)) by nia. lia.
  Qed.
  Lemma starts_in n L l k : starts_below n L l -> In k l -> k < n.
  Proof. intros S I. destruct (In_nth_error _ _ I) as [i E]. apply S in E. apply E. Qed.
  Lemma loop_spec inc known L inits : forall idxs missing hits r, check_loop star tube inc known L inits idxs missing hits = Some r ->
    r = (None, missing ++ idxs, (fst hits, snd hits + if inc then length idxs else 0)) /\ (idxs <> [] -> inc = true -> known = false) /\
    (forall k, In k idxs -> length (firstn L (skipn k inits)) = 1).
  Proof.
    induction idxs as [|k idxs IH]; intros missing hits r H; cbn [check_loop] in H.
    - injection H as <-. split; [rewrite app_nil_r; destruct hits, inc; cbn; rewrite Nat.add_0_r; reflexivity|]. split; [contradiction|intros k []].
    - destruct (combined_rect star (firstn L (skipn k inits))) as [s|] eqn:C; [|discriminate]. cbn [obind] in H.
      assert (Len : length (firstn L (skipn k inits)) = 1). { unfold combined_rect in C. destruct (firstn L (skipn k inits)) as [|a [|b l]]; try discriminate. reflexivity. }
      destruct inc.
      + unfold check_hit_star in H. destruct known; [discriminate|]. cbn [obind] in H. destruct (IH _ _ _ H) as (E & _ & K). split; [rewrite E, <- app_assoc; cbn [fst snd length app]; do 2 f_equal; lia|]. split; [reflexivity|]. intros j [<-|J]; auto.
      + destruct (IH _ _ _ H) as (E & _ & K). split; [rewrite E, <- app_assoc; reflexivity|]. split; [discriminate|]. intros j [<-|J]; auto.
  Qed.

  (** C124.  A lookup that does not raise never takes a tube from the cache: it reports every segment as missing, once and in
      order, and counts a miss for each. *)
  Theorem C124_lookup_partial inc known L inits hits t missing hits' : check inc known L inits hits = Some (t, missing, hits') ->
    t = None /\ starts_below (length inits) L missing /\ hits' = (fst hits, snd hits + if inc then length missing else 0).
  Proof.
    unfold check_cache_stars. destruct (seg_starts (length inits) L) as [idxs|] eqn:E; [|discriminate]. cbn [obind]. intros H. destruct (loop_spec _ _ _ _ _ _ _ _ H) as ([= -> -> ->] & _ & _).
    split; [reflexivity|]. split; [apply starts_spec; exact E|reflexivity].
  Qed.
  (** C124.  With segments of one star and no entry for the mode the lookup does not raise. *)
  Theorem C124_lookup_first inits hits inc : exists r, check inc false 1 inits hits = Some r.
  Proof.
    unfold check_cache_stars. destruct (seg_starts (length inits) 1) as [idxs|] eqn:E; [|discriminate]. cbn [obind]. pose proof (starts_spec _ _ _ E) as S.
    assert (G : forall l missing h, (forall k, In k l -> k < length inits) -> exists r, check_loop star tube inc false 1 inits l missing h = Some r).
    { induction l as [|k l IH]; intros missing h B; cbn [check_loop]; [eexists; reflexivity|]. assert (Bk : k < length inits) by (apply B; left; reflexivity).
      destruct (skipn k inits) as [|s r] eqn:Sk; [apply (f_equal (@length star)) in Sk; rewrite skipn_length in Sk; cbn in Sk; lia|]. cbn [firstn combined_rect obind check_hit_star]. destruct inc; apply IH; intros j J; apply B; right; exact J. }
    apply G. intros k K. apply (starts_in _ _ _ _ S K).
  Qed.
  (** C124 (refuted: with star sets an incremental verification computes the tubes).  It raises for every agent, whatever the
      stars, the cache and the solvers. *)
  Theorem C124_incremental_refuted known L inits hits : node_tube true known L inits hits = None.
  Proof.
    unfold StarCache.node_tube. destruct (check true known L inits hits) as [[c h]|]; [|reflexivity]. cbn [obind fst]. unfold tube_stars. cbn [obind]. destruct (snd c) as [|k l]; cbn [tube_loop]; [reflexivity|].
    destruct (nth_error inits 0); [|reflexivity]. cbn [obind]. destruct (if 1 <? _ then _ else _); [|reflexivity]. cbn [obind]. destruct (calc_reach_tube s0); reflexivity.
  Qed.
  (** C124 (refuted: a lookup works whatever was computed before).  It raises as soon as there is an entry for the agent and
      mode, and for segments of several stars. *)
  Theorem C124_known_refuted L inits hits : inits <> [] -> check true true L inits hits = None.
  Proof.
    intros N. unfold check_cache_stars. destruct (seg_starts (length inits) L) as [idxs|] eqn:E; [|reflexivity]. cbn [obind]. destruct (check_loop star tube true true L inits idxs [] hits) as [r|] eqn:H; [|reflexivity].
    destruct (loop_spec _ _ _ _ _ _ _ _ H) as (_ & K & _). exfalso. assert (I : idxs <> []). { intros ->. apply starts_spec in E. discriminate (proj2 (E 0 0)). split; [reflexivity|destruct inits; [contradiction|cbn; lia]]. }
    discriminate (K I eq_refl).
  Qed.
  Theorem C124_several_refuted inc known L s1 s2 inits hits : 2 <= L -> check inc known L (s1 :: s2 :: inits) hits = None.
  Proof.
    intros HL. unfold check_cache_stars. destruct (seg_starts _ L) as [idxs|] eqn:E; [|reflexivity]. cbn [obind]. destruct (check_loop star tube inc known L (s1 :: s2 :: inits) idxs [] hits) as [r|] eqn:H; [|reflexivity].
    destruct (loop_spec _ _ _ _ _ _ _ _ H) as (_ & _ & K). exfalso. apply starts_spec in E. assert (I : In 0 idxs) by (apply (nth_error_In _ 0), E; split; [reflexivity|cbn; lia]). specialize (K 0 I). destruct L as [|[|L]]; cbn in K; lia.
  Qed.
  (** C124.  Without [incremental] the node's tube is that of the combined stars, for up to L of them. *)
  Theorem C124_plain known L inits hits s0 : nth_error inits 0 = Some s0 -> length inits <= L ->
    node_tube false known L inits hits = (do s <- (if 1 <? length inits then combine_stars inits else Some s0); do t <- calc_reach_tube s; Some (t, hits)).
  Proof.
    intros N Ls. unfold StarCache.node_tube, tube_stars. assert (P : 0 < length inits) by (destruct inits; [discriminate|cbn; lia]). destruct L as [|m]; [lia|]. unfold seg_starts.
    assert (D : (length inits + (S m - 1)) / S m = 1). { symmetry. apply (Nat.div_unique _ _ 1 (length inits - 1)); lia. }
    rewrite D. cbn [seq map Nat.mul obind tube_loop skipn]. rewrite firstn_all2 by exact Ls. rewrite N. cbn [obind]. destruct (if 1 <? length inits then combine_stars inits else Some s0); [|reflexivity]. cbn [obind]. destruct (calc_reach_tube s); reflexivity.
  Qed.
End StarCache.
Print Assumptions C124_lookup_partial.
Print Assumptions C124_lookup_first.
Print Assumptions C124_incremental_refuted.
Print Assumptions C124_known_refuted.
Print Assumptions C124_several_refuted.
Print Assumptions C124_plain.
Module Example_star_cache.
  (** Stars and tubes are numbers here; three stars in segments of one. *)
  Example lookup : check_cache_stars nat nat true false 1 [7; 8; 9] (2, 5) = Some (None, [0; 1; 2], (2, 8)).
  Proof. reflexivity. Qed.
  Example plain : node_tube nat nat (fun l => Some (fold_right Nat.max 0 l)) (fun s => Some (10 * s)) false false 1000 [7; 9; 8] (0, 0) = Some (90, (0, 0)).
  Proof. rewrite (C124_plain _ _ _ _ _ _ _ _ 7); cbn; [reflexivity|reflexivity|lia]. Qed.
End Example_star_cache.
