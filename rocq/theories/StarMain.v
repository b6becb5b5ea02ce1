(** Proofs about the star operations that call a solver. *)
From Coq Require Import Lqa Qabs.
From Verif Require Import Base BaseFacts Star StarSpec StarProofs.
Set Implicit Arguments.
Open Scope nat_scope.

Lemma mapM_all {A B} (f : A -> option B) l : (forall a, In a l -> exists b, f a = Some b) -> exists bs, mapM f l = Some bs.
Proof.
  induction l as [|a l IH]; intros H; [exists []; reflexivity|]. destruct (H a (or_introl eq_refl)) as (b & E). destruct IH as (bs & Eb); [intros; apply H; cbn; auto|]. exists (b :: bs). cbn [mapM]. rewrite E, Eb. reflexivity.
Qed.

Lemma nth_fst i (ms : list (Q * Q)) : nth i (map fst ms) 0%Q = fst (nth i ms (0, 0)%Q).
Proof. change 0%Q with (fst (0, 0)%Q) at 1. apply map_nth. Qed.
Lemma nth_snd i (ms : list (Q * Q)) : nth i (map snd ms) 0%Q = snd (nth i ms (0, 0)%Q).
Proof. change 0%Q with (snd (0, 0)%Q) at 1. apply map_nth. Qed.

Section Solvers.
  Variable linprog : bool -> vec -> list vec -> vec -> lp.

  Lemma column_len i b : length (column i b) = length b.
  Proof. unfold column. apply map_length. Qed.

  Lemma inner_bound q c al : (0 <= q)%Q -> Forall (fun a => - q <= a <= q)%Q al -> exists k, (- k <= inner c al)%Q /\ (k == q * fold_right (fun x y => Qabs x + y) 0 c)%Q.
  Proof.
    intros Hq H. exists (q * fold_right (fun x y => Qabs x + y) 0 c)%Q. split; [|reflexivity].
    revert al H. induction c as [|x c IH]; intros al H; cbn [fold_right]; [cbn; lra|].
    assert (Hp : (0 <= fold_right (fun x y => Qabs x + y) 0 c)%Q). { clear. induction c; cbn; [lra|]. pose proof (Qabs_nonneg a). lra. }
    pose proof (Qabs_nonneg x) as Hx.
    destruct al as [|a al]; [cbn; nra|]. inversion H as [|? ? Ha Hal]; subst. cbn [inner]. specialize (IH al Hal).
    assert (- (q * Qabs x) <= x * a)%Q. { destruct (Qlt_le_dec x 0); [rewrite (Qabs_neg x) by lra|rewrite (Qabs_pos x) by lra]; nra. }
    lra.
  Qed.

  Lemma max_min_ok s i lo hi : wf_star s -> solves linprog s -> i < dim s -> get_max_min linprog s i = Some (lo, hi) ->
    (forall x, in_star s x -> lo <= nth i x 0 /\ nth i x 0 <= hi)%Q /\
    (exists x, in_star s x /\ (nth i x 0 == lo)%Q) /\ (exists x, in_star s x /\ (nth i x 0 == hi)%Q).
  Proof.
    intros W Sv Hi. pose proof W as (W1 & W2 & W3). unfold get_max_min, run_lp. rewrite (proj2 (Nat.ltb_lt _ _) Hi).
    assert (R : forall c : vec, length c = gens s -> all_len (length c) (C s) && (length (g s) =? length (C s)) = true).
    { intros c Lc. rewrite W3, Nat.eqb_refl, andb_true_r. apply all_len_iff. intros r Hr. rewrite Lc. apply W2. exact Hr. }
    assert (L1 : length (column i (basis s)) = gens s) by apply column_len. assert (L2 : length (vopp (column i (basis s))) = gens s) by (unfold vopp; rewrite map_length; exact L1).
    rewrite (R _ L1), (R _ L2). cbn [obind]. pose proof (Sv _ L1) as S1. pose proof (Sv _ L2) as S2. unfold exact_lp in S1, S2.
    destruct (linprog true (column i (basis s)) (C s) (g s)) as [x1| |]; try discriminate. destruct (linprog true (vopp (column i (basis s))) (C s) (g s)) as [x2| |]; try discriminate.
    intros E. injection E as <- <-. rewrite !dot_inner. destruct S1 as (A1 & (A2 & _) & A3). destruct S2 as (B1 & (B2 & _) & B3). split; [|split].
    - intros x (al & La & O & Px & P). rewrite (P i Hi). change (map (fun v => nth i v 0%Q) (basis s)) with (column i (basis s)).
      assert (Fe : feasible true (C s) (g s) al) by (split; [exact O|discriminate]). specialize (A3 al ltac:(congruence) Fe). specialize (B3 al ltac:(congruence) Fe). rewrite !inner_opp in B3. rewrite (inner_comm al). lra.
    - exists (the_point s x1). split; [exists x1; split; [congruence|split; [exact A2|apply the_point_ok]]|]. destruct (the_point_ok s x1) as [_ P]. rewrite (P i Hi), inner_comm. reflexivity.
    - exists (the_point s x2). split; [exists x2; split; [congruence|split; [exact B2|apply the_point_ok]]|]. destruct (the_point_ok s x2) as [_ P]. rewrite (P i Hi), inner_comm. reflexivity.
  Qed.

  Lemma max_min_total s i : wf_star s -> solves linprog s -> bounded_star s -> (exists x, in_star s x) -> i < dim s -> exists m, get_max_min linprog s i = Some m.
  Proof.
    intros W Sv (q & Bq) (x & al & La & O & _) Hi. pose proof W as (W1 & W2 & W3). unfold get_max_min, run_lp. rewrite (proj2 (Nat.ltb_lt _ _) Hi).
    assert (R : forall c : vec, length c = gens s -> all_len (length c) (C s) && (length (g s) =? length (C s)) = true).
    { intros c Lc. rewrite W3, Nat.eqb_refl, andb_true_r. apply all_len_iff. intros r Hr. rewrite Lc. apply W2. exact Hr. }
    assert (Opt : forall c : vec, length c = gens s -> exists y, linprog true c (C s) (g s) = Optimal y).
    { intros c Lc. pose proof (Sv c Lc) as S1. unfold exact_lp in S1. destruct (linprog true c (C s) (g s)) as [y| |]; [exists y; reflexivity| |]; exfalso.
      - apply (S1 al); [congruence|]. split; [exact O|discriminate].
      - set (q' := Qabs q). assert (Hq : (0 <= q')%Q) by apply Qabs_nonneg.
        destruct (S1 (- (q' * fold_right (fun x y => Qabs x + y) 0 c))%Q) as (y & Ly & (Oy & _) & Hy).
        assert (Fy : Forall (fun a => - q' <= a <= q')%Q y). { eapply Forall_impl; [|apply (Bq y); [congruence|exact Oy]]. cbn. intros a Ha. pose proof (Qle_Qabs q). unfold q'. lra. }
        destruct (inner_bound c Hq Fy) as (k & Hk & Ek). lra. }
    assert (L1 : length (column i (basis s)) = gens s) by apply column_len. assert (L2 : length (vopp (column i (basis s))) = gens s) by (unfold vopp; rewrite map_length; exact L1).
    rewrite (R _ L1), (R _ L2). cbn [obind]. destruct (Opt _ L1) as (y1 & ->). destruct (Opt _ L2) as (y2 & ->). eexists. reflexivity.
  Qed.

  Lemma rectangle_ok s lo hi : wf_star s -> solves linprog s -> overapprox_rectangle linprog s = Some (lo, hi) ->
    length lo = dim s /\ length hi = dim s /\ (forall x, in_star s x -> in_box lo hi x) /\
    forall i, i < dim s -> (exists x, in_star s x /\ (nth i x 0 == nth i lo 0)%Q) /\ (exists x, in_star s x /\ (nth i x 0 == nth i hi 0)%Q).
  Proof.
    intros W Sv. unfold overapprox_rectangle. destruct (mapM (get_max_min linprog s) (seq 0 (dim s))) as [ms|] eqn:E; [|discriminate]. cbn [obind]. intros H. injection H as <- <-.
    assert (L : length ms = dim s) by (rewrite (mapM_length _ _ E), seq_length; reflexivity). apply mapM_Forall2 in E.
    assert (N : forall i, i < dim s -> get_max_min linprog s i = Some (nth i (map fst ms) 0, nth i (map snd ms) 0)%Q).
    { intros i Hi. apply (proj1 (Forall2_nth_iff _ _ _ 0 (0, 0)%Q)) in E. destruct E as [_ E]. rewrite seq_length in E. specialize (E i Hi). rewrite seq_nth in E by exact Hi. cbn [Nat.add] in E. rewrite E. f_equal.
      rewrite nth_fst, nth_snd. destruct (nth i ms (0, 0)%Q); reflexivity. }
    rewrite !map_length. split; [exact L|]. split; [exact L|]. split.
    - intros x Hx. apply in_box_nth_iff. rewrite !map_length. assert (Lx : length x = dim s) by (destruct Hx as (al & _ & _ & P & _); exact P). split; [congruence|]. split; [reflexivity|]. intros i Hi. assert (Hi' : i < dim s) by lia. apply (max_min_ok W Sv Hi' (N i Hi')). exact Hx.
    - intros i Hi. apply (max_min_ok W Sv Hi (N i Hi)).
  Qed.

  Lemma rectangle_total s : wf_star s -> solves linprog s -> bounded_star s -> (exists x, in_star s x) -> exists r, overapprox_rectangle linprog s = Some r.
  Proof.
    intros W Sv B NE. unfold overapprox_rectangle. destruct (mapM_all (get_max_min linprog s) (seq 0 (dim s))) as (ms & ->); [|eexists; reflexivity].
    intros i Hi. apply in_seq in Hi. apply max_min_total; auto. lia.
  Qed.

  (** * combine_stars *)
  Definition widen (acc m : Q * Q) : Q * Q :=
    (if negb (Qle_bool (fst acc) (fst m)) then fst m else fst acc, if negb (Qle_bool (snd m) (snd acc)) then snd m else snd acc).
  Lemma widen_spec ms : forall acc r, fold_left widen ms acc = r ->
    (forall m, In m (acc :: ms) -> fst r <= fst m /\ snd m <= snd r)%Q /\ (exists m, In m (acc :: ms) /\ fst m = fst r) /\ (exists m, In m (acc :: ms) /\ snd m = snd r).
  Proof.
    induction ms as [|m ms IH]; intros acc r E; cbn [fold_left] in E.
    - subst r. split; [intros m [<-|[]]; lra|]. split; exists acc; cbn; auto.
    - destruct (IH _ _ E) as (A & (p & Hp & Ep) & (q & Hq & Eq)).
      assert (A0 := A (widen acc m) (or_introl eq_refl)). unfold widen in A0 at 1 2. cbn [fst snd] in A0.
      assert (B1 : (fst r <= fst acc /\ fst r <= fst m)%Q).
      { destruct A0 as [A0 _]. destruct (Qle_bool (fst acc) (fst m)) eqn:Q1; cbn [negb] in A0; [apply Qle_bool_iff in Q1; lra|]. assert (~ (fst acc <= fst m)%Q) by (intros X; apply Qle_bool_iff in X; congruence). lra. }
      assert (B2 : (snd acc <= snd r /\ snd m <= snd r)%Q).
      { destruct A0 as [_ A0]. destruct (Qle_bool (snd m) (snd acc)) eqn:Q1; cbn [negb] in A0; [apply Qle_bool_iff in Q1; lra|]. assert (~ (snd m <= snd acc)%Q) by (intros X; apply Qle_bool_iff in X; congruence). lra. }
      split; [|split].
      + intros k [<-|[<-|Hk]]; [lra|lra|apply A; cbn; auto].
      + destruct Hp as [<-|Hp]; [|exists p; cbn; auto]. unfold widen in Ep. cbn [fst] in Ep. destruct (negb (Qle_bool (fst acc) (fst m))); [exists m|exists acc]; cbn; auto.
      + destruct Hq as [<-|Hq]; [|exists q; cbn; auto]. unfold widen in Eq. cbn [snd] in Eq. destruct (negb (Qle_bool (snd m) (snd acc))); [exists m|exists acc]; cbn; auto.
  Qed.

  Lemma combine_ok stars s' n : stars <> [] -> 0 < n -> (forall s, In s stars -> wf_star s /\ dim s = n /\ solves linprog s) -> combine_stars linprog stars = Some s' ->
    wf_star s' /\ dim s' = n /\ gens s' = n /\ exists lo hi, length lo = n /\ length hi = n /\ (forall x, in_star s' x <-> in_box lo hi x) /\
      (forall s x, In s stars -> in_star s x -> in_box lo hi x) /\
      forall i, i < n -> (exists s x, In s stars /\ in_star s x /\ (nth i x 0 == nth i lo 0)%Q) /\ (exists s x, In s stars /\ in_star s x /\ (nth i x 0 == nth i hi 0)%Q).
  Proof.
    intros NE Hn HS. unfold combine_stars. destruct stars as [|s0 stars]; [contradiction|]. cbn [hd_error obind].
    assert (D0 : dim s0 = n) by (apply HS; cbn; auto). rewrite D0. set (all := s0 :: stars) in *.
    destruct (mapM _ (seq 0 n)) as [rect|] eqn:E; [|discriminate]. cbn [obind]. intros Es.
    assert (L : length rect = n) by (rewrite (mapM_length _ _ E), seq_length; reflexivity). apply mapM_Forall2 in E.
    assert (N : forall i, i < n -> (forall s x, In s all -> in_star s x -> fst (nth i rect (0, 0)) <= nth i x 0 /\ nth i x 0 <= snd (nth i rect (0, 0)))%Q /\
       (exists s x, In s all /\ in_star s x /\ (nth i x 0 == fst (nth i rect (0, 0)))%Q) /\ (exists s x, In s all /\ in_star s x /\ (nth i x 0 == snd (nth i rect (0, 0)))%Q)).
    { intros i Hi. apply (proj1 (Forall2_nth_iff _ _ _ 0 (0, 0)%Q)) in E. destruct E as [_ E]. rewrite seq_length in E. specialize (E i Hi). rewrite seq_nth in E by exact Hi. cbn [Nat.add] in E.
      destruct (mapM (fun s => get_max_min linprog s i) all) as [ms|] eqn:Em; [|discriminate]. cbn [obind] in E. apply mapM_Forall2 in Em. destruct ms as [|m0 rest]; [discriminate|]. injection E as E.
      change (fold_left widen rest m0 = nth i rect (0, 0)%Q) in E. destruct (widen_spec rest m0 E) as (A & B & D).
      assert (G : forall s m, In s all -> get_max_min linprog s i = Some m -> (forall x, in_star s x -> fst m <= nth i x 0 /\ nth i x 0 <= snd m)%Q /\ (exists x, in_star s x /\ (nth i x 0 == fst m)%Q) /\ (exists x, in_star s x /\ (nth i x 0 == snd m)%Q)).
      { intros s [a b] Hs Hm. destruct (HS s Hs) as (W & Ds & Sv). assert (Hi' : i < dim s) by lia. apply (max_min_ok W Sv Hi' Hm). }
      assert (F1 : forall s, In s all -> exists m, In m (m0 :: rest) /\ get_max_min linprog s i = Some m). { clear - Em. intros s Hs. induction Em as [|a b l l' H Em IH]; [destruct Hs|]. destruct Hs as [<-|Hs]; [exists b; cbn; auto|]. destruct (IH Hs) as (m & Hm & Em'). exists m; cbn; auto. }
      assert (F2 : forall m, In m (m0 :: rest) -> exists s, In s all /\ get_max_min linprog s i = Some m). { clear - Em. intros m Hm. induction Em as [|a b l l' H Em IH]; [destruct Hm|]. destruct Hm as [<-|Hm]; [exists a; cbn; auto|]. destruct (IH Hm) as (s & Hs & Es). exists s; cbn; auto. }
      split; [|split].
      - intros s x Hs Hx. destruct (F1 s Hs) as (m & Hm & Em'). destruct (G s m Hs Em') as (G1 & _). specialize (G1 x Hx). specialize (A m Hm). lra.
      - destruct B as (m & Hm & Eq). destruct (F2 m Hm) as (s & Hs & Es'). destruct (G s m Hs Es') as (_ & (x & Hx & Ex) & _). exists s, x. split; [exact Hs|]. split; [exact Hx|]. rewrite <- Eq. exact Ex.
      - destruct D as (m & Hm & Eq). destruct (F2 m Hm) as (s & Hs & Es'). destruct (G s m Hs Es') as (_ & _ & (x & Hx & Ex)). exists s, x. split; [exact Hs|]. split; [exact Hx|]. rewrite <- Eq. exact Ex. }
    assert (Rne : rect <> []) by (intros ->; cbn in L; lia). destruct (box_star Rne) as (s1 & E1 & W1 & D1 & G1 & H1). rewrite E1 in Es. injection Es as <-.
    split; [exact W1|]. split; [congruence|]. split; [congruence|]. exists (map fst rect), (map snd rect). rewrite !map_length. split; [exact L|]. split; [exact L|]. split; [exact H1|].
    assert (Ef : forall i, nth i (map fst rect) 0%Q = fst (nth i rect (0, 0)%Q)) by (intros i; change 0%Q with (fst (0, 0)%Q) at 1; apply map_nth).
    assert (Eh : forall i, nth i (map snd rect) 0%Q = snd (nth i rect (0, 0)%Q)) by (intros i; change 0%Q with (snd (0, 0)%Q) at 1; apply map_nth).
    split.
    - intros s x Hs Hx. apply in_box_nth_iff. rewrite !map_length. destruct (HS s Hs) as (_ & Ds & _). assert (Lx : length x = dim s) by (destruct Hx as (al & _ & _ & P & _); exact P). split; [congruence|]. split; [reflexivity|]. intros i Hi. rewrite Ef, Eh. assert (Hi' : i < n) by lia. apply (N i Hi') with (s := s); assumption.
    - intros i Hi. rewrite Ef, Eh. apply (N i Hi).
  Qed.

  Lemma combine_total stars n : stars <> [] -> 0 < n ->
    (forall s, In s stars -> wf_star s /\ dim s = n /\ solves linprog s /\ bounded_star s /\ exists x, in_star s x) -> exists s', combine_stars linprog stars = Some s'.
  Proof.
    intros NE Hn HS. unfold combine_stars. destruct stars as [|s0 stars]; [contradiction|]. cbn [hd_error obind]. assert (D0 : dim s0 = n) by (apply HS; cbn; auto). rewrite D0.
    match goal with |- context [mapM ?f (seq 0 n)] => destruct (mapM_all f (seq 0 n)) as (rect & E) end.
    - intros i Hi. apply in_seq in Hi. destruct (mapM_all (fun s => get_max_min linprog s i) (s0 :: stars)) as (ms & Em).
      + intros s Hs. destruct (HS s Hs) as (W & Ds & Sv & B & Ne). apply max_min_total; auto. lia.
      + rewrite Em. cbn [obind]. destruct ms as [|m ms]; [apply mapM_length in Em; discriminate|]. eexists. reflexivity.
    - rewrite E. cbn [obind]. assert (L : length rect = n) by (rewrite (mapM_length _ _ E), seq_length; reflexivity). assert (Rne : rect <> []) by (intros ->; cbn in L; lia). destruct (box_star Rne) as (s1 & E1 & _). exists s1. exact E1.
  Qed.

  (** * Emptiness *)
  Lemma empty_spec s : wf_star s -> gens s = dim s -> exact_lp linprog false (repeat 0%Q (dim s)) (C s) (g s) ->
    exists r, is_empty linprog s = Some r /\ (r = true <-> ~ exists al, length al = gens s /\ obeys (C s) (g s) al /\ Forall (Qle 0) al).
  Proof.
    intros (W1 & W2 & W3) GD Ex. unfold is_empty, is_feasible, run_lp. rewrite repeat_length.
    assert (R : all_len (dim s) (C s) = true) by (apply all_len_iff; intros r Hr; rewrite <- GD; apply W2; exact Hr). rewrite R, W3, Nat.eqb_refl. cbn [andb obind]. unfold exact_lp in Ex. rewrite repeat_length in Ex.
    destruct (linprog false (repeat 0%Q (dim s)) (C s) (g s)) as [x| |]; cbn [option_map negb].
    - exists false. split; [reflexivity|]. split; [discriminate|]. intros H. exfalso. apply H. destruct Ex as (L & (O & P) & _). exists x. split; [congruence|]. split; [exact O|apply P; reflexivity].
    - exists true. split; [reflexivity|]. split; [|reflexivity]. intros _ (al & La & O & P). apply (Ex al); [congruence|]. split; [exact O|intros _; exact P].
    - exfalso. destruct (Ex 0%Q) as (y & _ & _ & H). rewrite inner_zero in H. lra.
  Qed.

  Lemma not_in_star_iff s : (~ exists x, in_star s x) <-> ~ exists al, length al = gens s /\ obeys (C s) (g s) al.
  Proof.
    split; intros H.
    - intros (al & L & O). apply H. exists (the_point s al), al. split; [exact L|]. split; [exact O|apply the_point_ok].
    - intros (x & al & L & O & _). apply H. exists al. auto.
  Qed.
End Solvers.
