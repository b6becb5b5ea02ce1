(** Proofs about tubes of stars. *)
From Coq Require Import Lqa.
From Verif Require Import Base BaseFacts Star StarSpec StarProofs StarMain.
Set Implicit Arguments.
Open Scope nat_scope.

Lemma mapM_nth_seq {B} (f : nat -> option B) N (h : nat -> B) : (forall k, k < N -> f k = Some (h k)) -> mapM f (seq 0 N) = Some (map h (seq 0 N)).
Proof.
  intros H. assert (G : forall i m, i + m <= N -> mapM f (seq i m) = Some (map h (seq i m))).
  { intros i m. revert i. induction m as [|m IH]; intros i L; [reflexivity|]. cbn [seq mapM map]. rewrite (H i) by lia. cbn [obind]. rewrite (IH (S i)) by lia. reflexivity. }
  apply G. lia.
Qed.
Lemma nth_error_map_seq {B} (h : nat -> B) N k : k < N -> nth_error (map h (seq 0 N)) k = Some (h k).
Proof. intros H. rewrite nth_error_map. rewrite (nth_error_nth' (seq 0 N) 0) by (rewrite seq_length; exact H). rewrite seq_nth by exact H. reflexivity. Qed.

Lemma linear_tube_image n N tm sim s : wf_star s -> dim s = n -> affine_sim n N tm sim ->
  exists tube, calc_reach_tube_linear sim s = Some tube /\ length tube = N /\
    forall k, k < N -> exists s', nth_error tube k = Some (tm k, s') /\ image (state_at sim k) s = Some s'.
Proof.
  intros W Dn Sm. pose proof W as (W1 & W2 & W3).
  assert (Lc : length (sim (center s)) = N) by (apply Sm; exact Dn).
  set (st := fun x k => match state_at sim k x with Some y => y | None => [] end).
  assert (Hst : forall x k, length x = n -> k < N -> nth_error (sim x) k = Some (tm k :: st x k) /\ state_at sim k x = Some (st x k) /\ length (st x k) = n).
  { intros x k Lx Hk. destruct (Sm x Lx) as [_ H]. destruct (H k Hk) as ((M & b & _ & _ & _ & Ha) & y & Ey). destruct (Ha x Lx) as (y' & E1 & L1 & _). unfold st. rewrite E1. unfold state_at in E1. rewrite Ey in E1. injection E1 as ->. auto. }
  assert (Lv : forall v, In v (basis s) -> length (vadd (center s) v) = n) by (intros v Hv; rewrite vadd_len; [exact Dn|symmetry; apply W1; exact Hv]).
  set (diff := fun k v => vsub (st (vadd (center s) v) k) (st (center s) k)).
  assert (Runs : mapM (fun v => if length v =? length (center s) then let new_x := sim (vadd (center s) v) in
      mapM (fun j => do r <- nth_error new_x j; do c <- nth_error (sim (center s)) j; if length (tl r) =? length (tl c) then Some (vsub (tl r) (tl c)) else None) (seq 0 (length new_x)) else None) (basis s)
    = Some (map (fun v => map (fun k => diff k v) (seq 0 N)) (basis s))).
  { clear W W2 W3. induction (basis s) as [|v vs IH]; [reflexivity|]. cbn [mapM map]. rewrite (W1 v) by (cbn; auto). unfold dim. rewrite Nat.eqb_refl. cbv zeta.
    assert (Lx : length (vadd (center s) v) = n) by (apply Lv; cbn; auto). destruct (Sm _ Lx) as [-> _].
    rewrite (@mapM_nth_seq _ _ N (fun k => diff k v)).
    - cbn [obind]. unfold dim in IH. cbv zeta in IH. rewrite IH by (intros; (apply W1 || apply Lv); cbn; auto). reflexivity.
    - intros k Hk. destruct (Hst _ k Lx Hk) as (-> & _ & L1). destruct (Hst _ k Dn Hk) as (-> & _ & L2). cbn [obind tl]. rewrite L1, L2, Nat.eqb_refl. reflexivity. }
  unfold calc_reach_tube_linear. cbv zeta in Runs |- *. rewrite Runs. cbn [obind]. rewrite Lc.
  assert (Mk : forall k, k < N -> mk_star (st (center s) k) (map (diff k) (basis s)) (C s) (g s) = Some (Star (st (center s) k) (map (diff k) (basis s)) (C s) (g s))).
  { intros k Hk. apply mk_star_some; [|rewrite map_length; exact W2|exact W3]. intros v Hv. apply in_map_iff in Hv. destruct Hv as (u & <- & Hu). unfold diff. destruct (Hst _ k (Lv u Hu) Hk) as (_ & _ & L1). destruct (Hst _ k Dn Hk) as (_ & _ & L2). rewrite vsub_len; congruence. }
  rewrite (@mapM_nth_seq _ _ N (fun k => (tm k, Star (st (center s) k) (map (diff k) (basis s)) (C s) (g s)))).
  - eexists. split; [reflexivity|]. split; [rewrite map_length, seq_length; reflexivity|]. intros k Hk. eexists. rewrite nth_error_map_seq by exact Hk. split; [reflexivity|].
    unfold image. destruct (Hst _ k Dn Hk) as (_ & -> & L2). cbn [obind].
    assert (E : mapM (fun v => if length v =? length (center s) then do new_x <- state_at sim k (vadd (center s) v); (if (length new_x =? length (st (center s) k)) && (length new_x =? length (center s)) then Some (vsub new_x (st (center s) k)) else None) else None) (basis s) = Some (map (diff k) (basis s))).
    { clear Runs Mk W W2 W3. induction (basis s) as [|v vs IH]; [reflexivity|]. cbn [mapM map]. rewrite (W1 v) by (cbn; auto). unfold dim. rewrite Nat.eqb_refl.
      destruct (Hst _ k (Lv v ltac:(cbn; auto)) Hk) as (_ & -> & L1). cbn [obind]. unfold dim in Dn. rewrite L1, L2, Dn, Nat.eqb_refl. cbn [andb obind]. rewrite L2, Dn in IH. rewrite IH by (intros; (apply W1 || apply Lv); cbn; auto). reflexivity. }
    rewrite E. cbn [obind]. unfold superposition. rewrite map_length, Nat.eqb_refl. apply Mk. exact Hk.
  - intros k Hk. destruct (Hst _ k Dn Hk) as (-> & _ & L2). cbn [obind hd_error tl].
    assert (E : mapM (fun run => nth_error run k) (map (fun v => map (fun k => diff k v) (seq 0 N)) (basis s)) = Some (map (diff k) (basis s))).
    { clear Runs Mk W W1 W2 W3 Lv. induction (basis s) as [|v vs IH]; [reflexivity|]. cbn [map mapM]. rewrite nth_error_map_seq by exact Hk. cbn [obind]. rewrite IH. reflexivity. }
    rewrite E. cbn [obind]. unfold superposition. rewrite map_length, Nat.eqb_refl, Mk by exact Hk. reflexivity.
Qed.

Section Tubes.
  Variable linprog : bool -> vec -> list vec -> vec -> lp.
  Variable bloat : vec * vec -> list vec.

  Lemma pair_rows_spec tb : forall n, length tb = 2 * n -> exists ps, pair_rows tb = Some ps /\ length ps = n /\
    forall k p, nth_error ps k = Some p -> nth_error tb (2 * k) = Some (fst p) /\ nth_error tb (2 * k + 1) = Some (snd p).
  Proof.
    assert (G : forall m tb, length tb <= m -> forall n, length tb = 2 * n -> exists ps, pair_rows tb = Some ps /\ length ps = n /\
      forall k p, nth_error ps k = Some p -> nth_error tb (2 * k) = Some (fst p) /\ nth_error tb (2 * k + 1) = Some (snd p)).
    { induction m as [|m IH]; intros [|a [|b l]] Lm n L; cbn [length] in *; try lia.
      - exists []. split; [reflexivity|]. split; [cbn; lia|]. intros [|k]; discriminate.
      - exists []. split; [reflexivity|]. split; [cbn; lia|]. intros [|k]; discriminate.
      - destruct (IH l ltac:(lia) (n - 1) ltac:(lia)) as (ps & E & Lp & H). exists ((a, b) :: ps). cbn [pair_rows]. rewrite E. split; [reflexivity|]. split; [cbn; lia|].
        intros [|k] p Ek; cbn [nth_error] in Ek; [injection Ek as <-; split; reflexivity|]. destruct (H k p Ek) as [H1 H2]. replace (2 * S k) with (S (S (2 * k))) by lia. split; [exact H1|exact H2]. }
    intros n. apply (G (length tb)). lia.
  Qed.

  Lemma box_tube_spec n N s tb : 0 < n -> overapprox_rectangle linprog s <> None ->
    (forall r, overapprox_rectangle linprog s = Some r -> bloat r = tb) -> length tb = 2 * N ->
    (forall k r, nth_error tb k = Some r -> length r = S n) ->
    exists tube, calc_reach_tube linprog bloat s = Some tube /\ length tube = N /\
      forall k, k < N -> exists t st, nth_error tube k = Some (t, st) /\ nth_error (map (hd 0%Q) tb) (2 * k) = Some t /\ wf_star st /\ forall x, in_star st x <-> box_at_step tb k x.
  Proof.
    intros Hn Hr Hb Lt Rw. unfold calc_reach_tube. destruct (overapprox_rectangle linprog s) as [r|]; [|congruence]. cbn [obind]. rewrite (Hb r eq_refl).
    destruct (pair_rows_spec tb N Lt) as (ps & -> & Lp & Hp). cbn [obind].
    assert (K : forall p, In p ps -> exists t1 lo t2 hi st, p = (t1 :: lo, t2 :: hi) /\ length lo = n /\ length hi = n /\ rect_to_star lo hi = Some st /\ wf_star st /\ forall x, in_star st x <-> in_box lo hi x).
    { intros p Hin. apply In_nth_error in Hin. destruct Hin as (k & Hk). destruct (Hp k p Hk) as [E1 E2]. destruct p as [p1 p2]. cbn [fst snd] in *. pose proof (Rw _ _ E1) as L1. pose proof (Rw _ _ E2) as L2.
      destruct p1 as [|t1 lo]; [discriminate|]. destruct p2 as [|t2 hi]; [discriminate|]. cbn in L1, L2. exists t1, lo, t2, hi.
      assert (NE : combine lo hi <> []) by (destruct lo, hi; cbn in *; try lia; discriminate). destruct (box_star NE) as (st & E & Wst & _ & _ & H). exists st. split; [reflexivity|]. split; [lia|]. split; [lia|]. split.
      - unfold rect_to_star. replace (length lo) with (length hi) by lia. rewrite Nat.eqb_refl. exact E.
      - split; [exact Wst|]. intros x. rewrite H.
        assert (M : map fst (combine lo hi) = lo /\ map snd (combine lo hi) = hi). { clear - L1 L2. assert (length lo = length hi) by lia. clear L1 L2. revert hi H. induction lo as [|a lo IH]; intros [|b hi] H; cbn in *; try lia; [auto|]. destruct (IH hi ltac:(lia)) as [-> ->]. auto. }
        destruct M as [-> ->]. reflexivity. }
    match goal with |- context [mapM ?f ps] => destruct (mapM_all f ps) as (tube & E) end.
    { intros p Hin. destruct (K p Hin) as (t1 & lo & t2 & hi & st & -> & _ & _ & Es & _). cbn [fst snd hd_error obind tl]. rewrite Es. eexists. reflexivity. }
    exists tube. split; [exact E|]. split; [rewrite (mapM_length _ _ E); exact Lp|]. intros k Hk. apply mapM_Forall2 in E.
    destruct (nth_error ps k) as [p|] eqn:Ep; [|apply nth_error_None in Ep; lia]. destruct (Forall2_nth_l k E Ep) as (q & Eq & Hq). destruct (Hp k p Ep) as [E1 E2].
    destruct (K p (nth_error_In _ _ Ep)) as (t1 & lo & t2 & hi & st & -> & L1 & L2 & Es & Ws & H). cbn [fst snd hd_error obind tl] in *. rewrite Es in Hq. cbn [obind] in Hq. injection Hq as <-.
    exists t1, st. split; [exact Eq|]. split; [rewrite nth_error_map, E1; reflexivity|]. split; [exact Ws|]. intros x. rewrite H. unfold box_at_step. split.
    - intros B. exists t1, lo, t2, hi. auto.
    - intros (a & l & b & h & F1 & F2 & B). rewrite E1 in F1. rewrite E2 in F2. injection F1 as <- <-. injection F2 as <- <-. exact B.
  Qed.
End Tubes.
