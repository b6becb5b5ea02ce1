From Verif Require Import Base BaseFacts Boxes BoxesSpec.
From Coq Require Import FinFun Lqa Qround Qfield.
Set Implicit Arguments.
Open Scope nat_scope.

(** ** Column folds *)
Lemma fold_zipw_length (f : Q -> Q -> Q) rs r d :
  length r = d -> (forall r', In r' rs -> length r' = d) -> length (fold_left (zipw f) rs r) = d.
Proof.
  revert r; induction rs as [|r' rs IH]; intros r H1 H2; simpl; auto.
  apply IH.
  - rewrite zipw_length, H1, H2 by (simpl; auto). lia.
  - intros; apply H2; simpl; auto.
Qed.

Section Fold.
  Variable f : Q -> Q -> Q.
  Variable le : Q -> Q -> Prop.
  Hypothesis le_refl : forall x, le x x.
  Hypothesis le_trans : forall x y z, le x y -> le y z -> le x z.
  Hypothesis f_l : forall x y, le (f x y) x.
  Hypothesis f_r : forall x y, le (f x y) y.
  Hypothesis f_case : forall x y, f x y = x \/ f x y = y.

  Lemma fold_zipw_spec rs r d :
    length r = d -> (forall r', In r' rs -> length r' = d) ->
    (forall r', In r' (r :: rs) -> forall i, i < d ->
       le (nth i (fold_left (zipw f) rs r) 0%Q) (nth i r' 0%Q)) /\
    (forall i, i < d -> exists r', In r' (r :: rs) /\ nth i (fold_left (zipw f) rs r) 0%Q = nth i r' 0%Q).
  Proof.
    revert r; induction rs as [|r1 rs IH]; intros r H1 H2; simpl.
    - split.
      + intros r' [<-|[]] i Hi. apply le_refl.
      + intros i Hi. exists r. auto.
    - assert (Hz : length (zipw f r r1) = d).
      { rewrite zipw_length, H1, (H2 r1) by (simpl; auto). lia. }
      destruct (IH (zipw f r r1) Hz) as [A B]; [intros; apply H2; simpl; auto|].
      assert (Hn : forall i, i < d -> nth i (zipw f r r1) 0%Q = f (nth i r 0%Q) (nth i r1 0%Q)).
      { intros i Hi. apply zipw_nth; [lia|]. rewrite (H2 r1) by (simpl; auto). lia. }
      split.
      + intros r' [<-|[<-|Hin]] i Hi.
        * eapply le_trans; [apply (A _ (or_introl eq_refl) i Hi)|]. rewrite Hn by auto. apply f_l.
        * eapply le_trans; [apply (A _ (or_introl eq_refl) i Hi)|]. rewrite Hn by auto. apply f_r.
        * apply A; simpl; auto.
      + intros i Hi. destruct (B i Hi) as (r' & [<-|Hin] & E).
        * rewrite Hn in E by auto. destruct (f_case (nth i r 0%Q) (nth i r1 0%Q)) as [C|C].
          -- exists r. split; auto. congruence.
          -- exists r1. split; auto. congruence.
        * exists r'. auto.
  Qed.
End Fold.

Lemma Qmin_case' x y : Qmin x y = x \/ Qmin x y = y.
Proof. unfold Qmin, GenericMinMax.gmin. destruct (x ?= y)%Q; auto. Qed.
Lemma Qmax_case' x y : Qmax x y = x \/ Qmax x y = y.
Proof. unfold Qmax, GenericMinMax.gmax. destruct (x ?= y)%Q; auto. Qed.

Lemma colmin_spec rows d : rows <> [] -> (forall r, In r rows -> length r = d) ->
  exists lo, colfold Qmin rows = Some lo /\ length lo = d /\
    (forall r, In r rows -> forall i, i < d -> (nth i lo 0 <= nth i r 0)%Q) /\
    (forall i, i < d -> exists r, In r rows /\ nth i lo 0%Q = nth i r 0%Q).
Proof.
  destruct rows as [|r rs]; [congruence|]. intros _ H. simpl. eexists; split; [reflexivity|].
  assert (H1 : length r = d) by (apply H; simpl; auto).
  assert (H2 : forall r', In r' rs -> length r' = d) by (intros; apply H; simpl; auto).
  split; [apply fold_zipw_length; auto|].
  exact (@fold_zipw_spec Qmin (fun x y => (x <= y)%Q) Qle_refl Qle_trans Q.le_min_l Q.le_min_r Qmin_case' rs r d H1 H2).
Qed.

Lemma colmax_spec rows d : rows <> [] -> (forall r, In r rows -> length r = d) ->
  exists hi, colfold Qmax rows = Some hi /\ length hi = d /\
    (forall r, In r rows -> forall i, i < d -> (nth i r 0 <= nth i hi 0)%Q) /\
    (forall i, i < d -> exists r, In r rows /\ nth i hi 0%Q = nth i r 0%Q).
Proof.
  destruct rows as [|r rs]; [congruence|]. intros _ H. simpl. eexists; split; [reflexivity|].
  assert (H1 : length r = d) by (apply H; simpl; auto).
  assert (H2 : forall r', In r' rs -> length r' = d) by (intros; apply H; simpl; auto).
  split; [apply fold_zipw_length; auto|].
  refine (@fold_zipw_spec Qmax (fun x y => (y <= x)%Q) Qle_refl _ Q.le_max_l Q.le_max_r Qmax_case' rs r d H1 H2).
  intros x y z A B. eapply Qle_trans; eauto.
Qed.

Lemma same_len_ok rows d : (forall r, In r rows -> length r = d) -> same_len rows = true.
Proof.
  intros H. destruct rows as [|r rs]; simpl; auto. apply forallb_forall. intros r' Hr'.
  apply Nat.eqb_eq. rewrite (H r), (H r'); simpl; auto.
Qed.

Lemma box_le_nth lo1 hi1 lo2 hi2 :
  box_le lo1 hi1 lo2 hi2 <->
  length hi1 = length lo1 /\ length lo2 = length lo1 /\ length hi2 = length lo1 /\
  forall i, i < length lo1 -> (nth i lo2 0 <= nth i lo1 0 /\ nth i hi1 0 <= nth i hi2 0)%Q.
Proof.
  revert hi1 lo2 hi2; induction lo1 as [|a lo1 IH]; intros [|b hi1] [|c lo2] [|d hi2]; simpl; split;
    try tauto; try (intros (A & B & C & _); lia).
  - intros _. repeat split; auto; lia.
  - intros [H1 H2]. apply IH in H2. destruct H2 as (A & B & C & D).
    split; [lia|]. split; [lia|]. split; [lia|]. intros [|i] Hi; auto. apply D; lia.
  - intros (A & B & C & D). split; [exact (D 0 ltac:(lia))|].
    apply IH. repeat (split; [lia|]). intros i Hi. exact (D (S i) ltac:(lia)).
Qed.

Lemma hull_from_cols bs d lo hi :
  dim_ok d bs ->
  length lo = d -> length hi = d ->
  (forall r, In r (map fst bs) -> forall i, i < d -> (nth i lo 0 <= nth i r 0)%Q) ->
  (forall i, i < d -> exists r, In r (map fst bs) /\ nth i lo 0%Q = nth i r 0%Q) ->
  (forall r, In r (map snd bs) -> forall i, i < d -> (nth i r 0 <= nth i hi 0)%Q) ->
  (forall i, i < d -> exists r, In r (map snd bs) /\ nth i hi 0%Q = nth i r 0%Q) ->
  is_hull bs lo hi.
Proof.
  intros Hd L1 L2 A B C D. split; [|split].
  - intros b Hb. destruct (Hd b Hb) as [E1 E2]. apply box_le_nth. repeat split; try lia.
    + apply A; [apply in_map; auto|lia].
    + apply C; [apply in_map; auto|lia].
  - intros i Hi. destruct (B i ltac:(lia)) as (r & Hr & E). apply in_map_iff in Hr.
    destruct Hr as (b & <- & Hb). eauto.
  - intros i Hi. destruct (D i ltac:(lia)) as (r & Hr & E). apply in_map_iff in Hr.
    destruct Hr as (b & <- & Hb). eauto.
Qed.

Lemma combine_all_hull bs d : bs <> [] -> dim_ok d bs ->
  exists lo hi, combine_all bs = Some (lo, hi) /\ is_hull bs lo hi /\ length lo = d /\ length hi = d.
Proof.
  intros Hne Hd. unfold combine_all.
  rewrite (@same_len_ok _ d).
  2:{ intros r Hr. apply in_app_iff in Hr. destruct Hr as [Hr|Hr]; apply in_map_iff in Hr;
      destruct Hr as (b & <- & Hb); apply Hd in Hb; tauto. }
  destruct (@colmin_spec (map fst bs) d) as (lo & E1 & L1 & A1 & B1).
  { destruct bs; simpl; congruence. }
  { intros r Hr. apply in_map_iff in Hr. destruct Hr as (b & <- & Hb). apply Hd in Hb; tauto. }
  destruct (@colmax_spec (map snd bs) d) as (hi & E2 & L2 & A2 & B2).
  { destruct bs; simpl; congruence. }
  { intros r Hr. apply in_map_iff in Hr. destruct Hr as (b & <- & Hb). apply Hd in Hb; tauto. }
  rewrite E1, E2. simpl. exists lo, hi. split; [reflexivity|]. split; [|auto].
  apply (@hull_from_cols bs d); auto.
Qed.

Lemma evens_rows_of bs : evens (rows_of bs) = map fst bs.
Proof.
  induction bs as [|[l h] bs IH]; [reflexivity|].
  change (rows_of ((l, h) :: bs)) with (l :: h :: rows_of bs). cbn [evens map fst]. rewrite IH. reflexivity.
Qed.
Lemma odds_rows_of bs : odds (rows_of bs) = map snd bs.
Proof.
  unfold odds. induction bs as [|[l h] bs IH]; [reflexivity|].
  destruct bs as [|[l' h'] bs]; [reflexivity|].
  change (rows_of ((l, h) :: (l', h') :: bs)) with (l :: h :: rows_of ((l', h') :: bs)).
  change (map snd ((l, h) :: (l', h') :: bs)) with (h :: map snd ((l', h') :: bs)).
  rewrite <- IH. reflexivity.
Qed.

Lemma In_rows_of r bs : In r (rows_of bs) <-> exists b, In b bs /\ (r = fst b \/ r = snd b).
Proof.
  unfold rows_of. rewrite in_flat_map. split.
  - intros (b & Hb & [H|[H|[]]]); exists b; auto.
  - intros (b & Hb & [H|H]); exists b; simpl; auto.
Qed.

Lemma combine_rect_hull bs d : bs <> [] -> dim_ok d bs ->
  exists lo hi, combine_rect (rows_of bs) = Some (lo, hi) /\ is_hull bs lo hi /\ length lo = d /\ length hi = d.
Proof.
  intros Hne Hd. unfold combine_rect.
  rewrite (@same_len_ok _ d).
  2:{ intros r Hr. apply In_rows_of in Hr. destruct Hr as (b & Hb & [->| ->]); apply Hd in Hb; tauto. }
  rewrite evens_rows_of, odds_rows_of.
  destruct (@combine_all_hull bs d Hne Hd) as (lo & hi & E & H).
  exists lo, hi. split; [|exact H]. unfold combine_all in E.
  destruct (same_len (map fst bs ++ map snd bs)); [exact E|discriminate].
Qed.

(** ** Union of traces *)
Lemma rows_of_nth_even bs k : nth_error (rows_of bs) (2 * k) = option_map fst (nth_error bs k).
Proof.
  revert k; induction bs as [|[l h] bs IH]; intros [|k]; simpl; auto.
  replace (k + S (k + 0)) with (S (2 * k)) by lia. simpl. apply IH.
Qed.
Lemma rows_of_nth_odd bs k : nth_error (rows_of bs) (2 * k + 1) = option_map snd (nth_error bs k).
Proof.
  revert k; induction bs as [|[l h] bs IH]; intros [|k]; simpl; auto.
  replace (k + S (k + 0) + 1) with (S (2 * k + 1)) by lia. simpl. apply IH.
Qed.
Lemma rows_of_length bs : length (rows_of bs) = 2 * length bs.
Proof. induction bs as [|b bs IH]; simpl; auto. rewrite IH. lia. Qed.

Lemma union_at_hull (ts : list (list (vec * vec))) d k :
  ts <> [] -> (forall t, In t ts -> dim_ok d t /\ k < length t) ->
  exists lo hi, union_at (map rows_of ts) k = Some [lo; hi] /\
    is_hull (map (fun t => nth k t ([], [])) ts) lo hi /\ length lo = d /\ length hi = d.
Proof.
  intros Hne H. unfold union_at.
  assert (E1 : mapM (fun t => nth_error t (2 * k)) (map rows_of ts)
               = Some (map fst (map (fun t => nth k t ([], [])) ts))).
  { clear Hne. induction ts as [|t ts IH]; auto. cbn [map mapM]. rewrite rows_of_nth_even.
    destruct (H t) as [_ Hk]; [simpl; auto|].
    rewrite (nth_error_nth' t ([], []) Hk). cbn [option_map obind].
    rewrite IH by (intros; apply H; simpl; auto). reflexivity. }
  assert (E2 : mapM (fun t => nth_error t (2 * k + 1)) (map rows_of ts)
               = Some (map snd (map (fun t => nth k t ([], [])) ts))).
  { clear Hne E1. induction ts as [|t ts IH]; auto. cbn [map mapM]. rewrite rows_of_nth_odd.
    destruct (H t) as [_ Hk]; [simpl; auto|].
    rewrite (nth_error_nth' t ([], []) Hk). cbn [option_map obind].
    rewrite IH by (intros; apply H; simpl; auto). reflexivity. }
  rewrite E1, E2. cbn [obind].
  set (bs := map (fun t => nth k t ([], [])) ts).
  assert (Hd : dim_ok d bs).
  { intros b Hb. unfold bs in Hb. apply in_map_iff in Hb. destruct Hb as (t & <- & Ht).
    destruct (H t Ht) as [Hd Hk]. apply Hd. apply nth_In; auto. }
  assert (Hbs : bs <> []). { unfold bs. destruct ts; simpl; congruence. }
  rewrite !(@same_len_ok _ d).
  2,3: intros r Hr; apply in_map_iff in Hr; destruct Hr as (b & <- & Hb); apply Hd in Hb; tauto.
  destruct (@combine_all_hull bs d Hbs Hd) as (lo & hi & E & Hh).
  unfold combine_all in E. destruct (same_len (map fst bs ++ map snd bs)); [|discriminate].
  destruct (colfold Qmin (map fst bs)) as [lo'|]; [|discriminate].
  destruct (colfold Qmax (map snd bs)) as [hi'|]; [|discriminate].
  simpl in E. injection E; intros <- <-. simpl. exists lo', hi'. auto.
Qed.

Lemma union_traces_hull (t0 : list (vec * vec)) ts d :
  (forall t, In t (t0 :: ts) -> dim_ok d t /\ length t0 <= length t) ->
  exists us, union_traces (map rows_of (t0 :: ts)) = Some (rows_of us) /\ length us = length t0 /\
    forall k, k < length t0 ->
      is_hull (map (fun t => nth k t ([], [])) (t0 :: ts)) (fst (nth k us ([], []))) (snd (nth k us ([], []))).
Proof.
  intros H. unfold union_traces. cbn [map].
  rewrite rows_of_length.
  replace (Nat.div2 (S (2 * length t0))) with (length t0) by (symmetry; apply Nat.div2_succ_double).
  change (rows_of t0 :: map rows_of ts) with (map rows_of (t0 :: ts)).
  assert (G : forall n, n <= length t0 -> exists us,
             mapM (union_at (map rows_of (t0 :: ts))) (seq 0 n) = Some (map (fun u => [fst u; snd u]) us) /\
             length us = n /\
             forall k, k < n ->
               is_hull (map (fun t => nth k t ([], [])) (t0 :: ts)) (fst (nth k us ([], []))) (snd (nth k us ([], [])))).
  { induction n as [|n IH]; intros Hn.
    - exists []. repeat split; auto; lia.
    - destruct IH as (us & E & L & Hk); [lia|].
      destruct (@union_at_hull (t0 :: ts) d n) as (lo & hi & Eu & Hh & _).
      { congruence. }
      { intros t Ht. destruct (H t Ht). split; auto. lia. }
      exists (us ++ [(lo, hi)]). split; [|split].
      + apply mapM_Forall2. rewrite seq_S. simpl. rewrite map_app.
        apply Forall2_app; [apply mapM_Forall2; exact E|]. constructor; [exact Eu|constructor].
      + rewrite app_length; simpl; lia.
      + intros k Hk'. destruct (Nat.eq_dec k n) as [->|Hne].
        * rewrite app_nth2 by lia. rewrite L, Nat.sub_diag. exact Hh.
        * rewrite app_nth1 by lia. apply Hk. lia. }
  destruct (G (length t0) (Nat.le_refl _)) as (us & E & L & Hk).
  exists us. rewrite E. simpl. split; [|split; auto].
  f_equal. unfold rows_of. rewrite flat_map_concat_map. reflexivity.
Qed.

(** ** Partition *)
Lemma varying_dims_spec lb ub dims :
  length ub = length lb -> (forall i, In i dims -> i < length lb) ->
  varying_dims lb ub dims
  = Some (filter (fun i => negb (Qeq_bool (nth i lb 0%Q) (nth i ub 0%Q))) dims).
Proof.
  intros HL. induction dims as [|i dims IH]; intros H; simpl; auto.
  assert (Hi : i < length lb) by (apply H; simpl; auto).
  rewrite (nth_error_nth' lb 0%Q Hi). rewrite (nth_error_nth' ub 0%Q) by lia. simpl.
  rewrite IH by (intros; apply H; simpl; auto). simpl.
  destruct (Qeq_bool (nth i lb 0%Q) (nth i ub 0%Q)); reflexivity.
Qed.

(** Bounds of the sub-interval with number [idx]. *)
Definition lo_at (l u : Q) (n idx : nat) : Q := (l + inject_Z (Z.of_nat idx) * ((u - l) / inject_Z (Z.of_nat n)))%Q.

Lemma fold_split lb ub n ps acc :
  length (fst acc) = length lb -> length (snd acc) = length lb ->
  let r := fold_left (split_dim lb ub n) ps acc in
  length (fst r) = length lb /\ length (snd r) = length lb /\
  (forall i, ~ In i (map fst ps) -> nth i (fst r) 0%Q = nth i (fst acc) 0%Q /\ nth i (snd r) 0%Q = nth i (snd acc) 0%Q) /\
  (forall i, In i (map fst ps) -> i < length lb ->
     exists idx, In (i, idx) ps /\ nth i (fst r) 0%Q = lo_at (nth i lb 0%Q) (nth i ub 0%Q) n idx /\
                 nth i (snd r) 0%Q = lo_at (nth i lb 0%Q) (nth i ub 0%Q) n (S idx)).
Proof.
  revert acc; induction ps as [|[d x] ps IH]; intros acc H1 H2; cbn [fold_left map fst In].
  - cbv zeta. repeat split; auto. intros i [].
  - set (acc1 := split_dim lb ub n acc (d, x)). cbv zeta.
    destruct (IH acc1) as (L1 & L2 & A & B).
    { unfold acc1; simpl. rewrite set_nth_length; auto. }
    { unfold acc1; simpl. rewrite set_nth_length; auto. }
    split; [exact L1|]. split; [exact L2|]. split.
    + intros i Hi. destruct (A i) as [A1 A2]; [tauto|].
      rewrite A1, A2. unfold acc1; simpl. rewrite !set_nth_other by tauto. auto.
    + intros i Hi Hlt. destruct (in_dec Nat.eq_dec i (map fst ps)) as [Hin|Hin].
      * destruct (B i Hin Hlt) as (idx & Hx & E). exists idx. auto.
      * destruct Hi as [Hd|Hi]; [subst d|contradiction].
        exists x. split; [auto|]. destruct (A i Hin) as [A1 A2]. rewrite A1, A2.
        unfold acc1; simpl. rewrite !set_nth_same by lia. auto.
Qed.

Lemma choose_index l u n x : 1 <= n -> (l < u)%Q -> (l <= x <= u)%Q ->
  exists idx, idx < n /\ (lo_at l u n idx <= x /\ x <= lo_at l u n (S idx))%Q.
Proof.
  intros Hn Hlu Hx.
  assert (Hnq : (0 < inject_Z (Z.of_nat n))%Q).
  { change 0%Q with (inject_Z 0). rewrite <- Zlt_Qlt. lia. }
  set (s := ((u - l) / inject_Z (Z.of_nat n))%Q).
  assert (Hns : (inject_Z (Z.of_nat n) * s == u - l)%Q).
  { unfold s. field. lra. }
  assert (G : forall m, m <= n -> (lo_at l u n m <= x)%Q \/
             exists idx, idx < m /\ (lo_at l u n idx <= x /\ x <= lo_at l u n (S idx))%Q).
  { induction m as [|m IH]; intros Hm.
    - left. unfold lo_at. fold s. change (inject_Z (Z.of_nat 0)) with 0%Q. lra.
    - destruct IH as [IH|(idx & H1 & H2)]; [lia| |right; exists idx; split; [lia|exact H2]].
      destruct (Qlt_le_dec x (lo_at l u n (S m))) as [H|H]; [|left; exact H].
      right. exists m. split; [lia|]. split; [exact IH|lra]. }
  destruct (G n (Nat.le_refl _)) as [H|H]; [|exact H].
  destruct n as [|n]; [lia|]. exists n. split; [lia|].
  assert (E : (lo_at l u (S n) (S n) == u)%Q).
  { unfold lo_at. fold s. rewrite Hns. lra. }
  split; [|lra].
  destruct (G n ltac:(lia)) as [H'|(idx & H1 & H2)]; [exact H'|].
  (* x = u, reached only if u <= x *)
  assert ((lo_at l u (S n) n <= lo_at l u (S n) (S n))%Q).
  { unfold lo_at. fold s. rewrite Nat2Z.inj_succ. unfold Z.succ. rewrite inject_Z_plus.
    assert (0 <= s)%Q.
    { unfold s. apply Qle_shift_div_l; [exact Hnq|]. lra. }
    change (inject_Z 1) with 1%Q. lra. }
  lra.
Qed.

Lemma lo_at_le l u n i j : 1 <= n -> (l <= u)%Q -> i <= j -> (lo_at l u n i <= lo_at l u n j)%Q.
Proof.
  intros Hn Hlu Hij. unfold lo_at.
  assert (Hnq : (0 < inject_Z (Z.of_nat n))%Q).
  { change 0%Q with (inject_Z 0). rewrite <- Zlt_Qlt. lia. }
  assert (0 <= (u - l) / inject_Z (Z.of_nat n))%Q.
  { apply Qle_shift_div_l; [exact Hnq|]. lra. }
  assert (inject_Z (Z.of_nat i) <= inject_Z (Z.of_nat j))%Q by (rewrite <- Zle_Qle; lia).
  assert (0 <= (inject_Z (Z.of_nat j) - inject_Z (Z.of_nat i)) * ((u - l) / inject_Z (Z.of_nat n)))%Q.
  { apply Qmult_le_0_compat; lra. }
  lra.
Qed.

Lemma lo_at_ends l u n : 1 <= n -> (lo_at l u n 0 == l /\ lo_at l u n n == u)%Q.
Proof.
  intros Hn. assert (Hnq : (0 < inject_Z (Z.of_nat n))%Q).
  { change 0%Q with (inject_Z 0). rewrite <- Zlt_Qlt. lia. }
  unfold lo_at. split.
  - change (inject_Z (Z.of_nat 0)) with 0%Q. field. lra.
  - field. lra.
Qed.

Definition split_dims (lb ub : vec) (pd : option (list nat)) : list nat :=
  filter (fun i => negb (Qeq_bool (nth i lb 0%Q) (nth i ub 0%Q)))
         (filter (fun d => negb (d =? 0)) match pd with None => seq 1 (length lb - 1) | Some ds => ds end).

Section Partition.
  Variables (lb ub : vec) (n : nat) (pd : option (list nat)).
  Hypothesis HL : length ub = length lb.
  Hypothesis Hbox : forall i, i < length lb -> (nth i lb 0 <= nth i ub 0)%Q.
  Hypothesis Hdims : forall ds, pd = Some ds -> forall i, In i ds -> i < length lb.
  Hypothesis Hn : 1 <= n.

  Let vd := split_dims lb ub pd.

  Lemma vd_lt i : In i vd -> i < length lb.
  Proof.
    unfold vd, split_dims. rewrite !filter_In. intros [[H _] _].
    destruct pd as [ds|]; [eapply Hdims; eauto|]. apply in_seq in H. lia.
  Qed.

  Lemma vd_lt' i : In i vd -> (nth i lb 0 < nth i ub 0)%Q.
  Proof.
    intros Hi. pose proof (vd_lt i Hi) as H. specialize (Hbox H).
    unfold vd, split_dims in Hi. rewrite !filter_In in Hi. destruct Hi as [_ Hi].
    apply negb_true_iff in Hi. apply Qeq_bool_neq in Hi.
    apply Qle_lteq in Hbox. destruct Hbox as [?|E]; auto. contradiction.
  Qed.

  Lemma partition_eq_raw :
    partition_rect (lb, ub) n pd =
    Some (match vd with
          | [] => [(lb, ub)]
          | _ => map (fun indices => fold_left (split_dim lb ub n) (combine vd indices) (lb, ub))
                     (product (repeat (seq 0 n) (length vd)))
          end).
  Proof.
    unfold partition_rect. rewrite varying_dims_spec; auto.
    - simpl. fold (split_dims lb ub pd). fold vd. destruct vd; reflexivity.
    - intros i Hi. apply filter_In in Hi. destruct Hi as [Hi _].
      destruct pd as [ds|]; [eapply Hdims; eauto|]. apply in_seq in Hi. lia.
  Qed.

  Lemma partition_nil : vd = [] -> partition_rect (lb, ub) n pd = Some [(lb, ub)].
  Proof. intros H. rewrite partition_eq_raw, H. reflexivity. Qed.

  Lemma partition_cons : vd <> [] -> partition_rect (lb, ub) n pd =
    Some (map (fun indices => fold_left (split_dim lb ub n) (combine vd indices) (lb, ub))
              (product (repeat (seq 0 n) (length vd)))).
  Proof. intros H. rewrite partition_eq_raw. destruct vd; [congruence|reflexivity]. Qed.

  Lemma vd_dec : {vd = []} + {vd <> []}.
  Proof. destruct vd; [left; reflexivity|right; congruence]. Qed.

  Definition piece (indices : list nat) := fold_left (split_dim lb ub n) (combine vd indices) (lb, ub).

  Lemma piece_spec indices : length indices = length vd -> (forall x, In x indices -> x < n) ->
    let r := piece indices in
    length (fst r) = length lb /\ length (snd r) = length lb /\
    (forall i, ~ In i vd -> nth i (fst r) 0%Q = nth i lb 0%Q /\ nth i (snd r) 0%Q = nth i ub 0%Q) /\
    (forall i, In i vd -> exists idx, In (i, idx) (combine vd indices) /\ idx < n /\
       nth i (fst r) 0%Q = lo_at (nth i lb 0%Q) (nth i ub 0%Q) n idx /\
       nth i (snd r) 0%Q = lo_at (nth i lb 0%Q) (nth i ub 0%Q) n (S idx)).
  Proof.
    intros Hlen Hx. unfold piece.
    assert (Hfst : map fst (combine vd indices) = vd).
    { clear -Hlen. revert indices Hlen; generalize vd; intros v; induction v as [|a v IH];
        intros [|b indices] H; simpl in *; try lia; auto. f_equal. apply IH; lia. }
    destruct (@fold_split lb ub n (combine vd indices) (lb, ub)) as (A & B & C & D); auto.
    rewrite Hfst in *. repeat split; auto; try apply C; auto.
    intros i Hi. destruct (D i Hi (vd_lt i Hi)) as (idx & H1 & H2 & H3).
    exists idx. repeat split; auto. apply Hx. eapply in_combine_r; eauto.
  Qed.

  Lemma in_product_seq indices :
    In indices (product (repeat (seq 0 n) (length vd))) <->
    length indices = length vd /\ forall x, In x indices -> x < n.
  Proof.
    rewrite In_product. generalize (length vd); intros k.
    revert indices; induction k as [|k IH]; intros indices; simpl.
    - split; [inversion 1; subst; simpl; split; [auto|intros ? []]|].
      intros [H _]. destruct indices; [constructor|simpl in H; lia].
    - split.
      + intros H. inversion H as [|y0 l0 ys ls0 Hy0 Hys]; subst. apply IH in Hys.
        destruct Hys as [A B]. split; [simpl; lia|].
        intros y [<-|Hy]; [apply in_seq in Hy0; lia|auto].
      + intros [A B]. destruct indices as [|y ys]; [simpl in A; lia|]. constructor.
        * apply in_seq. specialize (B y (or_introl eq_refl)). lia.
        * apply IH. simpl in A. split; [lia|]. intros; apply B; simpl; auto.
  Qed.

  Lemma partition_cover x : in_box lb ub x ->
    exists parts p, partition_rect (lb, ub) n pd = Some parts /\ In p parts /\ in_box (fst p) (snd p) x.
  Proof.
    intros Hx.
    pose proof Hx as Hx'. apply in_box_nth in Hx'. destruct Hx' as (La & Lb & Hi).
    destruct vd_dec as [Evd|Evd].
    - exists [(lb, ub)], (lb, ub). rewrite (partition_nil Evd). simpl. auto.
    - rewrite (partition_cons Evd).
      set (choice := fun i : nat => exists idx, idx < n /\
             (lo_at (nth i lb 0) (nth i ub 0) n idx <= nth i x 0 /\
              nth i x 0 <= lo_at (nth i lb 0) (nth i ub 0) n (S idx))%Q).
      (* choose one index per dimension, the same for repeated dimensions *)
      assert (G : forall v, (forall i, In i v -> In i vd) ->
                  exists indices : list nat, length indices = length v /\ (forall y, In y indices -> y < n) /\
                  forall i idx, In (i, idx) (combine v indices) ->
                    (lo_at (nth i lb 0) (nth i ub 0) n idx <= nth i x 0 /\
                     nth i x 0 <= lo_at (nth i lb 0) (nth i ub 0) n (S idx))%Q).
      { induction v as [|i v IH]; intros Hv.
        - exists []. simpl. repeat split; auto; intros; tauto.
        - destruct IH as (ids & A & B & C); [intros; apply Hv; simpl; auto|].
          assert (Hin : In i vd) by (apply Hv; simpl; auto).
          destruct (@choose_index (nth i lb 0%Q) (nth i ub 0%Q) n (nth i x 0%Q)) as (idx & H1 & H2); auto.
          { apply vd_lt'; auto. }
          { apply Hi. rewrite <- La. apply vd_lt; auto. }
          exists (idx :: ids). split; [simpl; lia|]. split.
          + intros y [<-|Hy]; auto.
          + intros j idx' [H|H]; [injection H; intros <- <-; exact H2|eauto]. }
      destruct (G vd (fun i H => H)) as (ids & A & B & C).
      eexists _, (piece ids). split; [reflexivity|]. split.
      + unfold piece. apply in_map_iff. exists ids. split; [reflexivity|].
        apply in_product_seq. auto.
      + destruct (@piece_spec ids A B) as (P1 & P2 & P3 & P4).
        apply in_box_nth. split; [lia|]. split; [lia|].
        intros i Hilt. destruct (in_dec Nat.eq_dec i vd) as [Hin|Hin].
        * destruct (P4 i Hin) as (idx & Hc & _ & E1 & E2). rewrite E1, E2. apply C; auto.
        * destruct (P3 i Hin) as [E1 E2]. rewrite E1, E2. apply Hi; auto.
  Qed.

  Lemma partition_pieces parts : partition_rect (lb, ub) n pd = Some parts ->
    (forall p, In p parts ->
       box_le (fst p) (snd p) lb ub /\
       (forall i, ~ In i vd -> nth i (fst p) 0%Q = nth i lb 0%Q /\ nth i (snd p) 0%Q = nth i ub 0%Q) /\
       (forall i, In i vd -> (nth i (snd p) 0 - nth i (fst p) 0 == (nth i ub 0 - nth i lb 0) / inject_Z (Z.of_nat n))%Q)) /\
    length parts = n ^ length vd.
  Proof.
    destruct vd_dec as [Evd|Evd].
    - rewrite (partition_nil Evd). intros [= <-]. rewrite Evd.
      split; [|simpl; auto]. intros p [<-|[]]. simpl. split; [apply box_le_refl; auto|].
      split; auto. intros i [].
    - rewrite (partition_cons Evd). intros [= <-]. split.
      + intros p Hp. apply in_map_iff in Hp. destruct Hp as (ids & <- & Hids).
        apply in_product_seq in Hids. destruct Hids as [A B].
        fold (piece ids).
        destruct (@piece_spec ids A B) as (P1 & P2 & P3 & P4). split; [|split; [exact P3|]].
        * apply box_le_nth. split; [lia|]. split; [lia|]. split; [lia|].
          intros i Hi. destruct (in_dec Nat.eq_dec i vd) as [Hin|Hin].
          -- destruct (P4 i Hin) as (idx & _ & Hidx & E1 & E2). rewrite E1, E2.
             assert (Hle : (nth i lb 0 <= nth i ub 0)%Q) by (apply Hbox; lia).
             destruct (@lo_at_ends (nth i lb 0%Q) (nth i ub 0%Q) n Hn) as [F1 F2].
             pose proof (@lo_at_le (nth i lb 0%Q) (nth i ub 0%Q) n 0 idx Hn Hle ltac:(lia)).
             pose proof (@lo_at_le (nth i lb 0%Q) (nth i ub 0%Q) n (S idx) n Hn Hle ltac:(lia)).
             lra.
          -- destruct (P3 i Hin) as [E1 E2]. rewrite E1, E2. split; apply Qle_refl.
        * intros i Hin. destruct (P4 i Hin) as (idx & _ & Hidx & E1 & E2). rewrite E1, E2.
          unfold lo_at. rewrite Nat2Z.inj_succ. unfold Z.succ. rewrite inject_Z_plus.
          change (inject_Z 1) with 1%Q. ring.
      + rewrite map_length, product_length. generalize (length vd); intros k.
        induction k as [|k IH]; simpl; auto. rewrite seq_length, IH. reflexivity.
  Qed.

  Lemma NoDup_product_seq k : NoDup (product (repeat (seq 0 n) k)).
  Proof.
    induction k as [|k IH]; simpl; [repeat constructor; intros []|].
    set (P := product (repeat (seq 0 n) k)) in *.
    generalize (seq_NoDup n 0). generalize (seq 0 n). clear -IH.
    induction l as [|a l IHl]; intros Hnd; simpl; [constructor|].
    inversion Hnd; subst. 
    assert (D : forall t, In t (map (cons a) P) -> In t (flat_map (fun a0 => map (cons a0) P) l) -> False).
    { intros t Ht1 Ht2. apply in_map_iff in Ht1. destruct Ht1 as (t1 & <- & _).
      apply in_flat_map in Ht2. destruct Ht2 as (b & Hb & Ht2). apply in_map_iff in Ht2.
      destruct Ht2 as (t2 & [= -> _] & _). contradiction. }
    assert (N1 : NoDup (map (cons a) P)).
    { apply Injective_map_NoDup; auto. intros x y [= ->]. reflexivity. }
    specialize (IHl H2). revert D N1 IHl. generalize (map (cons a) P), (flat_map (fun a0 => map (cons a0) P) l).
    clear. induction l as [|x l IH]; intros m D N1 N2; simpl; auto.
    inversion N1; subst. constructor.
    - rewrite in_app_iff. intros [H|H]; [contradiction|]. apply (D x); simpl; auto.
    - apply IH; auto. intros t Ht1 Ht2. apply (D t); simpl; auto.
  Qed.

  Lemma partition_disjoint parts : NoDup vd -> partition_rect (lb, ub) n pd = Some parts ->
    forall a b p q, nth_error parts a = Some p -> nth_error parts b = Some q -> a <> b ->
    exists i, i < length lb /\
      ((nth i (snd p) 0 <= nth i (fst q) 0)%Q \/ (nth i (snd q) 0 <= nth i (fst p) 0)%Q).
  Proof.
    intros Hnd.
    destruct vd_dec as [Evd|Evd].
    - rewrite (partition_nil Evd). intros [= <-] a b p q Ha Hb Hab. exfalso. assert (a < length [(lb, ub)]) by (apply nth_error_Some; congruence).
      assert (b < length [(lb, ub)]) by (apply nth_error_Some; congruence). simpl in *; lia.
    - rewrite (partition_cons Evd). intros [= <-] a b p q Ha Hb Hab.
      rewrite nth_error_map in Ha, Hb.
      destruct (nth_error (product (repeat (seq 0 n) (length vd))) a) as [ia|] eqn:Ea; [|discriminate].
      destruct (nth_error (product (repeat (seq 0 n) (length vd))) b) as [ib|] eqn:Eb; [|discriminate].
      simpl in Ha, Hb. injection Ha as Ha. injection Hb as Hb.
      assert (Hne : ia <> ib).
      { intros ->. apply Hab. eapply (NoDup_nth_error (product (repeat (seq 0 n) (length vd)))).
        - apply NoDup_product_seq.
        - apply nth_error_Some. congruence.
        - congruence. }
      pose proof (nth_error_In _ _ Ea) as Ia. pose proof (nth_error_In _ _ Eb) as Ib.
      apply in_product_seq in Ia, Ib. destruct Ia as [La Ba], Ib as [Lb Bb].
      (* a dimension at which the index tuples differ *)
      assert (G : exists i xa xb, In (i, xa) (combine vd ia) /\ In (i, xb) (combine vd ib) /\ xa <> xb).
      { clear -La Lb Hne. revert ia ib La Lb Hne. generalize vd. intros v.
        induction v as [|i v IH]; intros [|x ia] [|y ib] La Lb Hne; simpl in *; try lia; try congruence.
        destruct (Nat.eq_dec x y) as [->|Hxy].
        - destruct (IH ia ib) as (j & xa & xb & A & B & C); try lia; [congruence|].
          exists j, xa, xb. auto.
        - exists i, x, y. auto. }
      destruct G as (i & xa & xb & Ga & Gb & Gne).
      assert (Hin : In i vd) by (eapply in_combine_l; eauto).
      assert (Huniq : forall (ids : list nat) (x y : nat), length ids = length vd -> In (i, x) (combine vd ids) -> In (i, y) (combine vd ids) -> x = y).
      { clear -Hnd. intros ids x y. revert ids. revert Hnd. generalize vd. intros v Hv.
        induction v as [|j v IH]; intros [|z ids] L H1 H2; simpl in *; try tauto; try lia.
        inversion Hv as [|j' v' Hnin Hv']; subst. destruct H1 as [H1|H1], H2 as [H2|H2].
        - congruence.
        - injection H1; intros; subst. exfalso. apply Hnin. eapply in_combine_l; eauto.
        - injection H2; intros; subst. exfalso. apply Hnin. eapply in_combine_l; eauto.
        - apply (IH Hv' ids); auto; lia. }
      subst p q. fold (piece ia) (piece ib).
      destruct (@piece_spec ia La Ba) as (_ & _ & _ & P4). destruct (@piece_spec ib Lb Bb) as (_ & _ & _ & Q4).
      destruct (P4 i Hin) as (x1 & H1 & H1' & E1 & E2). destruct (Q4 i Hin) as (y1 & H2 & H2' & F1 & F2).
      assert (x1 = xa) by (apply (Huniq ia); auto). assert (y1 = xb) by (apply (Huniq ib); auto). subst x1 y1.
      exists i. split; [apply vd_lt; auto|]. rewrite E1, E2, F1, F2.
      assert (Hle : (nth i lb 0 <= nth i ub 0)%Q) by (apply Hbox, vd_lt; auto).
      destruct (Nat.lt_total xa xb) as [H|[H|H]]; [left|contradiction|right]; apply lo_at_le; auto; lia.
  Qed.
End Partition.

Lemma split_dims_iff lb ub pd i : In i (split_dims lb ub pd) <-> to_split lb ub pd i.
Proof.
  unfold split_dims, to_split, listed. rewrite !filter_In.
  rewrite !negb_true_iff, Nat.eqb_neq.
  assert (E : Qeq_bool (nth i lb 0%Q) (nth i ub 0%Q) = false <-> ~ (nth i lb 0 == nth i ub 0)%Q).
  { rewrite <- Qeq_bool_iff. destruct (Qeq_bool (nth i lb 0%Q) (nth i ub 0%Q)); split; congruence. }
  rewrite E. destruct pd as [ds|].
  - tauto.
  - rewrite in_seq. split; intros; repeat split; try tauto; lia.
Qed.

Lemma partition_full :
  forall lb ub n pd, valid_rect lb ub -> valid_dims (length lb) pd -> 1 <= n ->
  exists parts vd, partition_rect (lb, ub) n pd = Some parts /\
    NoDup vd /\ (forall i, In i vd <-> to_split lb ub pd i) /\ length parts = n ^ length vd /\
    (forall p, In p parts ->
       box_le (fst p) (snd p) lb ub /\
       (forall i, ~ to_split lb ub pd i -> nth i (fst p) 0%Q = nth i lb 0%Q /\ nth i (snd p) 0%Q = nth i ub 0%Q) /\
       (forall i, to_split lb ub pd i ->
          (nth i (snd p) 0 - nth i (fst p) 0 == (nth i ub 0 - nth i lb 0) / inject_Z (Z.of_nat n))%Q)) /\
    (forall a b p q, nth_error parts a = Some p -> nth_error parts b = Some q -> a <> b ->
       exists i, i < length lb /\
         ((nth i (snd p) 0 <= nth i (fst q) 0)%Q \/ (nth i (snd q) 0 <= nth i (fst p) 0)%Q)).
Proof.
  intros lb ub n pd [HL Hb] Hd Hn.
  assert (Hdims : forall ds, pd = Some ds -> forall i, In i ds -> i < length lb).
  { intros ds E i Hi. exact (proj2 (Hd ds E) i Hi). }
  assert (Hnd : NoDup (split_dims lb ub pd)).
  { unfold split_dims. apply NoDup_filter, NoDup_filter. destruct pd as [ds|].
    - exact (proj1 (Hd ds eq_refl)).
    - apply seq_NoDup. }
  destruct (partition_rect (lb, ub) n pd) as [parts|] eqn:E.
  2:{ exfalso. pose proof (@partition_eq_raw lb ub n pd HL Hdims Hn) as X. rewrite E in X. discriminate X. }
  exists parts, (split_dims lb ub pd).
  destruct (@partition_pieces lb ub n pd HL Hb Hdims Hn parts E) as [A B].
  split; [reflexivity|]. split; [exact Hnd|]. split; [apply split_dims_iff|]. split; [exact B|]. split.
  - intros p Hp. destruct (A p Hp) as (A1 & A2 & A3). split; [exact A1|]. split.
    + intros i Hi. apply A2. rewrite split_dims_iff. exact Hi.
    + intros i Hi. apply A3. rewrite split_dims_iff. exact Hi.
  - exact (@partition_disjoint lb ub n pd HL Hb Hdims Hn parts Hnd E).
Qed.
