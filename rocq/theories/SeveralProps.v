(** C77: bounds of angles over a split domain. *)
From Coq Require Import Reals Qreals Lra Lia.
From Verif Require Import Base AngleSpec AngleProofs Angular AngularSpec AngularProofs AngularProps Piecewise PiecewiseSpec ParseArray ParseArraySpec.
Set Implicit Arguments.
Open Scope R_scope.

(** The analysis of [minus_angular(x, z)] over one box: parser_wrapper.py, lines 276-290, for arguments that have one
    interval each. *)
Definition minus_bounds (x z : R * R) : option (list (R * R)) := option_map (fun b => combine_bounds [b]) (diff_bounds 1 x z).

Ltac rdec :=
  repeat match goal with
         | |- context [Rle_dec ?a ?b] => first [destruct (Rle_dec a b) as [_|?]; [|exfalso; lra] | destruct (Rle_dec a b) as [?|_]; [exfalso; lra|]]; cbn [andb orb]
         | |- context [Rlt_dec ?a ?b] => first [destruct (Rlt_dec a b) as [_|?]; [|exfalso; lra] | destruct (Rlt_dec a b) as [?|_]; [exfalso; lra|]]; cbn [andb orb]
         end.

Lemma diff_11 : diff_bounds 1 (-1, 1) (-2, -1) = Some (One 0 3).
Proof.
  pose proof three_pi as P. unfold diff_bounds. cbn [fst snd].
  destruct (Req_EM_T (-1) (- PI)) as [E|_]; [lra|]. destruct (Req_EM_T (-2) (- PI)) as [E|_]; [lra|]. cbn [orb lift].
  destruct (Rlt_dec (-1 - -1) 0) as [E|_]; [lra|]. cbn [obind fst snd INR].
  destruct (Rle_dec (-1 - -1) PI) as [_|E]; [|lra]. destruct (Rle_dec PI (1 - -2 + 2 * PI * 0)) as [E|_]; [lra|].
  rewrite (@wrap_angle_unique (-1 - -1) 0) by (lra || turn 0%Z). rewrite (@wrap_angle_unique (1 - -2 + 2 * PI * 0) 3) by (lra || turn 0%Z).
  destruct (Rlt_dec 3 0) as [E|_]; [lra|reflexivity].
Qed.
Lemma diff_12 : diff_bounds 1 (-1, 1) (-1, 0) = Some (One (-1) 2).
Proof.
  pose proof three_pi as P. unfold diff_bounds. cbn [fst snd].
  destruct (Req_EM_T (-1) (- PI)) as [E|_]; [lra|]. cbn [orb lift].
  destruct (Rlt_dec (-1 - 0) 0) as [_|E]; [|lra]. destruct (Rlt_dec (-1 - 0 + 2 * PI) 0) as [E|_]; [lra|]. cbn [obind fst snd INR].
  destruct (Rle_dec (-1 - 0 + 2 * PI) PI) as [E|_]; [lra|].
  rewrite (@wrap_angle_unique (-1 - 0 + 2 * PI) (-1)) by (lra || turn (-1)%Z). rewrite (@wrap_angle_unique (1 - -1 + 2 * PI * 1) 2) by (lra || turn (-1)%Z).
  destruct (Rlt_dec 2 (-1)) as [E|_]; [lra|reflexivity].
Qed.
Lemma diff_21 : diff_bounds 1 (1, 3) (-2, -1) = Some (Many [(2, PI); (- PI, 5 - 2 * PI)]).
Proof.
  pose proof three_pi as P. unfold diff_bounds. cbn [fst snd].
  destruct (Req_EM_T 1 (- PI)) as [E|_]; [lra|]. destruct (Req_EM_T (-2) (- PI)) as [E|_]; [lra|]. cbn [orb lift].
  destruct (Rlt_dec (1 - -1) 0) as [E|_]; [lra|]. cbn [obind fst snd INR].
  destruct (Rle_dec (1 - -1) PI) as [_|E]; [|lra]. destruct (Rle_dec PI (3 - -2 + 2 * PI * 0)) as [_|E]; [|pose proof PI_4; lra].
  do 5 f_equal; [lra|]. f_equal. lra.
Qed.
Lemma diff_22 : diff_bounds 1 (1, 3) (-1, 0) = Some (Many [(1, PI); (- PI, 4 - 2 * PI)]).
Proof.
  pose proof three_pi as P. unfold diff_bounds. cbn [fst snd].
  destruct (Req_EM_T 1 (- PI)) as [E|_]; [lra|]. destruct (Req_EM_T (-1) (- PI)) as [E|_]; [lra|]. cbn [orb lift].
  destruct (Rlt_dec (1 - 0) 0) as [E|_]; [lra|]. cbn [obind fst snd INR].
  destruct (Rle_dec (1 - 0) PI) as [_|E]; [|lra]. destruct (Rle_dec PI (3 - -1 + 2 * PI * 0)) as [_|E]; [|lra].
  do 5 f_equal; [lra|]. f_equal. lra.
Qed.

Lemma comb_11 : combine_bounds [One 0 3] = [(0, 3)].
Proof.
  pose proof three_pi. rewrite combine_unfold. cbn [normalized flat_map app]. rdec. cbn [app sorted fold_right insert merged fold_left merge_step rev].
  unfold merge_wrapped, format, le. cbn [length Nat.ltb Nat.leb filter fst snd]. do 3 (rdec; cbn [filter fst snd]). reflexivity.
Qed.
Lemma comb_12 : combine_bounds [One (-1) 2] = [(-1, 2)].
Proof.
  pose proof three_pi. rewrite combine_unfold. cbn [normalized flat_map app]. rdec. cbn [app sorted fold_right insert merged fold_left merge_step rev].
  unfold merge_wrapped, format, le. cbn [length Nat.ltb Nat.leb filter fst snd]. do 3 (rdec; cbn [filter fst snd]). reflexivity.
Qed.
Lemma comb_21 : combine_bounds [Many [(2, PI); (- PI, 5 - 2 * PI)]] = [(2, PI); (- PI, 5 - 2 * PI)].
Proof.
  pose proof three_pi. rewrite combine_unfold. cbn [normalized flat_map app]. unfold sorted. cbn [fold_right]. do 5 (cbn [insert]; unfold key_le; cbn [fst snd]; rdec).
  unfold merged, merge_step, overlap, le, Rmin, Rmax. cbn [fold_left fst snd]. do 2 (rdec; cbn [fold_left fst snd andb]). cbn [rev app].
  unfold merge_wrapped, last_index, format, le, lt. cbn [length Nat.ltb Nat.leb fold_left fst snd last].
  do 8 (rdec; cbn [Nat.eqb Nat.sub Nat.add last firstn fold_left filter fst snd]). reflexivity.
Qed.
Lemma comb_22 : combine_bounds [Many [(1, PI); (- PI, 4 - 2 * PI)]] = [(1, PI); (- PI, 4 - 2 * PI)].
Proof.
  pose proof three_pi. rewrite combine_unfold. cbn [normalized flat_map app]. unfold sorted. cbn [fold_right]. do 5 (cbn [insert]; unfold key_le; cbn [fst snd]; rdec).
  unfold merged, merge_step, overlap, le, Rmin, Rmax. cbn [fold_left fst snd]. do 2 (rdec; cbn [fold_left fst snd andb]). cbn [rev app].
  unfold merge_wrapped, last_index, format, le, lt. cbn [length Nat.ltb Nat.leb fold_left fst snd last].
  do 8 (rdec; cbn [Nat.eqb Nat.sub Nat.add last firstn fold_left filter fst snd]). reflexivity.
Qed.
Lemma comb_all : combine_bounds [Many [(0, 3)]; Many [(-1, 2)]; Many [(2, PI); (- PI, 5 - 2 * PI)]; Many [(1, PI); (- PI, 4 - 2 * PI)]]
  = [(0, PI); (- PI, 5 - 2 * PI)].
Proof.
  pose proof three_pi. rewrite combine_unfold. cbn [normalized flat_map app].
  assert (E : sorted [(0, 3); (-1, 2); (2, PI); (- PI, 5 - 2 * PI); (1, PI); (- PI, 4 - 2 * PI)] =
    [(0, 3); (1, PI); (2, PI); (- PI, 5 - 2 * PI); (- PI, 4 - 2 * PI); (-1, 2)]).
  { unfold sorted. cbn [fold_right]. do 16 (cbn [insert]; unfold key_le; cbn [fst snd]; rdec). reflexivity. }
  rewrite E. cbn match.
  assert (M : merged [(0, 3); (1, PI); (2, PI); (- PI, 5 - 2 * PI); (- PI, 4 - 2 * PI); (-1, 2)] = [(0, PI); (- PI, 5 - 2 * PI); (-1, 2)]).
  { unfold merged, merge_step, overlap, le, Rmin, Rmax. cbn [fold_left fst snd]. do 6 (rdec; cbn [fold_left fst snd andb]). reflexivity. }
  rewrite M. unfold merge_wrapped, last_index, format, le, lt. cbn [length Nat.ltb Nat.leb fold_left fst snd last].
  do 8 (rdec; cbn [Nat.eqb Nat.sub Nat.add last firstn fold_left filter fst snd]). reflexivity.
Qed.

(** [x] in [-1, 3] and [z] in [-2, 0], two parts each: every box has right bounds, and their union lacks the difference of
    -1/2 and 0. *)
Theorem C77_several_refuted : exists x1 x2 z1 z2 l11 l12 l21 l22 a c,
  snd x1 = fst x2 /\ snd x1 - fst x1 = snd x2 - fst x2 /\ snd z1 = fst z2 /\ snd z1 - fst z1 = snd z2 - fst z2 /\
  minus_bounds x1 z1 = Some l11 /\ minus_bounds x1 z2 = Some l12 /\ minus_bounds x2 z1 = Some l21 /\ minus_bounds x2 z2 = Some l22 /\
  (forall x z l, In (x, z, l) [(x1, z1, l11); (x1, z2, l12); (x2, z1, l21); (x2, z2, l22)] ->
     proper x /\ proper z /\ forall a c, fst x <= a <= snd x -> fst z <= c <= snd z -> angle_in l (a - c)) /\
  fst x1 <= a <= snd x2 /\ fst z1 <= c <= snd z2 /\ ~ angle_in (combine_bounds [Many l11; Many l12; Many l21; Many l22]) (a - c).
Proof.
  pose proof three_pi as P. exists (-1, 1), (1, 3), (-2, -1), (-1, 0), [(0, 3)], [(-1, 2)], [(2, PI); (- PI, 5 - 2 * PI)], [(1, PI); (- PI, 4 - 2 * PI)], (- (1 / 2)), 0.
  cbn [fst snd]. unfold minus_bounds. rewrite diff_11, diff_12, diff_21, diff_22. cbn [option_map]. rewrite comb_11, comb_12, comb_21, comb_22, comb_all.
  repeat (split; [reflexivity || lra|]). split; [|split; [lra|split; [lra|]]].
  - intros x z l [[= <- <- <-]|[[= <- <- <-]|[[= <- <- <-]|[[= <- <- <-]|[]]]]]; (split; [unfold proper; cbn; lra|]; split; [unfold proper; cbn; lra|]); cbn [fst snd]; intros a c A C.
    + exists (a - c), (0, 3). split; [apply same_refl|]. split; [left; reflexivity|cbn; lra].
    + exists (a - c), (-1, 2). split; [apply same_refl|]. split; [left; reflexivity|cbn; lra].
    + destruct (Rle_dec (a - c) PI); [exists (a - c), (2, PI)|exists (a - c - 2 * PI), (- PI, 5 - 2 * PI)].
      * split; [apply same_refl|]. split; [left; reflexivity|cbn; lra].
      * split; [turn 1%Z|]. split; [right; left; reflexivity|cbn; lra].
    + destruct (Rle_dec (a - c) PI); [exists (a - c), (1, PI)|exists (a - c - 2 * PI), (- PI, 4 - 2 * PI)].
      * split; [apply same_refl|]. split; [left; reflexivity|cbn; lra].
      * split; [turn 1%Z|]. split; [right; left; reflexivity|cbn; lra].
  - intros (y & i & (k & E) & [<-|[<-|[]]] & Hy); cbn in Hy.
    + assert (-1 < k < 0)%Z; [|lia]. split; apply lt_IZR; apply Rmult_lt_reg_l with (2 * PI); lra.
    + assert (0 < k < 1)%Z; [|lia]. split; apply lt_IZR; apply Rmult_lt_reg_l with (2 * PI); lra.
Qed.

(** So does every union of intervals that agrees with that of the code on these two lists. *)
Theorem C77_keeps_refuted : forall merge : list (list (Q * Q)) -> list (Q * Q),
  (forall bl, map (fun i => (Q2R (fst i), Q2R (snd i))) (merge bl) = combine_bounds (map (fun l => Many (map (fun i => (Q2R (fst i), Q2R (snd i))) l)) bl)) ->
  ~ keeps merge.
Proof.
  intros merge H K. set (l1 := [((-1)%Q, 1%Q)]). set (l2 := [(2%Q, 3%Q); ((-3)%Q, (-2)%Q)]).
  destruct (K [l1; l2] l1 0) as (b & Hb & V).
  - left. reflexivity.
  - exists ((-1)%Q, 1%Q). split; [left; reflexivity|]. unfold Q2R; cbn. lra.
  - specialize (H [l1; l2]). assert (Hi : In (Q2R (fst b), Q2R (snd b)) (map (fun i => (Q2R (fst i), Q2R (snd i))) (merge [l1; l2]))) by (apply (in_map (fun i => (Q2R (fst i), Q2R (snd i)))); exact Hb).
    rewrite H in Hi. cbn [map fst snd l1 l2] in Hi. unfold l1, l2 in Hi. cbn [map fst snd] in Hi.
    assert (E1 : Q2R (-1)%Q = -1) by (unfold Q2R; cbn; lra). assert (E2 : Q2R 1%Q = 1) by (unfold Q2R; cbn; lra). assert (E3 : Q2R 2%Q = 2) by (unfold Q2R; cbn; lra).
    assert (E4 : Q2R 3%Q = 3) by (unfold Q2R; cbn; lra). assert (E5 : Q2R (-3)%Q = -3) by (unfold Q2R; cbn; lra). assert (E6 : Q2R (-2)%Q = -2) by (unfold Q2R; cbn; lra).
    rewrite E1, E2, E3, E4, E5, E6 in Hi.
    assert (E : combine_bounds [Many [(-1, 1)]; Many [(2, 3); (-3, -2)]] = [(2, 3); (-3, -2)]).
    { rewrite combine_unfold. cbn [normalized flat_map app]. unfold sorted. cbn [fold_right]. do 5 (cbn [insert]; unfold key_le; cbn [fst snd]; rdec).
      unfold merged, merge_step, overlap, le, Rmin, Rmax. cbn [fold_left fst snd]. do 3 (rdec; cbn [fold_left fst snd andb]). cbn [rev app].
      unfold merge_wrapped, last_index, format, le, lt. cbn [length Nat.ltb Nat.leb fold_left fst snd last].
      do 8 (rdec; cbn [Nat.eqb Nat.sub Nat.add last firstn fold_left filter fst snd]). reflexivity. }
    rewrite E in Hi. destruct Hi as [[= A B]|[[= A B]|[]]]; lra.
Qed.

Print Assumptions C77_several_refuted.
Print Assumptions C77_keeps_refuted.
