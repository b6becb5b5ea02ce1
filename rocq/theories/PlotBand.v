(** Grouped boxes: the outline drawn around boxes that move right and down, or left and up, covers them. *)
From Coq Require Import Ascii String Lqa.
From Verif Require Import Base BaseFacts Dict PyText Plot PlotSpec PlotGeom.
Set Implicit Arguments.
Open Scope nat_scope.

(** ** Chains of edges *)
Fixpoint chain (p : pt) (l : list pt) : Z :=
  match l with a :: ((b :: _) as r) => (turn p (a, b) + chain p r)%Z | _ => 0%Z end.
Fixpoint steps (R : pt -> pt -> Prop) (l : list pt) : Prop :=
  match l with a :: ((b :: _) as r) => R a b /\ steps R r | _ => True end.
Lemma chain_app p l a m : chain p (l ++ a :: m) = (chain p (l ++ [a]) + chain p (a :: m))%Z.
Proof.
  induction l as [|b l IH]; [reflexivity|]. destruct l as [|c l]; [cbn [app chain]; rewrite Z.add_0_r; reflexivity|].
  change ((b :: c :: l) ++ a :: m) with (b :: c :: (l ++ a :: m)). change ((b :: c :: l) ++ [a]) with (b :: c :: (l ++ [a])). 
  change (chain p (b :: c :: l ++ a :: m)) with (turn p (b, c) + chain p ((c :: l) ++ a :: m))%Z. change (chain p (b :: c :: l ++ [a])) with (turn p (b, c) + chain p ((c :: l) ++ [a]))%Z. rewrite IH. apply Z.add_assoc.
Qed.
Lemma chain_join p l a b m : chain p ((l ++ [a]) ++ b :: m) = (chain p (l ++ [a]) + turn p (a, b) + chain p (b :: m))%Z.
Proof. rewrite <- app_assoc. cbn [app]. rewrite chain_app. change (chain p (a :: b :: m)) with (turn p (a, b) + chain p (b :: m))%Z. lia. Qed.
Lemma edges_app a l : edges (a :: l) = combine (a :: l) (l ++ [a]).
Proof. reflexivity. Qed.
Lemma winding_chain p a l : winding p (a :: l) = chain p ((a :: l) ++ [a]).
Proof.
  unfold winding. rewrite edges_app. cbn [app]. generalize a at 2 4. revert a. induction l as [|b l IH]; intros a e; [reflexivity|].
  cbn [app combine map fold_right]. cbn [combine map fold_right app] in IH. rewrite (IH b e). reflexivity.
Qed.
Lemma edge_In a b l m : In (a, b) (edges (l ++ a :: b :: m)).
Proof.
  destruct l as [|c l]; [cbn; auto|]. change ((c :: l) ++ a :: b :: m) with (c :: (l ++ a :: b :: m)). rewrite edges_app. generalize c at 2. revert c.
  induction l as [|d l IH]; intros c e; [cbn; auto|]. cbn [app combine In]. right. apply (IH d e).
Qed.
Lemma steps_nth (R : pt -> pt -> Prop) l : (forall i a b, nth_error l i = Some a -> nth_error l (S i) = Some b -> R a b) -> steps R l.
Proof.
  induction l as [|a [|b l] IH]; intros H; cbn [steps]; auto. split; [exact (H 0 a b eq_refl eq_refl)|]. apply IH. intros i x y X Y. exact (H (S i) x y X Y).
Qed.
Lemma nth_rev {A} (l : list A) i a : nth_error (rev l) i = Some a -> nth_error l (length l - S i) = Some a.
Proof.
  intros H. assert (Hi : i < length l) by (rewrite <- rev_length; apply nth_error_Some; congruence). rewrite (nth_error_nth' l a) by lia. f_equal. pose proof (nth_error_nth _ _ a H) as G. rewrite rev_nth in G by exact Hi. exact G.
Qed.
Lemma steps_rev (R : pt -> pt -> Prop) l : (forall i a b, nth_error l i = Some a -> nth_error l (S i) = Some b -> R b a) -> steps R (rev l).
Proof.
  intros H. apply steps_nth. intros i a b A B. pose proof (nth_rev _ _ A) as A'. pose proof (nth_rev _ _ B) as B'.
  assert (S i < length l) by (rewrite <- rev_length; apply nth_error_Some; congruence). apply (H (length l - S (S i)) b a B'). replace (S (length l - S (S i))) with (length l - S i) by lia. exact A'.
Qed.
Lemma steps_snoc (R : pt -> pt -> Prop) l a b : steps R (l ++ [a]) -> R a b -> steps R (l ++ [a; b]).
Proof.
  induction l as [|c [|d l] IH]; cbn [app steps]; [tauto|tauto|]. intros [A B] H. split; [exact A|]. apply IH; assumption.
Qed.

Section At.
  Variable p : pt.
  (** An edge that is not above the point, and one that is not below it. *)
  Definition low (a b : pt) : Prop := turn p (a, b) = 0%Z.
  Definition high (a b : pt) : Prop := on_edge p (a, b) \/ turn p (a, b) = (right_of p a - right_of p b)%Z.
  Lemma chain_low l : steps low l -> chain p l = 0%Z.
  Proof. induction l as [|a [|b l] IH]; intros H; [reflexivity..|]. destruct H as [H1 H2]. unfold low in H1. cbn [chain] in *. rewrite H1, (IH H2). reflexivity. Qed.
  Lemma chain_high a l z : steps high (a :: l) -> last (a :: l) z = z ->
    (exists u v l1 l2, a :: l = l1 ++ u :: v :: l2 /\ on_edge p (u, v)) \/ l = [] \/ chain p (a :: l) = (right_of p a - right_of p z)%Z.
  Proof.
    revert a. induction l as [|b l IH]; intros a H L; [auto|]. destruct H as [[O|T] H2]; [left; exists a, b, [], l; auto|].
    assert (L' : last (b :: l) z = z) by exact L. destruct (IH b H2 L') as [(u & v & l1 & l2 & E & O)|[->|E]].
    - left. exists u, v, (a :: l1), l2. rewrite E. auto.
    - right. right. cbn in L. subst z. cbn [chain]. rewrite T. lia.
    - right. right. change (chain p (a :: b :: l)) with (turn p (a, b) + chain p (b :: l))%Z. rewrite T, E. lia.
  Qed.

  Lemma low_of a b : (fst a <= fst p -> fst p < fst b -> snd a <= snd p /\ snd b <= snd p)%Q -> (fst b <= fst p -> fst p < fst a -> snd a <= snd p /\ snd b <= snd p)%Q -> low a b.
  Proof.
    intros H1 H2. unfold low. destruct (turn_cases p (a, b)) as [[_ ->]|[Hh ->]]; [reflexivity|]. cbn [fst snd] in *.
    destruct (right_of_cases p a) as [[A ->]|[A ->]], (right_of_cases p b) as [[B ->]|[B ->]]; try reflexivity; exfalso.
    - destruct (H1 A B) as [Ya Yb]. destruct a as [ax ay], b as [bx by_], p as [px py]. unfold height_at in Hh. cbn [fst snd] in *.
      assert (E : (ay + (px - ax) * ((by_ - ay) / (bx - ax)) <= py)%Q); [|lra]. assert (D : (0 < bx - ax)%Q) by lra. set (s := ((px - ax) / (bx - ax))%Q). assert (Es : ((px - ax) * ((by_ - ay) / (bx - ax)) == s * (by_ - ay))%Q) by (unfold s; field; lra).
      rewrite Es. assert (0 <= s)%Q by (unfold s; apply Qle_shift_div_l; lra). assert (s <= 1)%Q by (unfold s; apply Qle_shift_div_r; lra). nra.
    - destruct (H2 B A) as [Ya Yb]. destruct a as [ax ay], b as [bx by_], p as [px py]. unfold height_at in Hh. cbn [fst snd] in *.
      assert (E : (ay + (px - ax) * ((by_ - ay) / (bx - ax)) <= py)%Q); [|lra]. assert (D : (0 < ax - bx)%Q) by lra. set (s := ((ax - px) / (ax - bx))%Q). assert (Es : ((px - ax) * ((by_ - ay) / (bx - ax)) == s * (by_ - ay))%Q) by (unfold s; field; lra).
      rewrite Es. assert (0 <= s)%Q by (unfold s; apply Qle_shift_div_l; lra). assert (s <= 1)%Q by (unfold s; apply Qle_shift_div_r; lra). nra.
  Qed.
  Lemma high_of a b : (fst a <= fst p -> fst p < fst b -> snd p <= snd a /\ snd p <= snd b)%Q -> (fst b <= fst p -> fst p < fst a -> snd p <= snd a /\ snd p <= snd b)%Q -> high a b.
  Proof.
    intros H1 H2. unfold high. destruct (turn_cases p (a, b)) as [[Hh ->]|[Hh ->]]; [|right; reflexivity]. cbn [fst snd] in *.
    destruct (right_of_cases p a) as [[A ->]|[A ->]], (right_of_cases p b) as [[B ->]|[B ->]]; try (right; reflexivity); left.
    - destruct (H1 A B) as [Ya Yb]. destruct a as [ax ay], b as [bx by_], p as [px py]. unfold height_at in Hh. cbn [fst snd] in *.
      assert (D : (0 < bx - ax)%Q) by lra. set (s := ((px - ax) / (bx - ax))%Q) in *. assert (Es : ((px - ax) * ((by_ - ay) / (bx - ax)) == s * (by_ - ay))%Q) by (unfold s; field; lra). rewrite Es in Hh.
      assert (0 <= s)%Q by (unfold s; apply Qle_shift_div_l; lra). assert (s <= 1)%Q by (unfold s; apply Qle_shift_div_r; lra).
      exists s. cbn [fst snd]. repeat split; try assumption; [unfold s; field; lra|]. assert (py <= ay + s * (by_ - ay))%Q by nra. lra.
    - destruct (H2 B A) as [Ya Yb]. destruct a as [ax ay], b as [bx by_], p as [px py]. unfold height_at in Hh. cbn [fst snd] in *.
      assert (D : (0 < ax - bx)%Q) by lra. set (s := ((ax - px) / (ax - bx))%Q) in *. assert (Es : ((px - ax) * ((by_ - ay) / (bx - ax)) == s * (by_ - ay))%Q) by (unfold s; field; lra). rewrite Es in Hh.
      assert (0 <= s)%Q by (unfold s; apply Qle_shift_div_l; lra). assert (s <= 1)%Q by (unfold s; apply Qle_shift_div_r; lra).
      exists s. cbn [fst snd]. repeat split; try assumption; [unfold s; field; lra|]. assert (py <= ay + s * (by_ - ay))%Q by nra. lra.
  Qed.
  Lemma high_end a b : (fst p == fst b)%Q -> (fst b < fst a)%Q -> (snd p <= snd b)%Q -> high a b.
  Proof.
    intros E L Y. unfold high. destruct (turn_cases p (a, b)) as [[Hh ->]|[Hh ->]]; [|right; reflexivity]. left. destruct a as [ax ay], b as [bx by_], p as [px py]. unfold height_at in Hh. cbn [fst snd] in *.
    assert (Es : (ay + (px - ax) * ((by_ - ay) / (bx - ax)) == by_)%Q) by (rewrite E; field; lra). rewrite Es in Hh. exists 1%Q. cbn [fst snd]. repeat split; lra.
  Qed.
  Lemma high_start a b : (fst p == fst a)%Q -> (fst a < fst b)%Q -> (snd p <= snd a)%Q -> high a b.
  Proof.
    intros E L Y. unfold high. destruct (turn_cases p (a, b)) as [[Hh ->]|[Hh ->]]; [|right; reflexivity]. left. destruct a as [ax ay], b as [bx by_], p as [px py]. unfold height_at in Hh. cbn [fst snd] in *.
    assert (Es : (ay + (px - ax) * ((by_ - ay) / (bx - ax)) == ay)%Q) by (rewrite E; field; lra). rewrite Es in Hh. exists 0%Q. cbn [fst snd]. repeat split; lra.
  Qed.
End At.

(** ** Boxes, as pairs of corners *)
Notation box := (pt * pt)%type.
Definition in_box (b : box) (p : pt) : Prop := (fst (fst b) <= fst p /\ fst p <= fst (snd b) /\ snd (fst b) <= snd p /\ snd p <= snd (snd b))%Q.
(** Both corners move right and down, from each box to every later one. *)
Definition right_down (bs : list box) : Prop := forall i j b c, i < j -> nth_error bs i = Some b -> nth_error bs j = Some c ->
  (fst (fst b) < fst (fst c) /\ fst (snd b) < fst (snd c) /\ snd (fst c) < snd (fst b) /\ snd (snd c) < snd (snd b))%Q.
Definition left_up (bs : list box) : Prop := forall i j b c, i < j -> nth_error bs i = Some b -> nth_error bs j = Some c ->
  (fst (fst c) < fst (fst b) /\ fst (snd c) < fst (snd b) /\ snd (fst b) < snd (fst c) /\ snd (snd b) < snd (snd c))%Q.
Definition lr (b : box) : pt := (fst (snd b), snd (fst b)).
Definition ul (b : box) : pt := (fst (fst b), snd (snd b)).
(** The outline of [combined]. *)
Definition band (bs : list box) (e s : pt) (b0 : box) : list pt := map fst bs ++ [e] ++ rev (map snd bs) ++ [s] ++ [fst b0].

Lemma last_snoc {A} (l : list A) a d : last (l ++ [a]) d = a.
Proof. apply last_last. Qed.

Lemma band_right_down bs b0 bn j b p : right_down bs -> nth_error bs 0 = Some b0 -> nth_error bs (length bs - 1) = Some bn ->
  nth_error bs j = Some b -> in_box b p -> filled (band bs (lr bn) (ul b0) b0) p.
Proof.
  intros M E0 En Ej (Hx0 & Hx1 & Hy0 & Hy1). assert (Lj : j < length bs) by (apply nth_error_Some; congruence).
  destruct bs as [|b0' bs'] eqn:Ebs; [cbn in Lj; lia|]. cbn in E0. injection E0 as ->. rewrite <- Ebs in *.
  (* facts about boxes against the box of the point *)
  assert (Ord : forall i c, nth_error bs i = Some c -> i = j /\ c = b \/ (i < j)%nat /\ (fst (fst c) < fst (fst b) /\ fst (snd c) < fst (snd b) /\ snd (fst b) < snd (fst c) /\ snd (snd b) < snd (snd c))%Q \/
    (j < i)%nat /\ (fst (fst b) < fst (fst c) /\ fst (snd b) < fst (snd c) /\ snd (fst c) < snd (fst b) /\ snd (snd c) < snd (snd b))%Q).
  { intros i c Ec. destruct (Nat.lt_trichotomy i j) as [H|[H|H]]; [right; left|left|right; right].
    - split; [exact H|]. destruct (M i j c b H Ec Ej) as (A & B & C & D). auto.
    - subst. split; [reflexivity|congruence].
    - split; [exact H|]. destruct (M j i b c H Ej Ec) as (A & B & C & D). auto. }
  assert (Lnth : forall i a, nth_error (map fst bs) i = Some a -> exists c, nth_error bs i = Some c /\ a = fst c).
  { intros i a H. rewrite nth_error_map in H. destruct (nth_error bs i) as [c|]; [|discriminate]. cbn in H. injection H as <-. eauto. }
  assert (Unth : forall i a, nth_error (map snd bs) i = Some a -> exists c, nth_error bs i = Some c /\ a = snd c).
  { intros i a H. rewrite nth_error_map in H. destruct (nth_error bs i) as [c|]; [|discriminate]. cbn in H. injection H as <-. eauto. }
  assert (B0 : (fst (fst b0) <= fst p /\ snd p <= snd (snd b0))%Q). { destruct (Ord 0 b0) as [[Eij ->]|[(H & A & B & C & D)|(H & A & B & C & D)]]; [rewrite Ebs; reflexivity|split; assumption|split; lra|lia]. }
  assert (Bn : (fst p <= fst (snd bn) /\ snd (fst bn) <= snd p)%Q). { destruct (Ord _ bn En) as [[Eij ->]|[(H & A & B & C & D)|(H & A & B & C & D)]]; [split; assumption|lia|split; lra]. }
  (* the lower chain *)
  destruct (@exists_last _ (map fst bs)) as (ls & lz & El); [rewrite Ebs; discriminate|].
  assert (Elz : lz = fst bn).
  { assert (H : nth_error (map fst bs) (length bs - 1) = Some (fst bn)) by (rewrite nth_error_map, En; reflexivity). rewrite El in H. assert (Ll : length bs = length ls + 1) by (rewrite <- (map_length fst bs), El, app_length; reflexivity).
    rewrite nth_error_app2 in H by lia. replace (length bs - 1 - length ls) with 0 in H by lia. cbn in H. congruence. }
  assert (SL : steps (low p) (map fst bs)).
  { apply steps_nth. intros i a c A B. destruct (Lnth _ _ A) as (ba & Ea & ->). destruct (Lnth _ _ B) as (bc & Ec & ->). destruct (M i (S i) ba bc ltac:(lia) Ea Ec) as (M1 & M2 & M3 & M4).
    apply low_of; intros X Y.
    - destruct (Ord _ _ Ea) as [[Eij ->]|[(H & A1 & A2 & A3 & A4)|(H & A1 & A2 & A3 & A4)]]; [split; lra| |split; lra].
      exfalso. destruct (Ord _ _ Ec) as [[Eij ->]|[(H' & C1 & C2 & C3 & C4)|(H' & C1 & C2 & C3 & C4)]]; [lra|lra|lia].
    - exfalso. lra. }
  rewrite El in SL. assert (SL' : steps (low p) (ls ++ [lz; lr bn])).
  { apply steps_snoc; [exact SL|]. subst lz. apply low_of; unfold lr; cbn [fst snd]; intros X Y; split; lra. }
  (* the upper chain *)
  destruct (@exists_last _ (rev (map snd bs))) as (us & uz & Eu); [rewrite Ebs; cbn; destruct (rev (map snd bs')); discriminate|].
  assert (Euz : uz = snd b0). { assert (H : rev (rev (map snd bs)) = uz :: rev us) by (rewrite Eu, rev_app_distr; reflexivity). rewrite rev_involutive, Ebs in H. cbn in H. congruence. }
  assert (SU : steps (high p) (rev (map snd bs))).
  { apply steps_rev. intros i a c A B. destruct (Unth _ _ A) as (ba & Ea & ->). destruct (Unth _ _ B) as (bc & Ec & ->). destruct (M i (S i) ba bc ltac:(lia) Ea Ec) as (M1 & M2 & M3 & M4).
    destruct (Nat.eq_dec i j) as [->|Nij].
    { assert (ba = b) as -> by congruence. destruct (Qlt_le_dec (fst p) (fst (snd b))) as [Q1|Q1]; [|apply high_end; lra]. right. destruct (turn_cases p (snd bc, snd b)) as [[_ ->]|[_ ->]]; [|reflexivity]. cbn [fst snd].
      destruct (right_of_cases p (snd bc)) as [[R ->]|[R ->]]; [lra|]. destruct (right_of_cases p (snd b)) as [[R' ->]|[R' ->]]; [lra|reflexivity]. }
    apply high_of; intros X Y; [exfalso; lra|].
    destruct (Ord _ _ Ec) as [[Eij ->]|[(H & C1 & C2 & C3 & C4)|(H & C1 & C2 & C3 & C4)]]; [split; lra|split; lra|].
    destruct (Ord _ _ Ea) as [[Eij ->]|[(H' & A1 & A2 & A3 & A4)|(H' & A1 & A2 & A3 & A4)]]; [lia|lia|exfalso; lra]. }
  rewrite Eu in SU. assert (SU' : steps (high p) (us ++ [uz; ul b0])).
  { apply steps_snoc; [exact SU|]. subst uz. apply high_of; unfold ul; cbn [fst snd]; intros X Y; split; lra. }
  assert (Hu : exists r, rev (map snd bs) = snd bn :: r).
  { assert (H : nth_error (map snd bs) (length bs - 1) = Some (snd bn)) by (rewrite nth_error_map, En; reflexivity). assert (G : rev (map snd bs) <> []) by (rewrite Ebs; cbn; destruct (rev (map snd bs')); discriminate).
    destruct (rev (map snd bs)) as [|u r] eqn:Er; [contradiction|]. exists r. f_equal. assert (G' : map snd bs = rev r ++ [u]) by (rewrite <- (rev_involutive (map snd bs)), Er; reflexivity).
    assert (Ll : length bs = length (rev r) + 1) by (rewrite <- (map_length snd bs), G', app_length; reflexivity). rewrite G', nth_error_app2 in H by lia. replace (length bs - 1 - length (rev r)) with 0 in H by lia. cbn in H. congruence. }
  destruct Hu as [r Hu]. assert (Eus : us ++ [uz; ul b0] = snd bn :: r ++ [ul b0]). { change [uz; ul b0] with ([uz] ++ [ul b0]). rewrite app_assoc, <- Eu, Hu. reflexivity. }
  assert (Epath : band bs (lr bn) (ul b0) b0 = ls ++ [lz; lr bn] ++ (us ++ [uz; ul b0]) ++ [fst b0]).
  { unfold band. rewrite El, Eu. repeat rewrite <- app_assoc. reflexivity. }
  assert (Hd : exists rest, band bs (lr bn) (ul b0) b0 = fst b0 :: rest) by (unfold band; rewrite Ebs; cbn; eauto). destruct Hd as [rest Hd].
  rewrite Eus in SU'. destruct (@chain_high p (snd bn) (r ++ [ul b0]) (ul b0) SU') as [(u & v & l1 & l2 & E & O)|[E|E]]; [change (last ((snd bn :: r) ++ [ul b0]) (ul b0) = ul b0); apply last_snoc| | |].
  - left. apply Exists_exists. exists (u, v). split; [|exact O]. rewrite Epath, Eus, E. repeat rewrite <- app_assoc. cbn [app]. change (ls ++ lz :: lr bn :: l1 ++ u :: v :: l2 ++ [fst b0]) with (ls ++ [lz; lr bn] ++ l1 ++ u :: v :: l2 ++ [fst b0]). rewrite !app_assoc. apply edge_In.
  - destruct r; discriminate.
  - destruct (Qlt_le_dec (fst p) (fst (snd bn))) as [Q1|Q1].
    + right. rewrite Hd, winding_chain, <- Hd, Epath.
      assert (Ep : (ls ++ [lz; lr bn] ++ (us ++ [uz; ul b0]) ++ [fst b0]) ++ [fst b0] = ((ls ++ [lz]) ++ [lr bn]) ++ snd bn :: (r ++ [ul b0; fst b0; fst b0])).
      { rewrite Eus. cbn [app]. repeat rewrite <- app_assoc. cbn [app]. repeat rewrite <- app_assoc. reflexivity. }
      rewrite Ep, chain_join. rewrite <- app_assoc. cbn [app]. rewrite (@chain_low p _ SL'). rewrite turn_vertical by reflexivity.
      change (snd bn :: r ++ [ul b0; fst b0; fst b0]) with ((snd bn :: r) ++ ul b0 :: [fst b0; fst b0]). rewrite chain_app. change ((snd bn :: r) ++ [ul b0]) with (snd bn :: r ++ [ul b0]). rewrite E.
      cbn [chain]. rewrite !turn_vertical by reflexivity. destruct (right_of_cases p (snd bn)) as [[R _]|[_ ->]]; [lra|]. destruct (right_of_cases p (ul b0)) as [[_ ->]|[R _]]; [discriminate|unfold ul in R; cbn [fst] in R; lra].
    + left. apply Exists_exists. exists (lr bn, snd bn). split.
      * rewrite Epath, Eus. cbn [app]. change (ls ++ lz :: lr bn :: snd bn :: (r ++ [ul b0]) ++ [fst b0]) with (ls ++ [lz] ++ lr bn :: snd bn :: (r ++ [ul b0]) ++ [fst b0]). rewrite app_assoc. apply edge_In.
      * assert (Ejn : b = bn). { destruct (Ord _ bn En) as [[Eij ->]|[(H & A & B & C & D)|(H & A & B & C & D)]]; [reflexivity|lia|lra]. }
        subst bn. destruct (@fraction (snd (fst b)) (snd (snd b)) (snd p) Hy0 Hy1) as (t & T0 & T1 & T). exists t. unfold lr. cbn [fst snd]. split; [exact T0|]. split; [exact T1|]. split; [|exact T]. setoid_replace (fst (snd b) - fst (snd b))%Q with 0%Q by lra. lra.
Qed.

Lemma band_left_up bs b0 bn j b p : left_up bs -> nth_error bs 0 = Some b0 -> nth_error bs (length bs - 1) = Some bn ->
  nth_error bs j = Some b -> in_box b p -> filled (band bs (ul bn) (lr b0) b0) p.
Proof.
  intros M E0 En Ej (Hx0 & Hx1 & Hy0 & Hy1). assert (Lj : j < length bs) by (apply nth_error_Some; congruence).
  destruct bs as [|b0' bs'] eqn:Ebs; [cbn in Lj; lia|]. cbn in E0. injection E0 as ->. rewrite <- Ebs in *.
  assert (Ord : forall i c, nth_error bs i = Some c -> i = j /\ c = b \/ (j < i)%nat /\ (fst (fst c) < fst (fst b) /\ fst (snd c) < fst (snd b) /\ snd (fst b) < snd (fst c) /\ snd (snd b) < snd (snd c))%Q \/
    (i < j)%nat /\ (fst (fst b) < fst (fst c) /\ fst (snd b) < fst (snd c) /\ snd (fst c) < snd (fst b) /\ snd (snd c) < snd (snd b))%Q).
  { intros i c Ec. destruct (Nat.lt_trichotomy i j) as [H|[H|H]]; [right; right|left|right; left].
    - split; [exact H|]. destruct (M i j c b H Ec Ej) as (A & B & C & D). auto.
    - subst. split; [reflexivity|congruence].
    - split; [exact H|]. destruct (M j i b c H Ej Ec) as (A & B & C & D). auto. }
  assert (Lnth : forall i a, nth_error (map fst bs) i = Some a -> exists c, nth_error bs i = Some c /\ a = fst c).
  { intros i a H. rewrite nth_error_map in H. destruct (nth_error bs i) as [c|]; [|discriminate]. cbn in H. injection H as <-. eauto. }
  assert (Unth : forall i a, nth_error (map snd bs) i = Some a -> exists c, nth_error bs i = Some c /\ a = snd c).
  { intros i a H. rewrite nth_error_map in H. destruct (nth_error bs i) as [c|]; [|discriminate]. cbn in H. injection H as <-. eauto. }
  assert (Bn : (fst (fst bn) <= fst p /\ snd p <= snd (snd bn))%Q). { destruct (Ord _ bn En) as [[Eij ->]|[(H & A & B & C & D)|(H & A & B & C & D)]]; [split; assumption|split; lra|lia]. }
  assert (B0 : (fst p <= fst (snd b0) /\ snd (fst b0) <= snd p)%Q). { destruct (Ord 0 b0) as [[Eij ->]|[(H & A & B & C & D)|(H & A & B & C & D)]]; [rewrite Ebs; reflexivity|split; assumption|lia|split; lra]. }
  destruct (@exists_last _ (map fst bs)) as (ls & lz & El); [rewrite Ebs; discriminate|].
  assert (Elz : lz = fst bn).
  { assert (H : nth_error (map fst bs) (length bs - 1) = Some (fst bn)) by (rewrite nth_error_map, En; reflexivity). rewrite El in H. assert (Ll : length bs = length ls + 1) by (rewrite <- (map_length fst bs), El, app_length; reflexivity).
    rewrite nth_error_app2 in H by lia. replace (length bs - 1 - length ls) with 0 in H by lia. cbn in H. congruence. }
  assert (SL : steps (low p) (map fst bs)).
  { apply steps_nth. intros i a c A B. destruct (Lnth _ _ A) as (ba & Ea & ->). destruct (Lnth _ _ B) as (bc & Ec & ->). destruct (M i (S i) ba bc ltac:(lia) Ea Ec) as (M1 & M2 & M3 & M4).
    apply low_of; intros X Y; [exfalso; lra|].
    destruct (Ord _ _ Ec) as [[Eij ->]|[(H & A1 & A2 & A3 & A4)|(H & A1 & A2 & A3 & A4)]]; [split; lra| |split; lra].
    exfalso. destruct (Ord _ _ Ea) as [[Eij2 ->]|[(H' & C1 & C2 & C3 & C4)|(H' & C1 & C2 & C3 & C4)]]; [lra|lra|lia]. }
  rewrite El in SL.
  destruct (@exists_last _ (rev (map snd bs))) as (us & uz & Eu); [rewrite Ebs; cbn; destruct (rev (map snd bs')); discriminate|].
  assert (Euz : uz = snd b0). { assert (H : rev (rev (map snd bs)) = uz :: rev us) by (rewrite Eu, rev_app_distr; reflexivity). rewrite rev_involutive, Ebs in H. cbn in H. congruence. }
  assert (SU : steps (high p) (rev (map snd bs))).
  { apply steps_rev. intros i a c A B. destruct (Unth _ _ A) as (ba & Ea & ->). destruct (Unth _ _ B) as (bc & Ec & ->). destruct (M i (S i) ba bc ltac:(lia) Ea Ec) as (M1 & M2 & M3 & M4).
    destruct (Nat.eq_dec (S i) j) as [Eij|Nij].
    { assert (bc = b) as -> by congruence. destruct (Qlt_le_dec (fst p) (fst (snd b))) as [Q1|Q1].
      - right. destruct (turn_cases p (snd b, snd ba)) as [[_ ->]|[_ ->]]; [|reflexivity]. cbn [fst snd].
        destruct (right_of_cases p (snd b)) as [[R ->]|[R ->]]; [lra|]. destruct (right_of_cases p (snd ba)) as [[R' ->]|[R' ->]]; [lra|reflexivity].
      - apply high_start; lra. }
    apply high_of; intros X Y; [|exfalso; lra].
    destruct (Ord _ _ Ea) as [[Eij ->]|[(H & C1 & C2 & C3 & C4)|(H & C1 & C2 & C3 & C4)]]; [split; lra|split; lra|].
    exfalso. destruct (Ord _ _ Ec) as [[Eij ->]|[(H' & A1 & A2 & A3 & A4)|(H' & A1 & A2 & A3 & A4)]]; [lia|lia|lra]. }
  assert (Hu : exists r, rev (map snd bs) = snd bn :: r).
  { assert (H : nth_error (map snd bs) (length bs - 1) = Some (snd bn)) by (rewrite nth_error_map, En; reflexivity). assert (G : rev (map snd bs) <> []) by (rewrite Ebs; cbn; destruct (rev (map snd bs')); discriminate).
    destruct (rev (map snd bs)) as [|u r] eqn:Er; [contradiction|]. exists r. f_equal. assert (G' : map snd bs = rev r ++ [u]) by (rewrite <- (rev_involutive (map snd bs)), Er; reflexivity).
    assert (Ll : length bs = length (rev r) + 1) by (rewrite <- (map_length snd bs), G', app_length; reflexivity). rewrite G', nth_error_app2 in H by lia. replace (length bs - 1 - length (rev r)) with 0 in H by lia. cbn in H. congruence. }
  destruct Hu as [r Hu].
  assert (SU' : steps (high p) (ul bn :: us ++ [uz])).
  { rewrite <- Eu, Hu. split; [|rewrite <- Hu; exact SU]. apply high_of; unfold ul; cbn [fst snd]; intros X Y; split; lra. }
  assert (Epath : band bs (ul bn) (lr b0) b0 = (ls ++ [lz]) ++ ul bn :: (us ++ [uz]) ++ [lr b0; fst b0]).
  { unfold band. rewrite El, Eu. repeat rewrite <- app_assoc. reflexivity. }
  assert (Hd : exists rest, band bs (ul bn) (lr b0) b0 = fst b0 :: rest) by (unfold band; rewrite Ebs; cbn; eauto). destruct Hd as [rest Hd].
  destruct (@chain_high p (ul bn) (us ++ [uz]) uz SU') as [(u & v & l1 & l2 & E & O)|[E|E]]; [change (last ((ul bn :: us) ++ [uz]) uz = uz); apply last_snoc| | |].
  - left. apply Exists_exists. exists (u, v). split; [|exact O]. rewrite Epath. change (ul bn :: (us ++ [uz]) ++ [lr b0; fst b0]) with ((ul bn :: us ++ [uz]) ++ [lr b0; fst b0]). rewrite E. replace ((ls ++ [lz]) ++ (l1 ++ u :: v :: l2) ++ [lr b0; fst b0]) with (((ls ++ [lz]) ++ l1) ++ u :: v :: (l2 ++ [lr b0; fst b0])) by (repeat rewrite <- app_assoc; reflexivity). apply edge_In.
  - destruct us; discriminate.
  - destruct (Qlt_le_dec (fst p) (fst (snd b0))) as [Q1|Q1].
    + right. rewrite Hd, winding_chain, <- Hd, Epath. rewrite <- app_assoc. change ((ul bn :: (us ++ [uz]) ++ [lr b0; fst b0]) ++ [fst b0]) with (ul bn :: (((us ++ [uz]) ++ [lr b0; fst b0]) ++ [fst b0])).
      rewrite chain_join, (@chain_low p _ SL). rewrite turn_vertical by (subst lz; reflexivity).
      assert (Ec : ul bn :: (((us ++ [uz]) ++ [lr b0; fst b0]) ++ [fst b0]) = ((ul bn :: us) ++ [uz]) ++ lr b0 :: [fst b0; fst b0]) by (repeat rewrite <- app_assoc; cbn [app]; repeat rewrite <- app_assoc; reflexivity).
      rewrite Ec, chain_join. change ((ul bn :: us) ++ [uz]) with (ul bn :: us ++ [uz]). rewrite E. rewrite (turn_vertical p uz (lr b0)) by (subst uz; reflexivity). cbn [chain]. rewrite (turn_vertical p (fst b0) (fst b0)) by reflexivity.
      assert (Lw : low p (lr b0) (fst b0)) by (apply low_of; unfold lr; cbn [fst snd]; intros X Y; split; lra). unfold low in Lw. rewrite Lw.
      destruct (right_of_cases p uz) as [[R _]|[_ ->]]; [subst uz; lra|]. destruct (right_of_cases p (ul bn)) as [[_ ->]|[R _]]; [discriminate|unfold ul in R; cbn [fst] in R; lra].
    + left. apply Exists_exists. exists (uz, lr b0). split.
      * rewrite Epath. assert (Ec : (ls ++ [lz]) ++ ul bn :: (us ++ [uz]) ++ [lr b0; fst b0] = ((ls ++ [lz]) ++ ul bn :: us) ++ uz :: lr b0 :: [fst b0]) by (repeat rewrite <- app_assoc; cbn [app]; repeat rewrite <- app_assoc; reflexivity). rewrite Ec. apply edge_In.
      * assert (Ejn : b = b0). { destruct (Ord 0 b0) as [[Eij ->]|[(H & A & B & C & D)|(H & A & B & C & D)]]; [rewrite Ebs; reflexivity|reflexivity|lia|lra]. }
        subst uz. subst b0. destruct (@fraction_r (snd (fst b)) (snd (snd b)) (snd p) Hy0 Hy1) as (t & T0 & T1 & T). exists t. unfold lr. cbn [fst snd]. split; [exact T0|]. split; [exact T1|]. split; [|exact T]. setoid_replace (fst (snd b) - fst (snd b))%Q with 0%Q by lra. lra.
Qed.
