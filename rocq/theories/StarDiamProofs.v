(** Lemmas about the diameters of stars. *)
From Coq Require Import Qabs Qround Lqa Sorted.
From Verif Require Import Base BaseFacts Dict Star StarSpec StarDiam StarDiamSpec.
Set Implicit Arguments.
Open Scope nat_scope.

Fixpoint sumn (n : nat) (F : nat -> Q) : Q := match n with 0 => 0%Q | S k => (F O + sumn k (fun j => F (S j)))%Q end.
Lemma sumn_ext n F G : (forall j, (j < n)%nat -> F j == G j)%Q -> (sumn n F == sumn n G)%Q.
Proof.
  revert F G. induction n as [| n IH]; intros F G H; [reflexivity |]. cbn [sumn]. rewrite (H O) by lia. rewrite (IH _ (fun j => G (S j))).
  - reflexivity.
  - intros j Hj. apply H. lia.
Qed.
Lemma sumn_zero n F : (forall j, (j < n)%nat -> F j == 0)%Q -> (sumn n F == 0)%Q.
Proof. intros H. rewrite (@sumn_ext n F (fun _ => 0%Q) H). clear. induction n as [| n IH]; [reflexivity | cbn [sumn]; rewrite IH; ring]. Qed.
Lemma sumn_one n F i : i < n -> (forall j, (j < n)%nat -> (j <> i)%nat -> F j == 0)%Q -> (sumn n F == F i)%Q.
Proof.
  revert F i. induction n as [| n IH]; intros F i Hi H; [lia |]. cbn [sumn]. destruct i as [| i].
  - rewrite (@sumn_zero n (fun j => F (S j))); [ring |]. intros j Hj. apply H; lia.
  - rewrite (IH (fun j => F (S j)) i); [rewrite (H O) by lia; ring | lia |]. intros j Hj N. apply H; lia.
Qed.
Lemma sumn_app a b F : (sumn (a + b)%nat F == sumn a F + sumn b (fun k => F (a + k)%nat))%Q.
Proof. revert F. induction a as [| a IH]; intros F; cbn [sumn Nat.add]; [rewrite Qplus_0_l; reflexivity |]. rewrite IH. ring. Qed.
Lemma sumn_opp n F : (sumn n (fun j => - F j) == - sumn n F)%Q.
Proof. revert F. induction n as [| n IH]; intros F; cbn [sumn]; [reflexivity |]. rewrite (IH (fun j => F (S j))). ring. Qed.
Lemma sumn_le n F G : (forall j, (j < n)%nat -> F j <= G j)%Q -> (sumn n F <= sumn n G)%Q.
Proof.
  revert F G. induction n as [| n IH]; intros F G H; cbn [sumn]; [lra |]. specialize (IH (fun j => F (S j)) (fun j => G (S j))).
  assert (F O <= G O)%Q by (apply H; lia). assert (sumn n (fun j => F (S j)) <= sumn n (fun j => G (S j)))%Q by (apply IH; intros; apply H; lia). lra.
Qed.

Lemma inner_sum a b : length a = length b -> (inner a b == sumn (length a) (fun k => nth k a 0 * nth k b 0))%Q.
Proof.
  revert b. induction a as [| x a IH]; intros [| y b] L; try discriminate; [reflexivity |]. cbn [inner sumn length nth]. rewrite IH by (cbn in L; lia). reflexivity.
Qed.
Lemma l1_sum a b : length a = length b -> (l1 a b == sumn (length a) (fun k => Qabs (nth k a 0 - nth k b 0)))%Q.
Proof.
  revert b. induction a as [| x a IH]; intros [| y b] L; try discriminate; [reflexivity |]. cbn [l1 sumn length nth]. rewrite IH by (cbn in L; lia). reflexivity.
Qed.
Lemma nth_map_seq {X} (f : nat -> X) n j d : j < n -> nth j (map f (seq 0 n)) d = f j.
Proof. intros H. rewrite (nth_indep _ d (f 0)) by (rewrite map_length, seq_length; exact H). rewrite map_nth, seq_nth by exact H. reflexivity. Qed.
Lemma inner_map (f : nat -> Q) n v : length v = n -> (inner (map f (seq 0 n)) v == sumn n (fun j => f j * nth j v 0))%Q.
Proof.
  intros L. rewrite inner_sum by (rewrite map_length, seq_length; auto). rewrite map_length, seq_length. apply sumn_ext. intros j Hj.
  rewrite nth_map_seq by exact Hj. reflexivity.
Qed.
Lemma sumn_len n m F : n = m -> sumn n F = sumn m F. Proof. congruence. Qed.

Section Row.
  Variables (d m : nat) (v : vec).
  Hypothesis Hv : length v = d * 4 + m * 2.
  Lemma row_eval f : (inner (map f (seq 0 (d * 4 + m * 2))) v ==
    sumn d (fun k => f k * nth k v 0) + sumn d (fun k => f (d + k)%nat * nth (d + k) v 0)
    + sumn d (fun k => f (2 * d + k)%nat * nth (2 * d + k) v 0) + sumn d (fun k => f (3 * d + k)%nat * nth (3 * d + k) v 0)
    + sumn m (fun k => f (4 * d + k)%nat * nth (4 * d + k) v 0) + sumn m (fun k => f (4 * d + m + k)%nat * nth (4 * d + m + k) v 0))%Q.
  Proof.
    rewrite inner_map by exact Hv. set (F := fun j => (f j * nth j v 0)%Q).
    rewrite (@sumn_len (d * 4 + m * 2) (d + (d + (d + (d + (m + m)))))) by lia. rewrite !sumn_app.
    assert (E : forall n a b, a = b -> (sumn n (fun k => F (a + k)%nat) == sumn n (fun k => F (b + k)%nat))%Q) by (intros; subst; reflexivity).
    assert (R : forall n a b, (sumn n (fun k => F (a + (b + k))%nat) == sumn n (fun k => F (a + b + k)%nat))%Q)
      by (intros; apply sumn_ext; intros; rewrite Nat.add_assoc; reflexivity).
    assert (E2 : (sumn d (fun k => F (d + (d + k))%nat) == sumn d (fun k => F (2 * d + k)%nat))%Q)
      by (apply sumn_ext; intros; replace (2 * d + j) with (d + (d + j)) by lia; reflexivity).
    assert (E3 : (sumn d (fun k => F (d + (d + (d + k)))%nat) == sumn d (fun k => F (3 * d + k)%nat))%Q)
      by (apply sumn_ext; intros; replace (3 * d + j) with (d + (d + (d + j))) by lia; reflexivity).
    assert (E4 : (sumn m (fun k => F (d + (d + (d + (d + k))))%nat) == sumn m (fun k => F (4 * d + k)%nat))%Q)
      by (apply sumn_ext; intros; replace (4 * d + j) with (d + (d + (d + (d + j)))) by lia; reflexivity).
    assert (E5 : (sumn m (fun k => F (d + (d + (d + (d + (m + k)))))%nat) == sumn m (fun k => F (4 * d + m + k)%nat))%Q)
      by (apply sumn_ext; intros; replace (4 * d + m + j) with (d + (d + (d + (d + (m + j))))) by lia; reflexivity).
    rewrite E2, E3, E4, E5. unfold F. ring.
  Qed.
End Row.

(** The rows of the program at a point *)
Section Program.
  Variable s : star.
  Hypothesis W : wf_star s.
  Notation d := (dimension (center s)).
  Notation m := (num_vec (basis s)).
  Notation n := (num_cons (g s)).
  Variable v : vec.
  Hypothesis Hv : length v = d * 4 + m * 2.
  Notation X i := (nth i v 0%Q).
  Notation Y i := (nth (d + i) v 0%Q).
  Notation Z' i := (nth (2 * d + i) v 0%Q).
  Notation B i := (nth (3 * d + i) v 0%Q).
  Notation P k := (nth (4 * d + k) v 0%Q).
  Notation R k := (nth (4 * d + m + k) v 0%Q).
  Notation col i := (fun k => nth i (nth k (basis s) []) 0%Q).

  Lemma zlt_true a b : (0 <= a)%Z -> (a < b)%Z -> ((0 <=? a)%Z && (a <? b)%Z) = true.
  Proof. intros. apply andb_true_iff. split; [apply Z.leb_le | apply Z.ltb_lt]; assumption. Qed.
  Lemma zlt_low a b : (a < 0)%Z -> ((0 <=? a)%Z && (a <? b)%Z) = false.
  Proof. intros. apply andb_false_iff. left. apply Z.leb_gt. assumption. Qed.
  Lemma zlt_high a b : (b <= a)%Z -> ((0 <=? a)%Z && (a <? b)%Z) = false.
  Proof. intros. apply andb_false_iff. right. apply Z.ltb_ge. assumption. Qed.

  Lemma xy_first i : i < d -> (inner (row_xy (center s) (basis s) i) v == X i - sumn m (fun k => P k * col i k))%Q.
  Proof.
    intros Hi. unfold row_xy, x_len. rewrite row_eval by exact Hv. unfold A_xy. rewrite Nat.div_small, Nat.mod_small by exact Hi.
    rewrite (@sumn_one d (fun k => _ * nth k v 0)%Q i Hi).
    2: { intros j Hj N. rewrite zlt_low by lia. destruct (Nat.eqb_spec i j); [lia | ring]. }
    rewrite (@sumn_zero d (fun k => _ * nth (d + k) v 0)%Q).
    2: { intros j Hj. rewrite zlt_low by lia. destruct (Nat.eqb_spec i (d + j)); [lia | ring]. }
    rewrite (@sumn_zero d (fun k => _ * nth (2 * d + k) v 0)%Q).
    2: { intros j Hj. rewrite zlt_low by lia. destruct (Nat.eqb_spec i (2 * d + j)); [lia | ring]. }
    rewrite (@sumn_zero d (fun k => _ * nth (3 * d + k) v 0)%Q).
    2: { intros j Hj. rewrite zlt_low by lia. destruct (Nat.eqb_spec i (3 * d + j)); [lia | ring]. }
    rewrite (@sumn_zero m (fun k => _ * nth (4 * d + m + k) v 0)%Q).
    2: { intros j Hj. rewrite zlt_high by lia. destruct (Nat.eqb_spec i (4 * d + m + j)); [lia | ring]. }
    rewrite zlt_low by lia. rewrite Nat.eqb_refl.
    rewrite (@sumn_ext m _ (fun k => - (P k * col i k))%Q).
    2: { intros j Hj. rewrite zlt_true by lia. replace (Z.to_nat _) with j by lia. ring. }
    rewrite (sumn_opp m (fun k => P k * col i k)%Q). ring.
  Qed.
  Lemma xy_second i : i < d -> (inner (row_xy (center s) (basis s) (d + i)) v == Y i - sumn m (fun k => R k * col i k))%Q.
  Proof.
    intros Hi. unfold row_xy, x_len. rewrite row_eval by exact Hv. unfold A_xy.
    assert (E1 : (d + i) / d = 1) by (symmetry; apply (Nat.div_unique _ _ 1 i); lia).
    assert (E2 : (d + i) mod d = i) by (symmetry; apply (Nat.mod_unique _ _ 1 i); lia).
    rewrite E1, E2.
    rewrite (@sumn_zero d (fun k => _ * nth k v 0)%Q).
    2: { intros j Hj. rewrite zlt_low by lia. destruct (Nat.eqb_spec (d + i) j); [lia | ring]. }
    rewrite (@sumn_one d (fun k => _ * nth (d + k) v 0)%Q i Hi).
    2: { intros j Hj N. rewrite zlt_low by lia. destruct (Nat.eqb_spec (d + i) (d + j)); [lia | ring]. }
    rewrite (@sumn_zero d (fun k => _ * nth (2 * d + k) v 0)%Q).
    2: { intros j Hj. rewrite zlt_low by lia. destruct (Nat.eqb_spec (d + i) (2 * d + j)); [lia | ring]. }
    rewrite (@sumn_zero d (fun k => _ * nth (3 * d + k) v 0)%Q).
    2: { intros j Hj. rewrite zlt_low by lia. destruct (Nat.eqb_spec (d + i) (3 * d + j)); [lia | ring]. }
    rewrite (@sumn_zero m (fun k => _ * nth (4 * d + k) v 0)%Q).
    2: { intros j Hj. rewrite zlt_low by lia. destruct (Nat.eqb_spec (d + i) (4 * d + j)); [lia | ring]. }
    rewrite zlt_low by lia. rewrite Nat.eqb_refl.
    rewrite (@sumn_ext m _ (fun k => - (R k * col i k))%Q).
    2: { intros j Hj. rewrite zlt_true by lia. replace (Z.to_nat _) with j by lia. ring. }
    rewrite (sumn_opp m (fun k => R k * col i k)%Q). ring.
  Qed.

  Definition sx (k : nat) : Q := match k with 0 | 2 => 1%Q | _ => (-1)%Q end.
  Definition nb (k : nat) : Q := match k with 0 => bigN | 1 => (-1 * bigN)%Q | _ => 0%Q end.
  Lemma abs_row i k : i < d -> (inner (row_abs (center s) (basis s) i k) v == sx k * (X i - Y i) - Z' i + nb k * B i)%Q.
  Proof.
    intros Hi. unfold row_abs, x_len. rewrite row_eval by exact Hv. unfold A_abs. fold (sx k). fold (nb k).
    assert (T : forall a b, (if a =? b then true else false) = (a =? b)) by (intros; destruct (_ =? _); reflexivity).
    rewrite (@sumn_one d (fun k => _ * nth k v 0)%Q i Hi).
    2: { intros j Hj N. destruct (Nat.eqb_spec j i); [lia |]. destruct (Nat.eqb_spec j (i + d)); [lia |].
         destruct (Nat.eqb_spec j (i + d * 2)); [lia |]. destruct (Nat.eqb_spec j (i + d * 3)); [lia |]. ring. }
    rewrite (@sumn_one d (fun k => _ * nth (d + k) v 0)%Q i Hi).
    2: { intros j Hj N. destruct (Nat.eqb_spec (d + j) i); [lia |]. destruct (Nat.eqb_spec (d + j) (i + d)); [lia |].
         destruct (Nat.eqb_spec (d + j) (i + d * 2)); [lia |]. destruct (Nat.eqb_spec (d + j) (i + d * 3)); [lia |]. ring. }
    rewrite (@sumn_one d (fun k => _ * nth (2 * d + k) v 0)%Q i Hi).
    2: { intros j Hj N. destruct (Nat.eqb_spec (2 * d + j) i); [lia |]. destruct (Nat.eqb_spec (2 * d + j) (i + d)); [lia |].
         destruct (Nat.eqb_spec (2 * d + j) (i + d * 2)); [lia |]. destruct (Nat.eqb_spec (2 * d + j) (i + d * 3)); [lia |]. ring. }
    rewrite (@sumn_one d (fun k => _ * nth (3 * d + k) v 0)%Q i Hi).
    2: { intros j Hj N. destruct (Nat.eqb_spec (3 * d + j) i); [lia |]. destruct (Nat.eqb_spec (3 * d + j) (i + d)); [lia |].
         destruct (Nat.eqb_spec (3 * d + j) (i + d * 2)); [lia |]. destruct (Nat.eqb_spec (3 * d + j) (i + d * 3)); [lia |]. ring. }
    rewrite (@sumn_zero m (fun k => _ * nth (4 * d + k) v 0)%Q).
    2: { intros j Hj. destruct (Nat.eqb_spec (4 * d + j) i); [lia |]. destruct (Nat.eqb_spec (4 * d + j) (i + d)); [lia |].
         destruct (Nat.eqb_spec (4 * d + j) (i + d * 2)); [lia |]. destruct (Nat.eqb_spec (4 * d + j) (i + d * 3)); [lia |]. ring. }
    rewrite (@sumn_zero m (fun k => _ * nth (4 * d + m + k) v 0)%Q).
    2: { intros j Hj. destruct (Nat.eqb_spec (4 * d + m + j) i); [lia |]. destruct (Nat.eqb_spec (4 * d + m + j) (i + d)); [lia |].
         destruct (Nat.eqb_spec (4 * d + m + j) (i + d * 2)); [lia |]. destruct (Nat.eqb_spec (4 * d + m + j) (i + d * 3)); [lia |]. ring. }
    rewrite Nat.eqb_refl.
    destruct (Nat.eqb_spec (d + i) i); [lia |]. destruct (Nat.eqb_spec (d + i) (i + d)); [| lia].
    destruct (Nat.eqb_spec (2 * d + i) i); [lia |]. destruct (Nat.eqb_spec (2 * d + i) (i + d)); [lia |]. destruct (Nat.eqb_spec (2 * d + i) (i + d * 2)); [| lia].
    destruct (Nat.eqb_spec (3 * d + i) i); [lia |]. destruct (Nat.eqb_spec (3 * d + i) (i + d)); [lia |]. destruct (Nat.eqb_spec (3 * d + i) (i + d * 2)); [lia |].
    destruct (Nat.eqb_spec (3 * d + i) (i + d * 3)); [| lia]. ring.
  Qed.

  Lemma alpha_first j : (inner (row_alpha (center s) (basis s) (C s) 0 j) v == sumn m (fun k => nth k (nth j (C s) []) 0 * P k))%Q.
  Proof.
    unfold row_alpha, x_len. rewrite row_eval by exact Hv. unfold A_alpha. rewrite Nat.mul_0_l, Nat.add_0_r.
    assert (L : forall a, a < d * 4 -> (d * 4 <=? a) = false) by (intros; apply Nat.leb_gt; lia).
    rewrite (@sumn_zero d (fun k => _ * nth k v 0)%Q) by (intros k Hk; rewrite L by lia; cbn [andb]; ring).
    rewrite (@sumn_zero d (fun k => _ * nth (d + k) v 0)%Q) by (intros k Hk; rewrite L by lia; cbn [andb]; ring).
    rewrite (@sumn_zero d (fun k => _ * nth (2 * d + k) v 0)%Q) by (intros k Hk; rewrite L by lia; cbn [andb]; ring).
    rewrite (@sumn_zero d (fun k => _ * nth (3 * d + k) v 0)%Q) by (intros k Hk; rewrite L by lia; cbn [andb]; ring).
    rewrite (@sumn_zero m (fun k => _ * nth (4 * d + m + k) v 0)%Q).
    2: { intros k Hk. destruct (Nat.leb_spec (d * 4) (4 * d + m + k)); [| lia]. destruct (Nat.ltb_spec (4 * d + m + k - d * 4) m); [lia |]. cbn [andb]. ring. }
    rewrite !Qplus_0_l, Qplus_0_r. apply sumn_ext. intros k Hk. destruct (Nat.leb_spec (d * 4) (4 * d + k)); [| lia].
    destruct (Nat.ltb_spec (4 * d + k - d * 4) m); [| lia]. cbn [andb]. replace (4 * d + k - d * 4) with k by lia. reflexivity.
  Qed.
  Lemma alpha_second j : (inner (row_alpha (center s) (basis s) (C s) 1 j) v == sumn m (fun k => nth k (nth j (C s) []) 0 * R k))%Q.
  Proof.
    unfold row_alpha, x_len. rewrite row_eval by exact Hv. unfold A_alpha. rewrite Nat.mul_1_l.
    assert (L : forall a, a < d * 4 + m -> (d * 4 + m <=? a) = false) by (intros; apply Nat.leb_gt; lia).
    rewrite (@sumn_zero d (fun k => _ * nth k v 0)%Q) by (intros k Hk; rewrite L by lia; cbn [andb]; ring).
    rewrite (@sumn_zero d (fun k => _ * nth (d + k) v 0)%Q) by (intros k Hk; rewrite L by lia; cbn [andb]; ring).
    rewrite (@sumn_zero d (fun k => _ * nth (2 * d + k) v 0)%Q) by (intros k Hk; rewrite L by lia; cbn [andb]; ring).
    rewrite (@sumn_zero d (fun k => _ * nth (3 * d + k) v 0)%Q) by (intros k Hk; rewrite L by lia; cbn [andb]; ring).
    rewrite (@sumn_zero m (fun k => _ * nth (4 * d + k) v 0)%Q) by (intros k Hk; rewrite L by lia; cbn [andb]; ring).
    rewrite !Qplus_0_l. apply sumn_ext. intros k Hk. destruct (Nat.leb_spec (d * 4 + m) (4 * d + m + k)); [| lia].
    destruct (Nat.ltb_spec (4 * d + m + k - (d * 4 + m)) m); [| lia]. cbn [andb]. replace (4 * d + m + k - (d * 4 + m)) with k by lia. reflexivity.
  Qed.
  Lemma objective : (inner (mp_c (program_of s)) v == - sumn d (fun i => Z' i))%Q.
  Proof.
    unfold program_of, problem, mp_c, x_len. rewrite row_eval by exact Hv. unfold obj.
    assert (L : forall a, a < d * 2 -> (d * 2 <=? a) = false) by (intros; apply Nat.leb_gt; lia).
    assert (U : forall a, d * 3 <= a -> (a <? d * 2 + d) = false) by (intros; apply Nat.ltb_ge; lia).
    rewrite (@sumn_zero d (fun k => _ * nth k v 0)%Q) by (intros k Hk; rewrite L by lia; cbn [andb]; ring).
    rewrite (@sumn_zero d (fun k => _ * nth (d + k) v 0)%Q) by (intros k Hk; rewrite L by lia; cbn [andb]; ring).
    rewrite (@sumn_zero d (fun k => _ * nth (3 * d + k) v 0)%Q) by (intros k Hk; rewrite U, andb_false_r by lia; ring).
    rewrite (@sumn_zero m (fun k => _ * nth (4 * d + k) v 0)%Q) by (intros k Hk; rewrite U, andb_false_r by lia; ring).
    rewrite (@sumn_zero m (fun k => _ * nth (4 * d + m + k) v 0)%Q) by (intros k Hk; rewrite U, andb_false_r by lia; ring).
    rewrite <- sumn_opp. rewrite !Qplus_0_l, !Qplus_0_r. apply sumn_ext. intros k Hk.
    destruct (Nat.leb_spec (d * 2) (2 * d + k)); [| lia]. destruct (Nat.ltb_spec (2 * d + k) (d * 2 + d)); [| lia]. cbn [andb]. ring.
  Qed.
End Program.

(** The rows with their bounds *)
Definition t_row (t : vec * option Q * option Q) := fst (fst t).
Definition t_lo (t : vec * option Q * option Q) := snd (fst t).
Definition t_hi (t : vec * option Q * option Q) := snd t.
Definition rows_of (s : star) : list (vec * option Q * option Q) :=
  map (fun i => (row_xy (center s) (basis s) i, Some (nth (i mod dimension (center s)) (center s) 0%Q), Some (nth (i mod dimension (center s)) (center s) 0%Q)))
    (seq 0 (dimension (center s) * 2))
  ++ flat_map (fun i => map (fun k => (row_abs (center s) (basis s) i k,
       match k with 0 => Some 0%Q | 1 => Some (-1 * bigN)%Q | _ => None end, match k with 0 | 1 => None | _ => Some 0%Q end)) (seq 0 4))
    (seq 0 (dimension (center s)))
  ++ flat_map (fun h => map (fun j => (row_alpha (center s) (basis s) (C s) h j, None, Some (nth j (g s) 0%Q))) (seq 0 (num_cons (g s)))) (seq 0 2).
Lemma map_flat_map {A B D} (f : B -> D) (h : A -> list B) l : map f (flat_map h l) = flat_map (fun a => map f (h a)) l.
Proof. induction l as [| a l IH]; [reflexivity |]. cbn [flat_map]. rewrite map_app, IH. reflexivity. Qed.
Lemma rows_A s : mp_A (program_of s) = map t_row (rows_of s).
Proof.
  unfold program_of, problem, mp_A, matrix, rows_of. rewrite !map_app, !map_flat_map, map_map. f_equal. f_equal; apply flat_map_ext; intros h; rewrite map_map; reflexivity.
Qed.
Lemma rows_lo s : mp_bl (program_of s) = map t_lo (rows_of s).
Proof.
  unfold program_of, problem, mp_bl, bound_lower, rows_of. rewrite !map_app, !map_flat_map, map_map. f_equal. f_equal; apply flat_map_ext; intros h; rewrite ?map_map; reflexivity.
Qed.
Lemma rows_hi s : mp_bu (program_of s) = map t_hi (rows_of s).
Proof.
  unfold program_of, problem, mp_bu, bound_upper, rows_of. rewrite !map_app, !map_flat_map, map_map. f_equal. f_equal; apply flat_map_ext; intros h; rewrite ?map_map; reflexivity.
Qed.
Lemma nth_error_map_seq {X} (f : nat -> X) n j : j < n -> nth_error (map f (seq 0 n)) j = Some (f j).
Proof.
  intros H. rewrite (@nth_error_nth' _ _ j (f 0)) by (rewrite map_length, seq_length; exact H). rewrite map_nth, seq_nth by exact H. reflexivity.
Qed.
Lemma nth_error_map_seq_inv {X} (f : nat -> X) n j x : nth_error (map f (seq 0 n)) j = Some x -> j < n /\ x = f j.
Proof.
  intros H. assert (Hj : j < n) by (apply nth_error_Some_lt in H || (assert (Q1 : nth_error (map f (seq 0 n)) j <> None) by congruence; apply nth_error_Some in Q1; rewrite map_length, seq_length in Q1; exact Q1)).
  split; [exact Hj |]. rewrite nth_error_map_seq in H by exact Hj. congruence.
Qed.

Definition rows_hold (s : star) (v : vec) : Prop := forall t, In t (rows_of s) -> above (t_lo t) (inner (t_row t) v) /\ below (inner (t_row t) v) (t_hi t).
Definition ints_hold (s : star) (v : vec) : Prop := forall i, i < dimension (center s) ->
  let b := nth (3 * dimension (center s) + i) v 0%Q in (0 <= b <= 1)%Q /\ exists z, (b == inject_Z z)%Q.
Lemma admissible_rows s v : admissible (program_of s) v <->
  length v = x_len (center s) (basis s) /\ rows_hold s v /\ ints_hold s v.
Proof.
  unfold admissible. rewrite rows_A, rows_lo, rows_hi.
  assert (Lc : length (mp_c (program_of s)) = x_len (center s) (basis s)) by (cbn; rewrite map_length, seq_length; reflexivity). rewrite Lc.
  split; intros [L [HR HI]]; (split; [exact L |]); split.
  - intros t Ht. apply In_nth_error in Ht as [i Hi]. apply (HR i); rewrite nth_error_map, Hi; reflexivity.
  - intros i Hi b. set (j := 3 * dimension (center s) + i) in *.
    assert (Hj : j < x_len (center s) (basis s)) by (unfold x_len; lia).
    assert (I : is_int (center s) j = true) by (unfold is_int; apply andb_true_iff; split; [apply Nat.leb_le | apply Nat.ltb_lt]; lia).
    destruct (HI j (Some 0%Q) (Some 1%Q) true) as [A1 [A2 A3]].
    + unfold program_of, problem; cbn [mp_lower mp_upper mp_integrality]. rewrite nth_error_map_seq by exact Hj. rewrite I. reflexivity.
    + unfold program_of, problem; cbn [mp_lower mp_upper mp_integrality]. rewrite nth_error_map_seq by exact Hj. rewrite I. reflexivity.
    + unfold program_of, problem; cbn [mp_lower mp_upper mp_integrality]. rewrite nth_error_map_seq by exact Hj. rewrite I. reflexivity.
    + cbn in A1, A2. split; [split; assumption | apply A3; reflexivity].
  - intros i row lo hi E1 E2 E3. rewrite nth_error_map in E1, E2, E3. destruct (nth_error (rows_of s) i) as [t |] eqn:E; [| discriminate].
    cbn in E1, E2, E3. injection E1 as <-. injection E2 as <-. injection E3 as <-. apply HR. apply (nth_error_In _ _ E).
  - intros j lo hi int E1 E2 E3. unfold program_of, problem in E1, E2, E3; cbn [mp_lower mp_upper mp_integrality] in E1, E2, E3. apply nth_error_map_seq_inv in E1 as [Hj ->]. apply nth_error_map_seq_inv in E2 as [_ ->].
    apply nth_error_map_seq_inv in E3 as [_ ->]. destruct (is_int (center s) j) eqn:I; cbn; [| split; [exact Logic.I | split; [exact Logic.I | discriminate]]].
    unfold is_int in I. apply andb_true_iff in I as [I1 I2]. apply Nat.leb_le in I1. apply Nat.ltb_lt in I2.
    destruct (HI (j - dimension (center s) * 3)) as [[B1 B2] B3]; [lia |].
    replace (3 * dimension (center s) + (j - dimension (center s) * 3)) with j in * by lia. split; [exact B1 | split; [exact B2 | intros _; exact B3]].
Qed.

Definition slice (a n : nat) (v : vec) : vec := map (fun k => nth (a + k) v 0%Q) (seq 0 n).
Lemma slice_length a n v : length (slice a n v) = n. Proof. unfold slice. rewrite map_length, seq_length. reflexivity. Qed.
Lemma slice_nth a n v k : k < n -> nth k (slice a n v) 0%Q = nth (a + k) v 0%Q. Proof. intros H. unfold slice. rewrite nth_map_seq by exact H. reflexivity. Qed.

Lemma point_sum s alpha i : length alpha = gens s ->
  (inner alpha (map (fun u => nth i u 0) (basis s)) == sumn (num_vec (basis s)) (fun k => nth k alpha 0 * nth i (nth k (basis s) []) 0))%Q.
Proof.
  intros L. unfold gens in L. rewrite inner_sum by (rewrite map_length; exact L). rewrite L. unfold num_vec. apply sumn_ext. intros k Hk.
  assert (E : nth k (map (fun u : vec => nth i u 0%Q) (basis s)) 0%Q = nth i (nth k (basis s) []) 0%Q).
  { rewrite (nth_indep _ 0%Q (nth i [] 0%Q)) by (rewrite map_length; exact Hk). apply (map_nth (fun u : vec => nth i u 0%Q)). }
  rewrite E. reflexivity.
Qed.
Lemma obeys_sum s alpha : wf_star s -> length alpha = gens s ->
  (obeys (C s) (g s) alpha <-> forall j, j < num_cons (g s) -> (sumn (num_vec (basis s)) (fun k => nth k (nth j (C s) []) 0 * nth k alpha 0) <= nth j (g s) 0)%Q).
Proof.
  intros [_ [W1 W2]] L. unfold obeys, num_cons. unfold gens in *.
  assert (E : forall j, j < length (C s) -> (inner (nth j (C s) []) alpha == sumn (num_vec (basis s)) (fun k => nth k (nth j (C s) []) 0 * nth k alpha 0))%Q).
  { intros j Hj. assert (Lr : length (nth j (C s) []) = length (basis s)) by (apply W1, nth_In; exact Hj). rewrite inner_sum by congruence. rewrite Lr. reflexivity. }
  split.
  - intros F j Hj. rewrite <- E by lia. clear - F Hj. revert j Hj. induction F as [| r b A bs H F IH]; intros j Hj; [cbn in Hj; lia |].
    destruct j as [| j]; [exact H |]. cbn in *. apply IH. lia.
  - intros F. assert (F' : forall j, j < length (g s) -> (inner (nth j (C s) []) alpha <= nth j (g s) 0)%Q) by (intros j Hj; rewrite E by lia; apply F; exact Hj).
    clear - F' W2. revert F' W2. generalize (g s). generalize (C s). induction l as [| r A IH]; intros [| b bs] F' W2; try discriminate; constructor.
    + apply (F' 0). cbn. lia.
    + apply IH; [| cbn in W2; lia]. intros j Hj. apply (F' (S j)). cbn. lia.
Qed.

Section Exact.
  Variable s : star.
  Hypothesis W : wf_star s.
  Notation d := (dimension (center s)).
  Notation m := (num_vec (basis s)).
  Notation n := (num_cons (g s)).
  Definition first_point (v : vec) : vec := slice 0 d v.
  Definition second_point (v : vec) : vec := slice d d v.

  Lemma admissible_sound v : admissible (program_of s) v ->
    in_star s (first_point v) /\ in_star s (second_point v)
    /\ (forall i, i < d -> (2 * Qabs (nth i (first_point v) 0 - nth i (second_point v) 0) <= bigN)%Q)
    /\ (inner (mp_c (program_of s)) v == - l1 (first_point v) (second_point v))%Q.
  Proof.
    rewrite admissible_rows. intros [L [HR HI]]. unfold x_len in L.
    assert (XY : forall i, i < d * 2 -> (inner (row_xy (center s) (basis s) i) v == nth (i mod d) (center s) 0)%Q).
    { intros i Hi. destruct (HR (row_xy (center s) (basis s) i, Some (nth (i mod d) (center s) 0%Q), Some (nth (i mod d) (center s) 0%Q))) as [H1 H2].
      - apply in_or_app. left. apply (in_map (fun i => (row_xy (center s) (basis s) i, Some (nth (i mod d) (center s) 0%Q), Some (nth (i mod d) (center s) 0%Q)))). apply in_seq. lia.
      - cbn in H1, H2. lra. }
    assert (AB : forall i k, i < d -> k < 4 ->
      above (match k with 0 => Some 0%Q | 1 => Some (-1 * bigN)%Q | _ => None end) (inner (row_abs (center s) (basis s) i k) v)
      /\ below (inner (row_abs (center s) (basis s) i k) v) (match k with 0 | 1 => None | _ => Some 0%Q end)).
    { intros i k Hi Hk. apply (HR (row_abs (center s) (basis s) i k, match k with 0 => Some 0%Q | 1 => Some (-1 * bigN)%Q | _ => None end, match k with 0 | 1 => None | _ => Some 0%Q end)).
      apply in_or_app. right. apply in_or_app. left. apply in_flat_map. exists i. split; [apply in_seq; lia |].
      apply (in_map (fun k => (row_abs (center s) (basis s) i k, match k with 0 => Some 0%Q | 1 => Some (-1 * bigN)%Q | _ => None end, match k with 0 | 1 => None | _ => Some 0%Q end))).
      apply in_seq. lia. }
    assert (AL : forall h j, h < 2 -> j < n -> (inner (row_alpha (center s) (basis s) (C s) h j) v <= nth j (g s) 0)%Q).
    { intros h j Hh Hj. apply (HR (row_alpha (center s) (basis s) (C s) h j, None, Some (nth j (g s) 0%Q))).
      apply in_or_app. right. apply in_or_app. right. apply in_flat_map. exists h. split; [apply in_seq; lia |].
      apply (in_map (fun j => (row_alpha (center s) (basis s) (C s) h j, None, Some (nth j (g s) 0%Q)))). apply in_seq. lia. }
    assert (ZZ : forall i, i < d -> (nth (2 * d + i) v 0 == Qabs (nth i v 0 - nth (d + i) v 0) /\ 2 * Qabs (nth i v 0 - nth (d + i) v 0) <= bigN)%Q).
    { intros i Hi. destruct (AB i 0 Hi) as [A0 _]; [lia |]. destruct (AB i 1 Hi) as [A1 _]; [lia |]. destruct (AB i 2 Hi) as [_ A2]; [lia |].
      destruct (AB i 3 Hi) as [_ A3]; [lia |]. unfold above, below in A0, A1, A2, A3. rewrite abs_row in A0, A1, A2, A3 by assumption.
      cbn [sx nb] in A0, A1, A2, A3. destruct (HI i Hi) as [[B1 B2] [z Bz]]. unfold bigN in *. change (inject_Z 1048575) with (1048575 # 1)%Q in *.
      set (x := nth i v 0%Q) in *. set (y := nth (d + i) v 0%Q) in *. set (zz := nth (2 * d + i) v 0%Q) in *. set (b := nth (3 * d + i) v 0%Q) in *.
      assert (Hz : (z = 0 \/ z = 1)%Z).
      { assert (0 <= z)%Z by (rewrite Zle_Qle; rewrite <- Bz; exact B1). assert (z <= 1)%Z by (rewrite Zle_Qle; rewrite <- Bz; exact B2). lia. }
      destruct Hz as [-> | ->]; change (inject_Z 0) with 0%Q in Bz; change (inject_Z 1) with 1%Q in Bz.
      - rewrite Qabs_pos by lra. split; lra.
      - rewrite Qabs_neg by lra. split; lra. }
    assert (N1 : forall i, i < d -> nth i (first_point v) 0%Q = nth i v 0%Q) by (intros i Hi; unfold first_point; rewrite slice_nth by exact Hi; reflexivity).
    assert (N2 : forall i, i < d -> nth i (second_point v) 0%Q = nth (d + i) v 0%Q) by (intros i Hi; unfold second_point; rewrite slice_nth by exact Hi; reflexivity).
    split; [| split; [| split]].
    - exists (slice (4 * d) m v). split; [apply slice_length |]. split.
      + apply obeys_sum; [exact W | apply slice_length |]. intros j Hj. specialize (AL 0 j ltac:(lia) Hj). rewrite alpha_first in AL by exact L.
        eapply Qle_trans; [| exact AL]. apply Qle_lteq. right. apply sumn_ext. intros k Hk. rewrite slice_nth by exact Hk. reflexivity.
      + split; [apply slice_length |]. intros i Hi. change (dim s) with d in Hi. rewrite point_sum by apply slice_length. rewrite N1 by exact Hi.
        specialize (XY i ltac:(lia)). rewrite xy_first in XY by assumption. rewrite Nat.mod_small in XY by exact Hi.
        rewrite (@sumn_ext m _ (fun k => nth (4 * d + k) v 0 * nth i (nth k (basis s) []) 0)%Q); [lra |]. intros k Hk. rewrite slice_nth by exact Hk. reflexivity.
    - exists (slice (4 * d + m) m v). split; [apply slice_length |]. split.
      + apply obeys_sum; [exact W | apply slice_length |]. intros j Hj. specialize (AL 1 j ltac:(lia) Hj). rewrite alpha_second in AL by exact L.
        eapply Qle_trans; [| exact AL]. apply Qle_lteq. right. apply sumn_ext. intros k Hk. rewrite slice_nth by exact Hk. reflexivity.
      + split; [apply slice_length |]. intros i Hi. change (dim s) with d in Hi. rewrite point_sum by apply slice_length. rewrite N2 by exact Hi.
        specialize (XY (d + i) ltac:(lia)). rewrite xy_second in XY by assumption.
        assert (E2 : (d + i) mod d = i) by (symmetry; apply (Nat.mod_unique _ _ 1 i); lia). rewrite E2 in XY.
        rewrite (@sumn_ext m _ (fun k => nth (4 * d + m + k) v 0 * nth i (nth k (basis s) []) 0)%Q); [lra |]. intros k Hk. rewrite slice_nth by exact Hk. reflexivity.
    - intros i Hi. rewrite N1, N2 by exact Hi. apply ZZ. exact Hi.
    - rewrite objective by exact L. rewrite l1_sum by (unfold first_point, second_point; rewrite !slice_length; reflexivity).
      unfold first_point at 1. rewrite slice_length. rewrite (@sumn_ext d _ (fun k => Qabs (nth k (first_point v) 0%Q - nth k (second_point v) 0%Q))); [reflexivity |].
      intros i Hi. rewrite N1, N2 by exact Hi. apply ZZ. exact Hi.
  Qed.

  Definition packed (x y a1 a2 : vec) (j : nat) : Q :=
    if j <? d then nth j x 0%Q else if j <? 2 * d then nth (j - d) y 0%Q
    else if j <? 3 * d then Qabs (nth (j - 2 * d) x 0%Q - nth (j - 2 * d) y 0%Q)
    else if j <? 4 * d then (if Qle_bool (nth (j - 3 * d) y 0%Q) (nth (j - 3 * d) x 0%Q) then 0%Q else 1%Q)
    else if j <? 4 * d + m then nth (j - 4 * d) a1 0%Q else nth (j - (4 * d + m)) a2 0%Q.
  Lemma admissible_complete x y : in_star s x -> in_star s y -> (forall i, i < d -> (2 * Qabs (nth i x 0 - nth i y 0) <= bigN)%Q) ->
    exists v, admissible (program_of s) v /\ (inner (mp_c (program_of s)) v == - l1 x y)%Q.
  Proof.
    intros [a1 [L1 [O1 [Lx P1]]]] [a2 [L2 [O2 [Ly P2]]]] Hs. change (dim s) with d in *.
    set (v := map (packed x y a1 a2) (seq 0 (d * 4 + m * 2))).
    assert (L : length v = d * 4 + m * 2) by (unfold v; rewrite map_length, seq_length; reflexivity).
    assert (V : forall j, j < d * 4 + m * 2 -> nth j v 0%Q = packed x y a1 a2 j) by (intros j Hj; unfold v; apply nth_map_seq; exact Hj).
    assert (VX : forall i, i < d -> nth i v 0%Q = nth i x 0%Q).
    { intros i Hi. rewrite V by lia. unfold packed. destruct (Nat.ltb_spec i d); [reflexivity | lia]. }
    assert (VY : forall i, i < d -> nth (d + i) v 0%Q = nth i y 0%Q).
    { intros i Hi. rewrite V by lia. unfold packed. destruct (Nat.ltb_spec (d + i) d); [lia |]. destruct (Nat.ltb_spec (d + i) (2 * d)); [| lia]. f_equal. lia. }
    assert (VZ : forall i, i < d -> nth (2 * d + i) v 0%Q = Qabs (nth i x 0%Q - nth i y 0%Q)).
    { intros i Hi. rewrite V by lia. unfold packed. destruct (Nat.ltb_spec (2 * d + i) d); [lia |]. destruct (Nat.ltb_spec (2 * d + i) (2 * d)); [lia |].
      destruct (Nat.ltb_spec (2 * d + i) (3 * d)); [| lia]. replace (2 * d + i - 2 * d) with i by lia. reflexivity. }
    assert (VB : forall i, i < d -> nth (3 * d + i) v 0%Q = if Qle_bool (nth i y 0%Q) (nth i x 0%Q) then 0%Q else 1%Q).
    { intros i Hi. rewrite V by lia. unfold packed. destruct (Nat.ltb_spec (3 * d + i) d); [lia |]. destruct (Nat.ltb_spec (3 * d + i) (2 * d)); [lia |].
      destruct (Nat.ltb_spec (3 * d + i) (3 * d)); [lia |]. destruct (Nat.ltb_spec (3 * d + i) (4 * d)); [| lia]. replace (3 * d + i - 3 * d) with i by lia. reflexivity. }
    assert (VP : forall k, k < m -> nth (4 * d + k) v 0%Q = nth k a1 0%Q).
    { intros k Hk. rewrite V by lia. unfold packed. destruct (Nat.ltb_spec (4 * d + k) d); [lia |]. destruct (Nat.ltb_spec (4 * d + k) (2 * d)); [lia |].
      destruct (Nat.ltb_spec (4 * d + k) (3 * d)); [lia |]. destruct (Nat.ltb_spec (4 * d + k) (4 * d)); [lia |]. destruct (Nat.ltb_spec (4 * d + k) (4 * d + m)); [| lia].
      f_equal. lia. }
    assert (VR : forall k, k < m -> nth (4 * d + m + k) v 0%Q = nth k a2 0%Q).
    { intros k Hk. rewrite V by lia. unfold packed. destruct (Nat.ltb_spec (4 * d + m + k) d); [lia |]. destruct (Nat.ltb_spec (4 * d + m + k) (2 * d)); [lia |].
      destruct (Nat.ltb_spec (4 * d + m + k) (3 * d)); [lia |]. destruct (Nat.ltb_spec (4 * d + m + k) (4 * d)); [lia |]. destruct (Nat.ltb_spec (4 * d + m + k) (4 * d + m)); [lia |].
      f_equal. lia. }
    exists v. split.
    - apply admissible_rows. split; [exact L |]. split.
      + intros t Ht. apply in_app_or in Ht as [Ht | Ht].
        * apply in_map_iff in Ht as [i [<- Hi]]. apply in_seq in Hi. cbn [t_lo t_hi t_row fst snd above below].
          assert (E : (inner (row_xy (center s) (basis s) i) v == nth (i mod d) (center s) 0)%Q).
          { destruct (Nat.lt_ge_cases i d) as [Hd | Hd].
            - rewrite Nat.mod_small by exact Hd. rewrite xy_first by assumption. rewrite VX by exact Hd. rewrite P1 by exact Hd. rewrite point_sum by exact L1.
              rewrite (@sumn_ext m (fun k => nth (4 * d + k) v 0 * _)%Q (fun k => nth k a1 0 * nth i (nth k (basis s) []) 0)%Q); [ring |].
              intros k Hk. rewrite VP by exact Hk. reflexivity.
            - set (i' := i - d). assert (Hi' : i' < d) by lia. replace i with (d + i') by lia.
              assert (E2 : (d + i') mod d = i') by (symmetry; apply (Nat.mod_unique _ _ 1 i'); lia). rewrite E2.
              rewrite xy_second by assumption. rewrite VY by exact Hi'. rewrite P2 by exact Hi'. rewrite point_sum by exact L2.
              rewrite (@sumn_ext m (fun k => nth (4 * d + m + k) v 0 * _)%Q (fun k => nth k a2 0 * nth i' (nth k (basis s) []) 0)%Q); [ring |].
              intros k Hk. rewrite VR by exact Hk. reflexivity. }
          split; lra.
        * apply in_app_or in Ht as [Ht | Ht]; apply in_flat_map in Ht as [i [Hi Ht]]; apply in_map_iff in Ht as [k [<- Hk]]; apply in_seq in Hi; apply in_seq in Hk;
            cbn [t_lo t_hi t_row fst snd above below].
          -- pose proof (abs_row s v L k (proj2 Hi)) as AR. specialize (Hs i ltac:(lia)). rewrite VX, VY, VZ, VB in AR by lia. set (p := nth i x 0%Q) in *. set (q := nth i y 0%Q) in *.
             unfold bigN in *. change (inject_Z 1048575) with (1048575 # 1)%Q in *.
             destruct (Qle_bool q p) eqn:E.
             ++ apply Qle_bool_iff in E. rewrite Qabs_pos in * by lra.
                destruct k as [| [| [| [| k]]]]; [| | | | lia]; cbn [sx nb] in AR; unfold bigN in AR; change (inject_Z 1048575) with (1048575 # 1)%Q in AR; unfold above, below, bigN; change (inject_Z 1048575) with (1048575 # 1)%Q; split; trivial; lra.
             ++ assert (E' : (p < q)%Q) by (apply Qnot_le_lt; intros C'; apply Qle_bool_iff in C'; congruence). rewrite Qabs_neg in * by lra.
                destruct k as [| [| [| [| k]]]]; [| | | | lia]; cbn [sx nb] in AR; unfold bigN in AR; change (inject_Z 1048575) with (1048575 # 1)%Q in AR; unfold above, below, bigN; change (inject_Z 1048575) with (1048575 # 1)%Q; split; trivial; lra.
          -- split; [exact Logic.I |]. destruct i as [| [| i]]; [| | lia].
             ++ rewrite alpha_first by exact L. eapply Qle_trans; [| apply (proj1 (obeys_sum a1 W L1) O1 k); lia].
                apply Qle_lteq. right. apply sumn_ext. intros k' Hk'. rewrite VP by exact Hk'. reflexivity.
             ++ rewrite alpha_second by exact L. eapply Qle_trans; [| apply (proj1 (obeys_sum a2 W L2) O2 k); lia].
                apply Qle_lteq. right. apply sumn_ext. intros k' Hk'. rewrite VR by exact Hk'. reflexivity.
      + intros i Hi b. unfold b. rewrite VB by exact Hi. destruct (Qle_bool _ _).
        * split; [lra | exists 0%Z; reflexivity].
        * split; [lra | exists 1%Z; reflexivity].
    - rewrite objective by exact L. rewrite l1_sum by congruence. rewrite Lx.
      rewrite (@sumn_ext d _ (fun k => Qabs (nth k x 0%Q - nth k y 0%Q))); [reflexivity |]. intros i Hi. rewrite VZ by exact Hi. reflexivity.
  Qed.
End Exact.

(** Reading the stars of a time window *)
Lemma in_window_all lo hi rows : StronglySorted Qle (map fst rows) -> in_window lo hi rows = map snd (filter (fun r => Qle_bool lo (fst r) && Qle_bool (fst r) hi) rows).
Proof.
  induction rows as [| [t st] rows IH]; intros S; [reflexivity |]. cbn [map fst] in S. apply StronglySorted_inv in S as [S F]. cbn [in_window filter fst snd].
  destruct (Qle_bool lo t) eqn:E1; cbn [negb andb]; [| apply IH; exact S].
  destruct (Qle_bool t hi) eqn:E2; cbn [negb map snd]; [f_equal; apply IH; exact S |].
  assert (Z : filter (fun r : Q * star => Qle_bool lo (fst r) && Qle_bool (fst r) hi) rows = []).
  { clear IH S E1. rewrite Forall_forall in F. induction rows as [| [t' st'] rows IH]; [reflexivity |]. cbn [filter fst].
    assert (E : Qle_bool t' hi = false).
    { destruct (Qle_bool t' hi) eqn:E; [| reflexivity]. exfalso. apply Qle_bool_iff in E. assert (t <= t')%Q by (apply F; left; reflexivity).
      assert (Qle_bool t hi = true) by (apply Qle_bool_iff; lra). congruence. }
    rewrite E, andb_false_r. apply IH. intros x Hx. apply F. right. exact Hx. }
  rewrite Z. reflexivity.
Qed.
Lemma max_of_spec l x : (forall y, In y (x :: l) -> (y <= max_of x l)%Q) /\ In (max_of x l) (x :: l).
Proof.
  unfold max_of. revert x. induction l as [| y l IH]; intros x; cbn [fold_left].
  - split; [intros y [<- | []]; lra | left; reflexivity].
  - destruct (Qle_bool y x) eqn:E; cbn [negb].
    + apply Qle_bool_iff in E. destruct (IH x) as [A B]. split.
      * intros z [<- | [<- | Hz]]; [apply A; left; reflexivity | eapply Qle_trans; [exact E | apply A; left; reflexivity] | apply A; right; exact Hz].
      * destruct B as [B | B]; [left; exact B | right; right; exact B].
    + assert (E' : (x < y)%Q) by (apply Qnot_le_lt; intros C'; apply Qle_bool_iff in C'; congruence). destruct (IH y) as [A B]. split.
      * intros z [<- | [<- | Hz]]; [assert (y <= fold_left (fun m y => if negb (Qle_bool y m) then y else m) l y)%Q by (apply A; left; reflexivity); lra | apply A; left; reflexivity | apply A; right; exact Hz].
      * right. exact B.
Qed.

Section Reach.
  Variables (A : Type) (eqb : A -> A -> bool).
  Hypothesis eqb_eq : forall a b, eqb a b = true <-> a = b.
  Notation trace := (dict A (list (Q * star))).
  Lemma dappend_in a (x : star) (r : dict A (list star)) y : In y (flat_map snd (dappend eqb a x r)) <-> y = x \/ In y (flat_map snd r).
  Proof.
    unfold dappend. induction r as [| [k l] r IH]; cbn [dalter flat_map snd].
    - cbn [In app]. intuition.
    - destruct (eqb a k); cbn [flat_map snd]; rewrite ?in_app_iff; cbn [In]; [intuition |]. rewrite IH. tauto.
  Qed.
  Lemma append_all_in a xs (r : dict A (list star)) y : In y (flat_map snd (fold_left (fun r s => dappend eqb a s r) xs r)) <-> In y xs \/ In y (flat_map snd r).
  Proof. revert r. induction xs as [| x xs IH]; intros r; cbn [fold_left In]; [tauto |]. rewrite IH, dappend_in. intuition. Qed.

  Definition visit (lo hi : Q) (node : trace) (acc : option (dict A (list star))) (agent : A) : option (dict A (list star)) :=
    do reach <- acc; do rows <- dget eqb agent node; Some (fold_left (fun reach s => dappend eqb agent s reach) (in_window lo hi rows) reach).
  Lemma visits lo hi node agents r : (forall a, In a agents -> dget eqb a node <> None) ->
    exists r', fold_left (visit lo hi node) agents (Some r) = Some r' /\
      forall y, In y (flat_map snd r') <-> In y (flat_map snd r) \/ exists a rows, In a agents /\ dget eqb a node = Some rows /\ In y (in_window lo hi rows).
  Proof.
    revert r. induction agents as [| a agents IH]; intros r H; cbn [fold_left].
    - exists r. split; [reflexivity |]. intros y. split; [left; assumption | intros [H1 | [a [rows [[] _]]]]; exact H1].
    - destruct (dget eqb a node) as [rows |] eqn:E; [| exfalso; apply (H a); [left; reflexivity | exact E]].
      unfold visit at 2. cbn [obind]. rewrite E. cbn [obind].
      destruct (IH (fold_left (fun reach s => dappend eqb a s reach) (in_window lo hi rows) r)) as [r' [E' I]]; [intros b Hb; apply H; right; exact Hb |].
      exists r'. split; [exact E' |]. intros y. rewrite I, append_all_in. split.
      + intros [[H1 | H1] | [b [rows' [Hb H1]]]].
        * right. exists a, rows. split; [left; reflexivity | split; [exact E | exact H1]].
        * left. exact H1.
        * right. exists b, rows'. split; [right; exact Hb | exact H1].
      + intros [H1 | [b [rows' [[<- | Hb] [H1 H2]]]]].
        * left. right. exact H1.
        * rewrite E in H1. injection H1 as <-. left. left. exact H2.
        * right. exists b, rows'. tauto.
  Qed.
  Lemma all_visits lo hi nodes agents r : (forall node a, In node nodes -> In a agents -> dget eqb a node <> None) ->
    exists r', fold_left (fun acc node => fold_left (visit lo hi node) agents acc) nodes (Some r) = Some r' /\
      forall y, In y (flat_map snd r') <-> In y (flat_map snd r) \/ exists node a rows, In node nodes /\ In a agents /\ dget eqb a node = Some rows /\ In y (in_window lo hi rows).
  Proof.
    revert r. induction nodes as [| node nodes IH]; intros r H; cbn [fold_left].
    - exists r. split; [reflexivity |]. intros y. split; [left; assumption | intros [H1 | [b [a [rows [[] _]]]]]; exact H1].
    - destruct (@visits lo hi node agents r) as [r1 [E1 I1]]; [intros a Ha; apply H; [left; reflexivity | exact Ha] |]. rewrite E1.
      destruct (IH r1) as [r2 [E2 I2]]; [intros b a Hb Ha; apply H; [right; exact Hb | exact Ha] |]. exists r2. split; [exact E2 |].
      intros y. rewrite I2, I1. split.
      + intros [[H1 | [a [rows H1]]] | [b [a [rows [Hb H1]]]]].
        * left. exact H1.
        * right. exists node, a, rows. split; [left; reflexivity | exact H1].
        * right. exists b, a, rows. split; [right; exact Hb | exact H1].
      + intros [H1 | [b [a [rows [[<- | Hb] H1]]]]].
        * left. left. exact H1.
        * left. right. exists a, rows. exact H1.
        * right. exists b, a, rows. split; [exact Hb | exact H1].
  Qed.
  Lemma dget_key a (d : trace) : dget eqb a d <> None <-> In a (map fst d).
  Proof.
    induction d as [| [k v] d IH]; cbn [dget map fst In]; [tauto |]. destruct (eqb a k) eqn:E.
    - apply eqb_eq in E. split; [intros _; left; symmetry; exact E | discriminate].
    - rewrite IH. split; [tauto |]. intros [<- | H]; [| exact H]. assert (eqb k k = true) by (apply eqb_eq; reflexivity). congruence.
  Qed.

  Lemma grid_window (step : Q) (k : nat) (t : Q) : (0 < step)%Q -> (exists j : nat, (t == inject_Z (Z.of_nat j) * step)%Q) ->
    ((Qle_bool (inject_Z (Z.of_nat k) * step - step * (1 # 10)) t && Qle_bool t (inject_Z (Z.of_nat (k + 1)) * step - step * (1 # 10))) = true
     <-> (t == inject_Z (Z.of_nat k) * step)%Q).
  Proof.
    intros Hs [j Ht]. rewrite andb_true_iff, !Qle_bool_iff. rewrite Nat2Z.inj_add, inject_Z_plus. change (inject_Z (Z.of_nat 1)) with 1%Q. rewrite Ht.
    destruct (Nat.lt_trichotomy j k) as [L | [-> | L]].
    - assert (D : (inject_Z (Z.of_nat j) + 1 <= inject_Z (Z.of_nat k))%Q) by (change 1%Q with (inject_Z 1); rewrite <- inject_Z_plus, <- Zle_Qle; lia).
      split; intros; exfalso; nra.
    - split; [reflexivity |]. intros _. split; nra.
    - assert (D : (inject_Z (Z.of_nat k) + 1 <= inject_Z (Z.of_nat j))%Q) by (change 1%Q with (inject_Z 1); rewrite <- inject_Z_plus, <- Zle_Qle; lia).
      split; intros; exfalso; nra.
  Qed.

  Lemma reach_star_grid nodes step k a b : nodes <> [] -> (0 < step)%Q -> same_agents eqb nodes -> on_grid eqb nodes step ->
    (a == inject_Z (Z.of_nat k) * step)%Q -> (b == inject_Z (Z.of_nat (k + 1)) * step)%Q ->
    exists reach, reach_star eqb nodes (a - step * (1 # 10)) (b - step * (1 # 10)) = Some reach /\
      forall s, In s (flat_map snd reach) <-> star_at eqb nodes (inject_Z (Z.of_nat k) * step) s.
  Proof.
    intros NE Hs SA OG Ea Eb. destruct nodes as [| n0 nodes]; [congruence |]. unfold reach_star. cbn [hd_error obind].
    destruct (@all_visits (a - step * (1 # 10)) (b - step * (1 # 10)) (n0 :: nodes) (map fst n0) []) as [r [E I]].
    { intros node x Hn Hx. apply (SA n0); [left; reflexivity | exact Hn |]. apply dget_key. exact Hx. }
    exists r. split; [exact E |]. intros s. rewrite I. cbn [flat_map In].
    assert (KW : forall t, (exists j : nat, (t == inject_Z (Z.of_nat j) * step)%Q) ->
      ((Qle_bool (a - step * (1 # 10)) t && Qle_bool t (b - step * (1 # 10))) = true <-> (t == inject_Z (Z.of_nat k) * step)%Q)).
    { intros t G. rewrite <- (grid_window k Hs G). rewrite !andb_true_iff, !Qle_bool_iff. rewrite Ea, Eb. tauto. }
    split.
    - intros [[] | [node [x [rows [Hn [Hx [Hr Hi]]]]]]]. destruct (OG node x rows Hn Hr) as [SS GG]. rewrite in_window_all in Hi by exact SS.
      apply in_map_iff in Hi as [[t st] [Es Hf]]. cbn [snd] in Es. subst st. apply filter_In in Hf as [Hin Hw]. cbn [fst] in Hw.
      apply (KW t (GG t s Hin)) in Hw. exists node, x, rows, t. split; [exact Hn | split; [exact Hr | split; [exact Hin | exact Hw]]].
    - intros [node [x [rows [t [Hn [Hr [Hin Ht]]]]]]]. right. exists node, x, rows. split; [exact Hn |]. split.
      + apply dget_key. apply (SA node); [exact Hn | left; reflexivity | rewrite Hr; discriminate].
      + split; [exact Hr |]. destruct (OG node x rows Hn Hr) as [SS GG]. rewrite in_window_all by exact SS. apply in_map_iff. exists (t, s). split; [reflexivity |].
        apply filter_In. split; [exact Hin |]. cbn [fst]. apply (KW t (GG t s Hin)). exact Ht.
  Qed.

  Variable milp : milp_problem -> option Q.
  Variable linprog : bool -> vec -> list vec -> vec -> lp.
  Lemma one_step_grid nodes step k a b : nodes <> [] -> (0 < step)%Q -> same_agents eqb nodes -> on_grid eqb nodes step ->
    (forall t s, star_at eqb nodes t s -> star_diameter milp linprog s <> None) ->
    (a == inject_Z (Z.of_nat k) * step)%Q -> (b == inject_Z (Z.of_nat (k + 1)) * step)%Q ->
    exists r, one_step milp linprog eqb nodes step a b = Some r /\
      ((r = [] /\ forall s, ~ star_at eqb nodes (inject_Z (Z.of_nat k) * step) s)
       \/ exists q, r = [q] /\ largest_at eqb (star_diameter milp linprog) nodes (inject_Z (Z.of_nat k) * step) q).
  Proof.
    intros NE Hs SA OG OK Ea Eb. destruct (@reach_star_grid nodes step k a b NE Hs SA OG Ea Eb) as [reach [Er I]]. unfold one_step. rewrite Er. cbn [obind].
    assert (M : exists ds, mapM (star_diameter milp linprog) (flat_map snd reach) = Some ds).
    { assert (OK' : forall s, In s (flat_map snd reach) -> star_diameter milp linprog s <> None) by (intros s Hin; eapply OK; apply I; exact Hin).
      clear I Er. induction (flat_map snd reach) as [| s l IH]; [exists []; reflexivity |]. cbn [mapM].
      destruct (star_diameter milp linprog s) as [q |] eqn:E; [| exfalso; apply (OK' s); [left; reflexivity | exact E]].
      destruct IH as [ds Eds]; [intros s' Hs'; apply OK'; right; exact Hs' |]. rewrite Eds. cbn. eexists. reflexivity. }
    destruct M as [ds Eds]. rewrite Eds. cbn [obind]. apply mapM_Forall2 in Eds.
    assert (IN : forall q, In q ds <-> exists s, In s (flat_map snd reach) /\ star_diameter milp linprog s = Some q).
    { clear I Er. induction Eds as [| s q l ds Hq F IH]; intros q'; cbn [In]; [split; [tauto | intros [s [[] _]]] |]. rewrite IH. split.
      - intros [<- | [s' [H1 H2]]]; [exists s; split; [left; reflexivity | exact Hq] | exists s'; split; [right; exact H1 | exact H2]].
      - intros [s' [[<- | H1] H2]]; [left; congruence | right; exists s'; tauto]. }
    destruct ds as [| x rest].
    - eexists. split; [reflexivity |]. left. split; [reflexivity |]. intros s Hs'. apply I in Hs'. inversion Eds as [E0 |]. rewrite <- E0 in Hs'. exact Hs'.
    - eexists. split; [reflexivity |]. right. exists (max_of x rest). split; [reflexivity |]. destruct (max_of_spec rest x) as [U V]. split.
      + apply IN in V as [s [H1 H2]]. exists s. split; [apply I; exact H1 | exact H2].
      + intros s q' H1 H2. apply U. apply IN. exists s. split; [apply I; exact H1 | exact H2].
  Qed.
End Reach.

Lemma time_steps_grid (n : nat) (step T : Q) : (0 < step)%Q -> (T == inject_Z (Z.of_nat n) * step)%Q ->
  length (time_steps T step) = n + 2 /\ forall i, i < n + 2 -> (nth i (time_steps T step) 0 == inject_Z (Z.of_nat i) * step)%Q.
Proof.
  intros Hs HT. unfold time_steps.
  assert (E : Z.to_nat (Qfloor (T / step)) = n).
  { assert (E1 : (T / step == inject_Z (Z.of_nat n))%Q) by (rewrite HT; field; lra). rewrite E1, Qfloor_Z. lia. }
  rewrite E. set (f := fun i : nat => if n =? 0 then 0%Q else (inject_Z (Z.of_nat i) * T / inject_Z (Z.of_nat n))%Q).
  assert (F : forall i, i <= n -> (f i == inject_Z (Z.of_nat i) * step)%Q).
  { intros i Hi. unfold f. destruct (Nat.eqb_spec n 0) as [-> | N]; [assert (i = 0) by lia; subst; change (inject_Z (Z.of_nat 0)) with 0%Q; ring |].
    rewrite HT. field. change 0%Q with (inject_Z 0). rewrite inject_Z_injective. lia. }
  split; [rewrite app_length, map_length, seq_length; cbn; lia |]. intros i Hi. destruct (Nat.lt_ge_cases i (n + 1)) as [H | H].
  - rewrite app_nth1 by (rewrite map_length, seq_length; exact H). rewrite nth_map_seq by exact H. apply F. lia.
  - assert (i = n + 1) by lia. subst i. rewrite app_nth2 by (rewrite map_length, seq_length; lia). rewrite map_length, seq_length, Nat.sub_diag. cbn [nth].
    replace (last (map f (seq 0 (n + 1))) 0%Q) with (f n).
    + rewrite F by lia. rewrite Nat2Z.inj_add, inject_Z_plus. change (inject_Z (Z.of_nat 1)) with 1%Q. ring.
    + rewrite seq_app, map_app. cbn [seq map]. rewrite last_last. reflexivity.
Qed.

Lemma collect {B : Type} (R : nat -> B -> Prop) (P : nat -> Prop) (f : nat -> option (list B)) (s n : nat) :
  (forall i, s <= i < s + n -> exists r, f i = Some r /\ ((r = [] /\ ~ P i) \/ exists q, r = [q] /\ P i /\ R i q)) ->
  exists rs ks, mapM f (seq s n) = Some rs /\ StronglySorted lt ks /\ (forall k, In k ks <-> s <= k < s + n /\ P k) /\ Forall2 R ks (concat rs).
Proof.
  revert s. induction n as [| n IH]; intros s H; cbn [seq mapM].
  - exists [], []. split; [reflexivity |]. split; [constructor |]. split; [intros k; cbn [In]; split; [tauto | lia] | constructor].
  - destruct (H s ltac:(lia)) as [r [E C]]. rewrite E. cbn [obind]. destruct (IH (S s)) as [rs [ks [E' [S' [I F]]]]]; [intros i Hi; apply H; lia |].
    rewrite E'. cbn [obind]. destruct C as [[-> NP] | [q [-> [HP HR]]]].
    + exists ([] :: rs), ks. split; [reflexivity |]. split; [exact S' |]. split; [| exact F]. intros k. rewrite I. split; [intros [? ?]; split; [lia | assumption] |].
      intros [H1 H2]. split; [| exact H2]. destruct (Nat.eq_dec k s) as [-> |]; [contradiction | lia].
    + exists ([q] :: rs), (s :: ks). split; [reflexivity |]. split; [constructor; [exact S' | apply Forall_forall; intros k Hk; apply I in Hk; lia] |].
      split; [| cbn [concat app]; constructor; assumption]. intros k. cbn [In]. rewrite I. split.
      * intros [<- | [H1 H2]]; [split; [lia | exact HP] | split; [lia | exact H2]].
      * intros [H1 H2]. destruct (Nat.eq_dec k s) as [-> |]; [left; reflexivity | right; split; [lia | exact H2]].
Qed.
