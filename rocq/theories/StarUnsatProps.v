(** C122: [check_unsat] of a point and a star. *)
From Coq Require Import Lqa.
From Verif Require Import Base BaseFacts Star StarSpec StarProofs StarMain StarUnsat.
Set Implicit Arguments.
Open Scope nat_scope.

Lemma inner_snoc a b x y : length a = length b -> (inner (a ++ [x]) (b ++ [y]) == inner a b + x * y)%Q.
Proof. revert b. induction a as [|p a IH]; intros [|q b] L; cbn in *; try lia; [ring|]. rewrite IH by lia. ring. Qed.
Lemma combine_obeys A b x : length A = length b -> (forall row r, In (row, r) (combine A b) -> (inner row x <= r)%Q) <-> obeys A b x.
Proof.
  unfold obeys. revert b. induction A as [|r A IH]; intros [|q b] L; cbn in *; try lia; [split; [constructor|intros _ ? ? []]|]. split.
  - intros H. constructor; [apply H; left; reflexivity|]. apply IH; [lia|]. intros; apply H; right; assumption.
  - intros H. inversion H; subst. intros row r' [[= <- <-]|I]; [assumption|]. apply (proj2 (IH b ltac:(lia))); assumption.
Qed.

(** The question put to z3: is there [alpha, u] with [nc_i + alpha . (db_1i, ..., db_mi) = p_i] for all [i] and [row . alpha <= u r] for all rows of
    the predicate?  The last unknown is [u]. *)
Definition unsat_equations (n : nat) (db : list vec) (p nc : vec) : list (Q * vec * Q) :=
  map (fun i => (nth i nc 0%Q, map (fun v => nth i v 0%Q) db ++ [0%Q], nth i p 0%Q)) (seq 0 n).
Definition unsat_inequalities (s : star) : list (vec * Q) := map (fun cg => (fst cg ++ [- snd cg]%Q, 0%Q)) (combine (C s) (g s)).

Section Unsat.
  Variables (sat : nat -> list (Q * vec * Q) -> list (vec * Q) -> bool) (s : star) (db : list vec) (p nc : vec).
  (** z3's answer is right, and the new centre and generators fit to the star. *)
  Hypothesis Exact : exact_sat sat (S (gens s)) (unsat_equations (dim s) db p nc) (unsat_inequalities s).
  Hypothesis W : wf_star s.
  Hypothesis Fit : length nc = dim s /\ length db = gens s /\ (forall v, In v db -> length v = dim s).
  Hypothesis Lp : length p = dim s.

  (** The star with the new centre and generators. *)
  Let new := Star nc db (C s) (g s).

  Lemma unsat_iff : exists b, check_unsat sat s db p (Some nc) = Some b /\
    (b = false <-> exists alpha u, length alpha = gens s /\ point_of new alpha p /\ Forall2 (fun row r => (inner row alpha <= u * r)%Q) (C s) (g s)).
  Proof.
    destruct Fit as (F1 & F2 & F3). destruct W as (W1 & W2 & W3). unfold check_unsat. cbn [obind]. rewrite <- F2, firstn_all, F1, Lp, W3, !Nat.leb_refl. cbn [andb].
    assert (Fb : forallb (fun v => dim s <=? length v) db = true) by (apply forallb_forall; intros v Hv; rewrite (F3 v Hv); apply Nat.leb_refl). rewrite Fb. cbn [andb]. eexists. split; [reflexivity|].
    rewrite negb_false_iff. pose proof Exact as Ex. unfold exact_sat, unsat_equations, unsat_inequalities in Ex. rewrite <- F2 in Ex. rewrite Ex. clear Ex. split.
    - intros (al & La & He & Hl). destruct (@exists_last _ al) as (alpha & u & ->); [destruct al; [discriminate|discriminate]|]. rewrite app_length in La. cbn in La.
      exists alpha, u. split; [lia|]. split.
      + split; [unfold dim, new; cbn; congruence|]. intros j Hj. unfold new in *. cbn [center basis dim] in *. unfold dim in Hj. cbn in Hj.
        assert (I : In (nth j nc 0%Q, map (fun v => nth j v 0%Q) db ++ [0%Q], nth j p 0%Q) (map (fun i => (nth i nc 0%Q, map (fun v => nth i v 0%Q) db ++ [0%Q], nth i p 0%Q)) (seq 0 (dim s)))) by (apply in_map_iff; exists j; split; [reflexivity|apply in_seq; lia]).
        specialize (He _ _ _ I). rewrite inner_snoc in He by (rewrite map_length; lia). rewrite (inner_comm alpha). lra.
      + assert (Hl' : forall row r, In (row, r) (combine (C s) (g s)) -> (inner row alpha <= u * r)%Q).
        { intros row r I. assert (Ir : In row (C s)) by (eapply in_combine_l; exact I). specialize (Hl (row ++ [- r])%Q 0%Q). rewrite inner_snoc in Hl by (rewrite (W2 row Ir); lia).
          assert (H : (inner row alpha + - r * u <= 0)%Q) by (apply Hl; apply in_map_iff; exists (row, r); split; [reflexivity|exact I]). lra. }
        clear - Hl' W3. revert Hl' W3. generalize (C s) (g s). intros A b. revert b. induction A as [|row A IH]; intros [|r b] H L; cbn in *; try lia; constructor; [apply H; left; reflexivity|]. apply IH; [|lia]. intros; apply H; right; assumption.
    - intros (alpha & u & La & (_ & Hp) & Hf). exists (alpha ++ [u]). split; [rewrite app_length; cbn; lia|]. split.
      + intros c row r I. apply in_map_iff in I. destruct I as (j & [= <- <- <-] & Ij). apply in_seq in Ij. rewrite inner_snoc by (rewrite map_length; lia). specialize (Hp j ltac:(unfold dim, new; cbn; lia)). unfold new in Hp. cbn [center basis] in Hp. rewrite (inner_comm alpha) in Hp. lra.
      + intros row r I. apply in_map_iff in I. destruct I as ([row' r'] & [= <- <-] & I). assert (Ir : In row' (C s)) by (eapply in_combine_l; exact I). cbn [fst snd]. rewrite inner_snoc by (rewrite (W2 row' Ir); lia).
        assert (H : (inner row' alpha <= u * r')%Q); [|lra]. clear - Hf I. induction Hf; cbn in I; [contradiction|]. destruct I as [[= -> ->]|I]; [assumption|auto].
  Qed.

  (** C122.  A point of the new star is never reported. *)
  Theorem C122_inside : in_star new p -> check_unsat sat s db p (Some nc) = Some false.
  Proof.
    intros (al & La & O & P). destruct unsat_iff as (b & E & H). rewrite E. f_equal. apply H. exists al, 1%Q. split; [unfold gens, new in La; cbn in La; destruct Fit as (_ & F2 & _); congruence|]. split; [exact P|].
    unfold new in O. cbn [C g] in O. unfold obeys in O. eapply F2_impl; [|exact O]. cbn. intros row r Hr. lra.
  Qed.

  (** C122.  With a predicate whose right-hand sides are positive a point is reported exactly if it is not a sum of the centre and multiples
      of the generators, whatever their predicate says. *)
  Theorem C122_positive : Forall (Qlt 0) (g s) -> exists b, check_unsat sat s db p (Some nc) = Some b /\ (b = false <-> exists alpha, length alpha = gens s /\ point_of new alpha p).
  Proof.
    intros Pos. destruct unsat_iff as (b & E & H). exists b. split; [exact E|]. rewrite H. split; [intros (al & u & A & B & _); eauto|]. intros (al & A & B).
    assert (U : exists u, (0 <= u)%Q /\ forall v, (u <= v)%Q -> Forall2 (fun row r => (inner row al <= v * r)%Q) (C s) (g s)); [|destruct U as (u & _ & Hu); exists al, u; split; [exact A|split; [exact B|apply Hu; lra]]].
    destruct W as (_ & _ & W3). clear - Pos W3. revert Pos W3. generalize (C s) (g s). intros M b. revert M. induction b as [|r b IH]; intros [|row M] Pos L; cbn in L; try lia; [exists 0%Q; split; [lra|constructor]|].
    inversion Pos as [|? ? Pr Pb]; subst. destruct (IH M Pb ltac:(lia)) as (u & U0 & Hu). set (q := (inner row al / r)%Q). assert (Eq : (q * r == inner row al)%Q) by (unfold q; field; lra).
    destruct (Qlt_le_dec u q) as [Lt|Ge].
    - exists q. split; [lra|]. intros v Hv. constructor; [nra|apply Hu; lra].
    - exists u. split; [lra|]. intros v Hv. constructor; [nra|apply Hu; exact Hv].
  Qed.
End Unsat.
Print Assumptions C122_inside.
Print Assumptions C122_positive.

(** C122.  So a point outside of the star is not reported: 5 is said to fit to the interval [-1, 1]; and without a centre the call raises. *)
Definition unit_interval : star := (Star [0] [[1]] [[1]; [-1]] [1; 1])%Q.
Lemma unit_wf : wf_star unit_interval.
Proof. split; [|split; [|reflexivity]]; intros v Hv; cbn in Hv; repeat (destruct Hv as [<-|Hv]; [reflexivity|]); destruct Hv. Qed.
Lemma yes_exact : exact_sat (fun _ _ _ => true) (S (gens unit_interval)) (unsat_equations (dim unit_interval) [[1]]%Q [5]%Q [0]%Q) (unsat_inequalities unit_interval).
Proof.
  split; [intros _|reflexivity]. exists [5; 5]%Q. split; [reflexivity|]. split.
  - intros c row r [[= <- <- <-]|[]]. cbn. lra.
  - intros row r [[= <- <-]|[[= <- <-]|[]]]; cbn; lra.
Qed.
Theorem C122_outside_refuted : exists sat s p, exact_sat sat (S (gens s)) (unsat_equations (dim s) (basis s) p (center s)) (unsat_inequalities s) /\
  wf_star s /\ bounded_star s /\ length p = dim s /\ ~ in_star s p /\ check_unsat sat s (basis s) p (Some (center s)) = Some false.
Proof.
  exists (fun _ _ _ => true), unit_interval, [5]%Q. split; [exact yes_exact|]. split; [exact unit_wf|]. split; [|split; [reflexivity|split; [|reflexivity]]].
  - exists 1%Q. intros al La O. destruct al as [|a [|? ?]]; try discriminate. unfold obeys in O. cbn [C g unit_interval] in O. repeat match goal with H : Forall2 _ (_ :: _) _ |- _ => inversion H; clear H; subst end. cbn in *. repeat constructor; lra.
  - intros (al & La & O & _ & P). destruct al as [|a [|? ?]]; try discriminate. unfold obeys in O. cbn [C g unit_interval] in O. repeat match goal with H : Forall2 _ (_ :: _) _ |- _ => inversion H; clear H; subst end. specialize (P 0 ltac:(cbn; lia)). cbn in *. lra.
Qed.
Print Assumptions C122_outside_refuted.
Theorem C122_default_refuted sat s db p : check_unsat sat s db p None = None.
Proof. reflexivity. Qed.
Print Assumptions C122_default_refuted.

(** C122.  A centre, a point or generators that are too short are not taken. *)
Theorem C122_short sat s db p nc : length nc < dim s \/ length p < dim s \/ length db < gens s \/ (exists v, In v (firstn (gens s) db) /\ length v < dim s) -> check_unsat sat s db p (Some nc) = None.
Proof.
  intros H. unfold check_unsat. cbn [obind]. destruct (forallb (fun v => dim s <=? length v) (firstn (gens s) db)) eqn:F.
  - destruct H as [H|[H|[H|(v & I & H)]]]; [| | |rewrite forallb_forall in F; apply F in I; apply Nat.leb_le in I; lia];
      destruct (Nat.leb_spec (dim s) (length nc)), (Nat.leb_spec (dim s) (length p)), (Nat.leb_spec (gens s) (length db)); try lia; reflexivity.
  - rewrite andb_false_r. reflexivity.
Qed.
Print Assumptions C122_short.

Module Example_unsat.
  (** The hypotheses of C122_inside and C122_positive: the interval moved by 3 contains 7/2. *)
  Example fits : length [3]%Q = dim unit_interval /\ length [[1]]%Q = gens unit_interval /\ (forall v, In v [[1]]%Q -> length v = dim unit_interval).
  Proof. split; [reflexivity|]. split; [reflexivity|]. intros v [<-|[]]. reflexivity. Qed.
  Example inside : in_star (Star [3] [[1]] (C unit_interval) (g unit_interval))%Q [7 # 2]%Q.
  Proof. exists [1 # 2]%Q. split; [reflexivity|]. split; [repeat constructor; cbn; lra|]. split; [reflexivity|]. intros [|j] Hj; cbn in *; [lra|lia]. Qed.
  Example exact : exact_sat (fun _ _ _ => true) (S (gens unit_interval)) (unsat_equations (dim unit_interval) [[1]]%Q [7 # 2]%Q [3]%Q) (unsat_inequalities unit_interval).
  Proof.
    split; [intros _|reflexivity]. exists [1 # 2; 1]%Q. split; [reflexivity|]. split.
    - intros c row r [[= <- <- <-]|[]]. cbn. lra.
    - intros row r [[= <- <-]|[[= <- <-]|[]]]; cbn; lra.
  Qed.
  (** A point that is reported: the generator is 0. *)
  Example reported : exact_sat (fun _ _ _ => false) (S (gens unit_interval)) (unsat_equations (dim unit_interval) [[0]]%Q [7 # 2]%Q [3]%Q) (unsat_inequalities unit_interval)
    /\ check_unsat (fun _ _ _ => false) unit_interval [[0]]%Q [7 # 2]%Q (Some [3]%Q) = Some true.
  Proof.
    split; [|reflexivity]. split; [discriminate|]. intros (al & La & He & _). exfalso. destruct al as [|a [|b [|? ?]]]; try discriminate. specialize (He _ _ _ (or_introl eq_refl)). cbn in He. lra.
  Qed.
  Example short : length (@nil Q) < dim unit_interval.
  Proof. cbn. lia. Qed.
End Example_unsat.
