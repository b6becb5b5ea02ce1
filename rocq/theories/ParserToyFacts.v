From Coq Require Import Ascii String ZArith.
From Verif Require Import Base Dict PyText Parser PySem ParserSpec ScanProofs ParserProofs ParserMain ParserToy.
Set Implicit Arguments.
Open Scope nat_scope.

Lemma differ_b_ok T F S : differ_b T F S = true -> branches_differ T F S.
Proof.
  unfold differ_b. rewrite andb_true_iff, !forallb_forall. intros [H1 H2]. split.
  - intros k s HT HF. specialize (H1 k (get_In_keys _ _ HT)). rewrite HT, HF in H1. apply orb_true_iff in H1 as [H1|H1].
    + apply negb_true_iff in H1. assert (sval_eqb s s = true) by now apply sval_eqb_iff. congruence.
    + now apply (opt_eqb_iff sval_eqb sval_eqb_iff) in H1.
  - intros k a c HT HF. unfold fields_in in HT at 1. destruct (get k T) as [[|fs|]|] eqn:Ek; try discriminate.
    specialize (H2 k (get_In_keys _ _ Ek)). rewrite forallb_forall in H2. assert (HT' : get a (fields_in k T) = Some c) by (unfold fields_in; now rewrite Ek).
    specialize (H2 a (get_In_keys _ _ HT')). rewrite HT', HF in H2. apply orb_true_iff in H2 as [H2|H2].
    + apply negb_true_iff in H2. assert (cval_eqb c c = true) by now apply cval_eqb_iff. congruence.
    + now apply (opt_eqb_iff cval_eqb cval_eqb_iff) in H2.
Qed.
