(** Proofs about contains. *)
From Verif Require Import Base BaseFacts Dict Round RoundProofs Tree TreeProofs Contains ContainsSpec.
From Coq Require Import Qabs Qminmax Lqa.
Set Implicit Arguments.
Open Scope nat_scope.

(** ** Interval unions *)
Definition mem (x : Q) (s : iset) : Prop := exists a, In a s /\ (fst a <= x <= snd a)%Q.
Lemma mem_closed x l u : mem x (closed l u) <-> (l <= x <= u)%Q.
Proof.
  unfold closed, mem. destruct (Qle_bool l u) eqn:E.
  - split; [intros (a & [<-|[]] & H); exact H|]. intros H. exists (l, u). split; [left; reflexivity|exact H].
  - split; [intros (a & [] & _)|]. intros H. exfalso. assert (Qle_bool l u = true) by (apply Qle_bool_iff; lra). congruence.
Qed.
Definition ok (s : iset) : Prop := Forall (fun a => (fst a <= snd a)%Q) s.
Lemma ok_closed l u : ok (closed l u).
Proof. unfold closed, ok. destruct (Qle_bool l u) eqn:E; constructor; [|constructor]. apply Qle_bool_iff. exact E. Qed.
Ltac qmm := repeat match goal with
  | |- context [Qmin ?a ?b] => destruct (Q.min_spec a b) as [[? ->]|[? ->]]
  | |- context [Qmax ?a ?b] => destruct (Q.max_spec a b) as [[? ->]|[? ->]]
  | H : context [Qmin ?a ?b] |- _ => destruct (Q.min_spec a b) as [[? ?E]|[? ?E]]; rewrite E in H; clear E
  | H : context [Qmax ?a ?b] |- _ => destruct (Q.max_spec a b) as [[? ?E]|[? ?E]]; rewrite E in H; clear E
  end.
Lemma mem_ins x : forall s a, (fst a <= snd a)%Q -> ok s -> mem x (ins a s) <-> (fst a <= x <= snd a)%Q \/ mem x s.
Proof.
  induction s as [|b r IH]; intros a Ha Hs; cbn [ins].
  - split; [intros (y & [<-|[]] & H); left; exact H|]. intros [H|(y & [] & _)]. exists a. split; [left; reflexivity|exact H].
  - apply Forall_cons_iff in Hs. destruct Hs as [Hb Hr]. destruct (Qlt_le_dec (snd a) (fst b)) as [L|L]; [|destruct (Qlt_le_dec (snd b) (fst a)) as [L2|L2]].
    + split; [intros (y & [<-|I] & H); [left; exact H|right; exists y; auto]|]. intros [H|(y & I & H)]; [exists a; split; [left; reflexivity|exact H]|exists y; split; [right; exact I|exact H]].
    + split.
      * intros (y & [<-|I] & H); [right; exists b; split; [left; reflexivity|exact H]|]. destruct (proj1 (IH a Ha Hr)) as [X|(z & Z1 & Z2)]; [exists y; auto|left; exact X|right; exists z; split; [right; exact Z1|exact Z2]].
      * intros [H|(y & [<-|I] & H)].
        -- destruct (proj2 (IH a Ha Hr) (or_introl H)) as (z & Z1 & Z2). exists z. split; [right; exact Z1|exact Z2].
        -- exists b. split; [left; reflexivity|exact H].
        -- destruct (proj2 (IH a Ha Hr)) as (z & Z1 & Z2); [right; exists y; auto|]. exists z. split; [right; exact Z1|exact Z2].
    + rewrite IH; [|cbn; qmm; lra|exact Hr]. cbn [fst snd]. split.
      * intros [H|(z & Z1 & Z2)]; [|right; exists z; split; [right; exact Z1|exact Z2]].
        assert ((fst a <= x <= snd a)%Q \/ (fst b <= x <= snd b)%Q) as [X|X].
        { destruct (Qlt_le_dec x (fst a)); [right; qmm; lra|]. destruct (Qlt_le_dec (snd a) x); [right; qmm; lra|left; lra]. }
        -- left. exact X.
        -- right. exists b. split; [left; reflexivity|exact X].
      * intros [H|(z & [<-|Z1] & Z2)]; [left; qmm; lra|left; qmm; lra|right; exists z; auto].
Qed.
Lemma ok_ins : forall s a, (fst a <= snd a)%Q -> ok s -> ok (ins a s).
Proof.
  induction s as [|b r IH]; intros a Ha Hs; cbn [ins]; [repeat constructor; exact Ha|]. apply Forall_cons_iff in Hs. destruct Hs as [Hb Hr].
  destruct (Qlt_le_dec (snd a) (fst b)); [repeat constructor; assumption|]. destruct (Qlt_le_dec (snd b) (fst a)); [constructor; [exact Hb|apply IH; assumption]|].
  apply IH; [cbn; qmm; lra|exact Hr].
Qed.
Lemma ok_union : forall b a, ok a -> ok b -> ok (union a b).
Proof. unfold union. induction b as [|x b IH]; intros a Ha Hb; cbn; [exact Ha|]. apply Forall_cons_iff in Hb. destruct Hb. apply IH; [apply ok_ins; assumption|assumption]. Qed.
Lemma mem_union x : forall b a, ok a -> ok b -> mem x (union a b) <-> mem x a \/ mem x b.
Proof.
  unfold union. induction b as [|y b IH]; intros a Ha Hb; cbn [fold_left].
  - split; [auto|]. intros [H|(z & [] & _)]. exact H.
  - apply Forall_cons_iff in Hb. destruct Hb as [Hy Hb]. rewrite IH by (try apply ok_ins; assumption). rewrite mem_ins by assumption. split.
    + intros [[H|H]|(z & I & H)]; [right; exists y; split; [left; reflexivity|exact H]|left; exact H|right; exists z; split; [right; exact I|exact H]].
    + intros [H|(z & [<-|I] & H)]; [left; right; exact H|left; left; exact H|right; exists z; auto].
Qed.
Lemma ok_folds : forall l a, ok a -> Forall ok l -> ok (fold_left union l a).
Proof. induction l as [|x l IH]; intros a Ha Hl; cbn; [exact Ha|]. apply Forall_cons_iff in Hl. destruct Hl. apply IH; [apply ok_union; assumption|assumption]. Qed.
Lemma mem_folds x : forall l a, ok a -> Forall ok l -> mem x (fold_left union l a) <-> mem x a \/ exists s, In s l /\ mem x s.
Proof.
  induction l as [|y l IH]; intros a Ha Hl; cbn [fold_left].
  - split; [auto|]. intros [H|(z & [] & _)]. exact H.
  - apply Forall_cons_iff in Hl. destruct Hl as [Hy Hl]. rewrite IH by (try apply ok_union; assumption). rewrite mem_union by assumption. split.
    + intros [[H|H]|(z & I & H)]; [left; exact H|right; exists y; split; [left; reflexivity|exact H]|right; exists z; split; [right; exact I|exact H]].
    + intros [H|(z & [<-|I] & H)]; [left; left; exact H|left; right; exact H|right; exists z; auto].
Qed.

Lemma within_mem a b x : within a b = true -> mem x b -> mem x a.
Proof.
  unfold within. rewrite forallb_forall. intros H (y & I & Hy). specialize (H y I). apply existsb_exists in H. destruct H as (z & Iz & Hz). apply andb_prop in Hz. destruct Hz as [H1 H2].
  apply Qle_bool_iff in H1. apply Qle_bool_iff in H2. exists z. split; [exact Iz|lra].
Qed.
Lemma bloat_fold tol : forall a s, ok s -> ok (fold_left (fun acc x => union acc (closed (fst x - tol) (snd x + tol))) a s) /\
  forall x, mem x (fold_left (fun acc x => union acc (closed (fst x - tol) (snd x + tol))) a s) <-> mem x s \/ exists y, In y a /\ (fst y - tol <= x <= snd y + tol)%Q.
Proof.
  induction a as [|y a IH]; intros s Hs; cbn [fold_left].
  - split; [exact Hs|]. intros x. split; [auto|]. intros [H|(z & [] & _)]. exact H.
  - destruct (IH (union s (closed (fst y - tol) (snd y + tol)))) as [O M]; [apply ok_union; [exact Hs|apply ok_closed]|]. split; [exact O|]. intros x. rewrite M, mem_union, mem_closed by (try apply ok_closed; assumption). split.
    + intros [[H|H]|(z & I & H)]; [left; exact H|right; exists y; split; [left; reflexivity|exact H]|right; exists z; split; [right; exact I|exact H]].
    + intros [H|(z & [<-|I] & H)]; [left; left; exact H|left; right; exact H|right; exists z; auto].
Qed.
Lemma mem_bloat tol a x : (0 <= tol)%Q -> ok a -> mem x (bloat tol a) -> exists y, mem y a /\ (Qabs (x - y) <= tol)%Q.
Proof.
  intros Ht Ha H. unfold bloat in H. apply bloat_fold in H; [|constructor]. destruct H as [(z & [] & _)|(z & I & H)]. unfold ok in Ha. rewrite Forall_forall in Ha. specialize (Ha z I).
  destruct (Qlt_le_dec x (fst z)) as [L|L]; [|destruct (Qlt_le_dec (snd z) x) as [L2|L2]].
  - exists (fst z). split; [exists z; split; [exact I|lra]|]. apply Qabs_case; intros; lra.
  - exists (snd z). split; [exists z; split; [exact I|lra]|]. apply Qabs_case; intros; lra.
  - exists x. split; [exists z; split; [exact I|lra]|]. apply Qabs_case; intros; lra.
Qed.

(** A union of intervals contains each of them in one piece. *)
Definition inpiece (b : atom) (s : iset) : Prop := exists a, In a s /\ (fst a <= fst b)%Q /\ (snd b <= snd a)%Q.
Lemma piece_ins : forall s a, inpiece a (ins a s) /\ forall b, inpiece b s -> inpiece b (ins a s).
Proof.
  induction s as [|y r IH]; intros a; cbn [ins].
  - split; [exists a; split; [left; reflexivity|lra]|]. intros b (z & [] & _).
  - destruct (Qlt_le_dec (snd a) (fst y)); [|destruct (Qlt_le_dec (snd y) (fst a))].
    + split; [exists a; split; [left; reflexivity|lra]|]. intros b (z & I & H). exists z. split; [right; exact I|exact H].
    + destruct (IH a) as [P1 P2]. split; [destruct P1 as (z & I & H); exists z; split; [right; exact I|exact H]|].
      intros b (z & [<-|I] & H); [exists y; split; [left; reflexivity|exact H]|]. destruct (P2 b) as (w & Iw & Hw); [exists z; auto|]. exists w. split; [right; exact Iw|exact Hw].
    + destruct (IH (Qmin (fst a) (fst y), Qmax (snd a) (snd y))) as [(w & Iw & H1 & H2) P2]. cbn [fst snd] in *. split.
      * exists w. split; [exact Iw|]. pose proof (Q.le_min_l (fst a) (fst y)). pose proof (Q.le_max_l (snd a) (snd y)). lra.
      * intros b (z & [<-|I] & H); [|apply P2; exists z; auto]. exists w. split; [exact Iw|]. pose proof (Q.le_min_r (fst a) (fst y)). pose proof (Q.le_max_r (snd a) (snd y)). lra.
Qed.
Lemma piece_union b : forall t s, (inpiece b s \/ In b t) -> inpiece b (union s t).
Proof.
  unfold union. induction t as [|x t IH]; intros s H; cbn [fold_left]; [destruct H as [H|[]]; exact H|]. apply IH. destruct H as [H|[<-|H]].
  - left. apply piece_ins. exact H.
  - left. exact (proj1 (piece_ins _ _)).
  - right. exact H.
Qed.
Lemma within_self tol a : (0 <= tol)%Q -> ok a -> within (bloat tol a) a = true.
Proof.
  intros Ht Ha. unfold within. apply forallb_forall. intros x I. apply existsb_exists.
  assert (G : forall l s, (forall y, In y l -> (fst y <= snd y)%Q) -> (inpiece x s \/ In x l) -> inpiece x (fold_left (fun acc z => union acc (closed (fst z - tol) (snd z + tol))) l s)).
  { induction l as [|y l IH]; intros s Hl H; cbn [fold_left]; [destruct H as [H|[]]; exact H|]. apply IH; [intros z Hz; apply Hl; right; exact Hz|]. destruct H as [H|[<-|H]].
    - left. apply piece_union. left. exact H.
    - left. assert (Y := Hl y (or_introl eq_refl)). unfold closed. assert (E : Qle_bool (fst y - tol) (snd y + tol) = true) by (apply Qle_bool_iff; lra). rewrite E.
      destruct (@piece_union (fst y - tol, snd y + tol)%Q [(fst y - tol, snd y + tol)%Q] s) as (w & Iw & H1 & H2); [right; left; reflexivity|]. exists w. split; [exact Iw|]. cbn in *. lra.
    - right. exact H. }
  unfold ok in Ha. rewrite Forall_forall in Ha. destruct (G a [] Ha (or_intror I)) as (w & Iw & H1 & H2). exists w. split; [exact Iw|]. apply andb_true_intro. split; apply Qle_bool_iff; assumption.
Qed.

(** ** Lists *)
Lemma nth_error_seq s : forall n i, nth_error (seq s n) i = if i <? n then Some (s + i) else None.
Proof.
  intros n. revert s. induction n as [|n IH]; intros s [|i]; cbn [seq nth_error]; try reflexivity.
  - rewrite Nat.add_0_r. reflexivity.
  - rewrite IH. change (S i <? S n) with (i <? n). rewrite Nat.add_succ_r. reflexivity.
Qed.
Section MapM.
  Variables (B : Type) (f : nat -> option B).
  Lemma mapM_seq_len n r : mapM f (seq 0 n) = Some r -> length r = n.
  Proof. intros H. apply mapM_length in H. rewrite seq_length in H. congruence. Qed.
  Lemma mapM_seq_get n r : mapM f (seq 0 n) = Some r -> forall i y, nth_error r i = Some y <-> i < n /\ f i = Some y.
  Proof.
    intros H i y. pose proof (mapM_seq_len _ H) as L. apply mapM_Forall2 in H. split.
    - intros E. destruct (Forall2_nth_r _ H E) as (x & Hx & Hf). rewrite nth_error_seq in Hx. destruct (i <? n) eqn:Ei; [|discriminate]. apply Nat.ltb_lt in Ei. injection Hx as <-. auto.
    - intros [Li Hf]. assert (Hx : nth_error (seq 0 n) i = Some i) by (rewrite nth_error_seq; apply Nat.ltb_lt in Li; rewrite Li; reflexivity).
      destruct (Forall2_nth_l _ H Hx) as (z & Hz & Hfz). rewrite Hf in Hfz. injection Hfz as ->. exact Hz.
  Qed.
  Lemma mapM_seq_total n : (forall i, i < n -> exists y, f i = Some y) -> exists r, mapM f (seq 0 n) = Some r.
  Proof.
    intros H. assert (G : forall l, (forall x, In x l -> exists y, f x = Some y) -> exists r, mapM f l = Some r).
    { induction l as [|x l IH]; intros Hl; [eexists; reflexivity|]. cbn. destruct (Hl x (or_introl eq_refl)) as (y & ->). destruct IH as (r & ->); [intros z Hz; apply Hl; right; exact Hz|]. eexists. reflexivity. }
    apply G. intros x Hx. apply in_seq in Hx. apply H. lia.
  Qed.
End MapM.
Lemma cell_mapM (F : nat -> nat -> option iset) n m g : mapM (fun i => mapM (F i) (seq 0 m)) (seq 0 n) = Some g ->
  length g = n /\ forall i j s, cell g i j = Some s <-> i < n /\ j < m /\ F i j = Some s.
Proof.
  intros H. split; [apply mapM_seq_len in H; exact H|]. intros i j s. unfold cell. split.
  - destruct (nth_error g i) as [r|] eqn:E; [|discriminate]. cbn [obind]. intros Hj. apply (mapM_seq_get _ _ H) in E. destruct E as [Li E]. apply (mapM_seq_get _ _ E) in Hj. tauto.
  - intros (Li & Lj & HF). destruct (nth_error g i) as [r|] eqn:E.
    + cbn [obind]. apply (mapM_seq_get _ _ H) in E. destruct E as [_ E]. apply (mapM_seq_get _ _ E). auto.
    + apply nth_error_None in E. rewrite (mapM_seq_len _ _ H) in E. lia.
Qed.
Lemma total_mapM (F : nat -> nat -> option iset) n m : (forall i j, i < n -> j < m -> exists s, F i j = Some s) ->
  exists g, mapM (fun i => mapM (F i) (seq 0 m)) (seq 0 n) = Some g.
Proof. intros H. apply mapM_seq_total. intros i Hi. apply mapM_seq_total. intros j Hj. auto. Qed.
Lemma cell_glue (c o k : grid) mo ovn : mo + ovn = length c -> length o = ovn -> forall i j,
  cell (firstn mo c ++ o ++ skipn ovn k) i j =
    if i <? mo then cell c i j else if i <? length c then cell o (i - mo) j else cell k (i - mo) j.
Proof.
  intros L Lo i j. unfold cell. assert (Lf : length (firstn mo c) = mo) by (rewrite firstn_length; lia). destruct (i <? mo) eqn:E1.
  - apply Nat.ltb_lt in E1. rewrite nth_error_app1 by lia. rewrite nth_error_firstn by exact E1. reflexivity.
  - apply Nat.ltb_ge in E1. rewrite nth_error_app2 by lia. rewrite Lf. destruct (i <? length c) eqn:E2.
    + apply Nat.ltb_lt in E2. rewrite nth_error_app1 by lia. reflexivity.
    + apply Nat.ltb_ge in E2. rewrite nth_error_app2 by lia. rewrite nth_error_skipn. replace (ovn + (i - mo - length o)) with (i - mo) by lia. reflexivity.
Qed.
