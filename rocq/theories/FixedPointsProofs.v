(** Lemmas for fixed-point detection. *)
From Coq Require Import Ascii String Reals Qreals Lra.
From Verif Require Import Base BaseFacts PyText Dict ResetProofs FixedPoints FixedPointsSpec.
Set Implicit Arguments.
Open Scope nat_scope.

(** ** Formulas *)
Lemma holds_all p l : holds p (FAll l) <-> forall f, In f l -> holds p f.
Proof.
  simpl. induction l as [|f l IH]; simpl; [split; [intros _ ? []|auto]|]. rewrite IH. split.
  - intros [H1 H2] g [<-|Hg]; auto.
  - intros H. split; [apply H; auto|intros g Hg; apply H; auto].
Qed.

Lemma box_fm_spec lo hi n : forall j acc, j + n <= length lo -> j + n <= length hi ->
  exists f, box_fm lo hi acc n j = Some f /\
    forall p, holds p f <-> holds p acc /\ forall i, j <= i < j + n -> (Q2R (nth i lo 0%Q) <= p i <= Q2R (nth i hi 0%Q))%R.
Proof.
  induction n as [|n IH]; intros j acc H1 H2; simpl.
  - exists acc. split; [reflexivity|]. intros p. split; [intros H; split; [exact H|intros; lia]|tauto].
  - destruct (nth_error lo j) as [a|] eqn:Ea; [|apply nth_error_None in Ea; lia].
    destruct (nth_error hi j) as [b|] eqn:Eb; [|apply nth_error_None in Eb; lia]. cbn [obind].
    destruct (IH (S j) (FAll [acc; FGe j a; FLe j b])) as [f [E Hf]]; try lia.
    exists f. split; [exact E|]. intros p. rewrite Hf. simpl.
    assert (Na := nth_error_nth _ _ 0%Q Ea). assert (Nb := nth_error_nth _ _ 0%Q Eb). split.
    + intros [[Ha [Hg [Hl _]]] Hi]. split; [exact Ha|]. intros i Hr.
      destruct (Nat.eq_dec i j) as [->|N]; [rewrite Na, Nb; auto|apply Hi; lia].
    + intros [Ha Hi]. assert (K := Hi j). rewrite Na, Nb in K. destruct K; [lia|].
      split; [auto|]. intros i Hr. apply Hi. lia.
Qed.

Lemma between_nth lo : forall hi x, between lo hi x <->
  length lo = length x /\ length hi = length x /\
  forall i, i < length x -> (Q2R (nth i lo 0%Q) <= nth i x 0%R <= Q2R (nth i hi 0%Q))%R.
Proof.
  induction lo as [|a lo IH]; intros [|b hi] [|v x]; simpl; try (split; [intros []|intros [? [? ?]]; discriminate]).
  - split; [intros _; repeat split; intros; lia|auto].
  - rewrite IH. split.
    + intros [H [L1 [L2 Hi]]]. split; [lia|]. split; [lia|]. intros [|i] Hr; [exact H|apply Hi; lia].
    + intros [L1 [L2 Hi]]. split; [apply (Hi 0); lia|]. split; [lia|]. split; [lia|].
      intros i Hr. apply (Hi (S i)). lia.
Qed.

Lemma map_seq_nth (p : nat -> R) n i : i < n -> nth i (map p (seq 0 n)) 0%R = p i.
Proof.
  intros H. rewrite (nth_indep _ 0%R (p 0)) by (rewrite map_length, seq_length; exact H).
  rewrite map_nth, seq_nth by exact H. reflexivity.
Qed.

Lemma box_fm_between lo hi n : length lo = n -> length hi = n ->
  exists f, box_fm lo hi (FAll []) n 0 = Some f /\ forall p, holds p f <-> between lo hi (map p (seq 0 n)).
Proof.
  intros H1 H2. destruct (@box_fm_spec lo hi n 0 (FAll [])) as [f [E Hf]]; try lia.
  exists f. split; [exact E|]. intros p. rewrite Hf, between_nth, map_length, seq_length. simpl. split.
  - intros [_ H]. split; [exact H1|]. split; [exact H2|]. intros i Hi. rewrite map_seq_nth by exact Hi. apply H. lia.
  - intros [_ [_ H]]. split; [exact I|]. intros i Hi. assert (K := H i). rewrite map_seq_nth in K by lia. apply K. lia.
Qed.

Lemma rows_fm_spec n : forall m rows acc, length rows = 2 * m -> Forall (fun v => length v = n) rows ->
  exists f, rows_fm n acc rows = Some f /\
    forall p, holds p f <-> holds p acc \/ exists k lo hi, nth_error rows (2 * k) = Some lo /\
      nth_error rows (2 * k + 1) = Some hi /\ between lo hi (map p (seq 0 n)).
Proof.
  induction m as [|m IH]; intros rows acc L F.
  - destruct rows; [|discriminate]. exists acc. split; [reflexivity|]. intros p. split; [auto|].
    intros [H|[k [lo [hi [H _]]]]]; [exact H|]. destruct (2 * k); discriminate.
  - destruct rows as [|lo [|hi rows]]; simpl in L; try lia.
    inversion F as [|? ? L1 F1]; subst. inversion F1 as [|? ? L2 F2]; subst.
    destruct (@box_fm_between lo hi (length lo) eq_refl L2) as [f [E Hf]].
    destruct (IH rows (FAny [acc; f])) as [g [Eg Hg]]; [lia|exact F2|].
    exists g. cbn [rows_fm]. rewrite E. cbn [obind]. split; [exact Eg|]. intros p. rewrite Hg.
    change (holds p (FAny [acc; f])) with (holds p acc \/ holds p f \/ False). rewrite Hf. split.
    + intros [[Ha|[Hb|[]]]|[k [lo' [hi' [K1 [K2 K3]]]]]].
      * auto.
      * right. exists 0, lo, hi. auto.
      * right. exists (S k), lo', hi'. replace (2 * S k) with (S (S (2 * k))) by lia. split; [exact K1|split; [exact K2|exact K3]].
    + intros [Ha|[k [lo' [hi' [K1 [K2 K3]]]]]]; [auto|]. destruct k as [|k].
      * simpl in K1, K2. injection K1 as <-. injection K2 as <-. auto.
      * right. exists k, lo', hi'. replace (2 * S k) with (S (S (2 * k))) in K1, K2 by lia. split; [exact K1|split; [exact K2|exact K3]].
Qed.

Lemma reach_fm_spec n : forall r acc, rectangular n r ->
  exists f, reach_fm n acc r = Some f /\
    forall p, holds p f <-> holds p acc \/ in_union r (map p (seq 0 n)).
Proof.
  induction r as [|[rows|] r IH]; intros acc F; simpl.
  - exists acc. split; [reflexivity|]. intros p. split; [auto|]. intros [H|[rows [k [lo [hi [[] _]]]]]]. exact H.
  - destruct (F rows (or_introl eq_refl)) as [[m Lm] Fr].
    destruct (@rows_fm_spec n m rows acc Lm Fr) as [f [E Hf]].
    destruct (IH f) as [g [Eg Hg]]; [intros x Hx; apply F; right; exact Hx|].
    exists g. rewrite E. cbn [obind]. split; [exact Eg|]. intros p. rewrite Hg, Hf. split.
    + intros [[Ha|[k [lo [hi K]]]]|[x [k [lo [hi [Hx K]]]]]].
      * auto.
      * right. exists rows, k, lo, hi. split; [left; reflexivity|exact K].
      * right. exists x, k, lo, hi. split; [right; exact Hx|exact K].
    + intros [Ha|[x [k [lo [hi [[Hx|Hx] K]]]]]]; [auto| |].
      * injection Hx as <-. left. right. exists k, lo, hi. exact K.
      * right. exists x, k, lo, hi. auto.
  - destruct (IH acc) as [g [Eg Hg]]; [intros x Hx; apply F; right; exact Hx|].
    exists g. split; [exact Eg|]. intros p. rewrite Hg. split; (intros [Ha|[x [k [lo [hi [Hx K]]]]]]; [auto|right; exists x, k, lo, hi]).
    + split; [right; exact Hx|exact K].
    + destruct Hx as [Hx|Hx]; [discriminate|auto].
Qed.

Lemma in_union_length n r x : rectangular n r -> in_union r x -> length x = n.
Proof.
  intros F [rows [k [lo [hi [Hr [K1 [K2 B]]]]]]]. destruct (F rows Hr) as [_ Fr].
  apply between_nth in B. destruct B as [L _]. rewrite Forall_forall in Fr. rewrite <- L. apply Fr, (nth_error_In _ _ K1).
Qed.

Lemma nth_map_seq (x : list R) : map (fun i => nth i x 0%R) (seq 0 (length x)) = x.
Proof.
  apply (nth_ext _ _ 0%R 0%R); [rewrite map_length, seq_length; reflexivity|].
  intros i Hi. rewrite map_length, seq_length in Hi. apply map_seq_nth, Hi.
Qed.

Lemma contains_exact unsat n rows v r1 r2 : rectangular n (Some (v :: rows) :: r1) -> rectangular n r2 ->
  (forall q, query (Some (v :: rows) :: r1) r2 = Some q -> exact unsat q) ->
  exists b, contain_all_fix unsat (Some (v :: rows) :: r1) r2 = Some b /\
    (b = true <-> forall x, in_union (Some (v :: rows) :: r1) x -> in_union r2 x).
Proof.
  intros F1 F2 X. assert (Lv : length v = n).
  { destruct (F1 (v :: rows) (or_introl eq_refl)) as [_ F]. inversion F; assumption. }
  unfold contain_all_fix. unfold query in *. cbn [hd_error obind] in *. rewrite Lv in *.
  destruct (reach_fm_spec (FAny []) F1) as [f1 [E1 H1]]. destruct (reach_fm_spec (FAny []) F2) as [f2 [E2 H2]].
  rewrite E1, E2 in *. cbn [obind] in *. specialize (X _ eq_refl).
  exists (unsat [f1; FNot f2]). split; [reflexivity|]. unfold exact in X. rewrite X. split.
  - intros N x Hx. assert (L := in_union_length F1 Hx).
    destruct (Classical_Prop.classic (in_union r2 x)) as [Y|Y]; [exact Y|]. exfalso. apply N.
    exists (fun i => nth i x 0%R). intros f [<-|[<-|[]]].
    + apply H1. right. rewrite <- L, nth_map_seq. exact Hx.
    + simpl. rewrite H2. intros [[]|K]. rewrite <- L, nth_map_seq in K. contradiction.
  - intros H [p Hp]. assert (K1 := Hp f1 (or_introl eq_refl)). assert (K2 := Hp (FNot f2) (or_intror (or_introl eq_refl))).
    apply H1 in K1. destruct K1 as [[]|K1]. simpl in K2. apply K2, H2. right. apply H, K1.
Qed.

(** ** Numbering of modes *)
Record EI (d : enum) : Prop := {
  ei_next : exists i, dget word_eqb Index d = Some i /\ forall m c, m <> Index -> dget word_eqb m d = Some c -> c < i;
  ei_inj : forall m m' c, m <> Index -> m' <> Index -> dget word_eqb m d = Some c -> dget word_eqb m' d = Some c -> m = m' }.
Definition extends (d d' : enum) : Prop := forall m c, m <> Index -> dget word_eqb m d = Some c -> dget word_eqb m d' = Some c.

Lemma new_EI : EI new_enum.
Proof.
  constructor.
  - exists 0. split; [reflexivity|]. intros m c N. unfold new_enum. cbn [dget]. rewrite (proj2 (word_eqb_neq _ _) N). discriminate.
  - intros m m' c N. unfold new_enum. cbn [dget]. rewrite (proj2 (word_eqb_neq _ _) N). discriminate.
Qed.
Lemma dget_dset' k a (v : nat) d : dget word_eqb a (dset word_eqb k v d) = if word_eqb a k then Some v else dget word_eqb a d.
Proof.
  unfold dset. destruct (word_eqb a k) eqn:E.
  - apply word_eqb_eq in E. subst a. rewrite (dget_alter_same word_eqb word_eqb_eq). reflexivity.
  - apply word_eqb_neq in E. rewrite (dget_alter_other word_eqb word_eqb_eq) by congruence. reflexivity.
Qed.
Lemma number_spec d m : EI d -> m <> Index ->
  EI (number d m) /\ extends d (number d m) /\ exists c, dget word_eqb m (number d m) = Some c.
Proof.
  intros [[i [Hi B]] J] N. unfold number, dmem. destruct (dget word_eqb m d) as [c|] eqn:E.
  - split; [constructor; [exists i; auto|exact J]|]. split; [intros ? ? ? H; exact H|]. exists c. exact E.
  - rewrite Hi.
    assert (G : forall a, a <> Index -> dget word_eqb a (dset word_eqb Index (S i) (dset word_eqb m i d)) =
       if word_eqb a m then Some i else dget word_eqb a d).
    { intros a Na. rewrite dget_dset', (proj2 (word_eqb_neq a Index) Na), dget_dset'. reflexivity. }
    split; [constructor|split].
    + exists (S i). split; [rewrite dget_dset', word_eqb_refl; reflexivity|]. intros a c Na. rewrite G by exact Na.
      destruct (word_eqb a m); [intros [= <-]; lia|]. intros H. assert (K := B a c Na H). lia.
    + intros a a' c Na Na'. rewrite !G by assumption.
      destruct (word_eqb a m) eqn:E1, (word_eqb a' m) eqn:E2; intros H1 H2.
      * apply word_eqb_eq in E1. apply word_eqb_eq in E2. congruence.
      * injection H1 as <-. assert (K := B a' i Na' H2). lia.
      * injection H2 as <-. assert (K := B a i Na H1). lia.
      * apply (J a a' c Na Na' H1 H2).
    + intros a c Na H. rewrite G by exact Na. destruct (word_eqb a m) eqn:E1; [apply word_eqb_eq in E1; congruence|exact H].
    + exists i. rewrite G, word_eqb_refl by exact N. reflexivity.
Qed.
Lemma ext_refl' d : extends d d. Proof. intros m c _ H; exact H. Qed.
Lemma ext_trans' a b c : extends a b -> extends b c -> extends a c.
Proof. intros H1 H2 m x N H. apply H2, H1; assumption. Qed.
Lemma numbers_spec ms : forall d, EI d -> ~ In Index ms ->
  EI (fold_left number ms d) /\ extends d (fold_left number ms d) /\
  forall m, In m ms -> exists c, dget word_eqb m (fold_left number ms d) = Some c.
Proof.
  induction ms as [|m ms IH]; intros d H N; simpl; [split; [exact H|split; [apply ext_refl'|intros ? []]]|].
  assert (Nm : m <> Index) by (intros ->; apply N; left; reflexivity).
  destruct (number_spec H Nm) as [H1 [E1 [c C]]]. destruct (IH (number d m) H1) as [H2 [E2 P2]].
  { intros K. apply N. right. exact K. }
  split; [exact H2|]. split; [exact (ext_trans' E1 E2)|]. intros x [<-|Hx]; [|apply P2, Hx].
  exists c. apply E2; assumption.
Qed.

(** The codes as a total function. *)
Definition code (d : enum) (m : word) : Q := match dget word_eqb m d with Some c => inject_Z (Z.of_nat c) | None => 0%Q end.
Lemma codes_total d d' ms : extends d d' -> ~ In Index ms -> (forall m, In m ms -> exists c, dget word_eqb m d = Some c) ->
  codes d ms = Some (map (code d') ms).
Proof.
  intros E N P. induction ms as [|m ms IH]; simpl; [reflexivity|].
  assert (Nm : m <> Index) by (intros ->; apply N; left; reflexivity).
  destruct (P m (or_introl eq_refl)) as [c C]. unfold codes in *. simpl. rewrite C. cbn [obind].
  rewrite IH; [|intros K; apply N; right; exact K|intros x Hx; apply P; right; exact Hx]. cbn [obind].
  unfold code at 2. rewrite (E m c Nm C). reflexivity.
Qed.
Lemma code_inj d ms ms' : EI d -> ~ In Index ms -> ~ In Index ms' ->
  (forall m, In m ms -> exists c, dget word_eqb m d = Some c) -> (forall m, In m ms' -> exists c, dget word_eqb m d = Some c) ->
  Forall2 Qeq (map (code d) ms) (map (code d) ms') -> ms = ms'.
Proof.
  intros H. revert ms'. induction ms as [|m ms IH]; intros [|m' ms'] N N' P P' F; simpl in F; inversion F; subst; [reflexivity|].
  f_equal.
  - destruct (P m (or_introl eq_refl)) as [c C]. destruct (P' m' (or_introl eq_refl)) as [c' C'].
    unfold code in H3. rewrite C, C' in H3. assert (K : c = c').
    { unfold Qeq, inject_Z in H3. simpl in H3. lia. }
    subst c'. apply (ei_inj H) with c; try assumption; [intros ->; apply N|intros ->; apply N']; left; reflexivity.
  - apply IH; [intros K; apply N; right; exact K|intros K; apply N'; right; exact K
      |intros x Hx; apply P; right; exact Hx|intros x Hx; apply P'; right; exact Hx|assumption].
Qed.

(** ** One agent's rows *)
(** Steps of a tube: the pairs numbered [k] in [ks], with the mode codes appended. *)
Definition pick (rows : list row) (cs : list Q) (ks : list nat) : list row :=
  flat_map (fun k => [tl (nth (2 * k) rows []) ++ cs; tl (nth (2 * k + 1) rows []) ++ cs]) ks.

Definition inside (times : list Q) (lo hi : Q) (k : nat) : bool :=
  Qle_bool lo (nth (2 * k) times 0%Q) && Qle_bool (nth (2 * k + 1) times 0%Q) hi.

Lemma rows_time times rows d i : Forall2 (fun t r => exists t' x, r = t' :: x /\ (t' == t)%Q /\ length x = d) times rows ->
  i < length times -> exists t' x, nth_error rows i = Some (t' :: x) /\ nth i rows [] = t' :: x /\ (t' == nth i times 0%Q)%Q /\ length x = d.
Proof.
  intros F. revert i. induction F as [|t r times rows [t' [x [-> [E L]]]] F IH]; intros i H; simpl in H; [lia|].
  destruct i as [|i]; simpl.
  - exists t', x. auto.
  - apply IH. lia.
Qed.

Lemma Qle_bool_eq a b a' b' : (a == a')%Q -> (b == b')%Q -> Qle_bool a b = Qle_bool a' b'.
Proof.
  intros H1 H2. destruct (Qle_bool a b) eqn:E.
  - symmetry. apply Qle_bool_iff. apply Qle_bool_iff in E. rewrite <- H1, <- H2. exact E.
  - symmetry. destruct (Qle_bool a' b') eqn:E'; [|reflexivity]. apply Qle_bool_iff in E'. rewrite <- H1, <- H2 in E'.
    apply Qle_bool_iff in E'. congruence.
Qed.

Lemma window_spec times rows d lo hi cs :
  Forall2 (fun t r => exists t' x, r = t' :: x /\ (t' == t)%Q /\ length x = d) times rows ->
  (forall i j, i <= j -> 2 * j + 1 < length times -> (nth (2 * i + 1) times 0 <= nth (2 * j + 1) times 0)%Q) ->
  forall n k, 2 * (k + n) = length times ->
  window_rows rows lo hi 2 cs n (2 * k) = Some (pick rows cs (filter (inside times lo hi) (seq k n))).
Proof.
  intros F M n. induction n as [|n IH]; intros k L; [reflexivity|]. cbn [window_rows seq filter].
  destruct (@rows_time times rows d (2 * k) F) as [t [x [E1 [N1 [T1 _]]]]]; [lia|].
  destruct (@rows_time times rows d (2 * k + 1) F) as [t' [x' [E2 [N2 [T2 _]]]]]; [lia|].
  rewrite E1. cbn [obind time_of hd_error].
  unfold inside at 1. rewrite (Qle_bool_eq (Qeq_refl lo) (Qeq_sym _ _ T1)).
  replace (2 * k + 2) with (2 * S k) by lia.
  assert (IH' := IH (S k)). rewrite IH' by lia. clear IH IH'.
  destruct (Qle_bool lo t) eqn:B1; simpl (negb _).
  - cbn [andb]. rewrite E2. cbn [obind time_of hd_error].
    rewrite (Qle_bool_eq (Qeq_sym _ _ T2) (Qeq_refl hi)). destruct (Qle_bool t' hi) eqn:B2; simpl (negb _).
    + cbn [pick flat_map]. fold (pick rows cs (filter (inside times lo hi) (seq (S k) n))). rewrite N1, N2. reflexivity.
    + (* break: no later step is inside *)
      assert (Z : filter (inside times lo hi) (seq (S k) n) = []).
      { assert (A : forall j, In j (seq (S k) n) -> inside times lo hi j = false).
        { intros j Hj. apply in_seq in Hj. unfold inside. apply andb_false_iff. right.
          destruct (Qle_bool (nth (2 * j + 1) times 0%Q) hi) eqn:B; [|reflexivity]. exfalso.
          apply Qle_bool_iff in B. assert (K : (nth (2 * k + 1) times 0 <= nth (2 * j + 1) times 0)%Q) by (apply M; lia).
          assert (t' <= hi)%Q by (rewrite T2; eapply Qle_trans; [exact K|exact B]).
          apply Qle_bool_iff in H. congruence. }
        induction (seq (S k) n) as [|j l IHl]; simpl; [reflexivity|].
        rewrite A by (left; reflexivity). apply IHl. intros; apply A; right; assumption. }
      rewrite Z. reflexivity.
  - cbn [andb]. reflexivity.
Qed.

Lemma window_agent times rows d lo hi T cs :
  Forall2 (fun t r => exists t' x, r = t' :: x /\ (t' == t)%Q /\ length x = d) times rows ->
  (exists m, length times = 2 * S m) -> ~ (nth 0 times 0 == nth 1 times 0)%Q ->
  (forall i j, i <= j -> 2 * j + 1 < length times -> (nth (2 * i + 1) times 0 <= nth (2 * j + 1) times 0)%Q) ->
  agent_rows (Some (lo, hi)) T cs (Some rows) = Some (pick rows cs (filter (inside times lo hi) (seq 0 (length times / 2)))).
Proof.
  intros F [m L] N M. unfold agent_rows.
  destruct (@rows_time times rows d 0 F) as [t [x [E1 [N1 [T1 _]]]]]; [lia|].
  destruct (@rows_time times rows d 1 F) as [t' [x' [E2 [N2 [T2 _]]]]]; [lia|].
  rewrite E1. cbn [obind time_of hd_error]. rewrite E2. cbn [obind time_of hd_error].
  replace (Qeq_bool t t') with false.
  2:{ symmetry. destruct (Qeq_bool t t') eqn:B; [|reflexivity]. apply Qeq_bool_iff in B. exfalso. apply N.
      rewrite <- T1, <- T2. exact B. }
  cbv zeta. assert (Lr : length rows = length times) by (symmetry; eapply Forall2_len; exact F).
  unfold turns. rewrite Lr, L. replace (2 * S m - 1 + (2 - 1)) with (S m * 2) by lia. rewrite Nat.div_mul by lia.
  replace (2 * S m) with (S m * 2) by lia. rewrite Nat.div_mul by lia.
  apply (@window_spec times rows d lo hi cs F M (S m) 0). lia.
Qed.

Lemma nth_error_rev {A} (l : list A) i : i < length l -> nth_error (rev l) i = nth_error l (length l - 1 - i).
Proof.
  intros H. destruct l as [|a l']; [simpl in H; lia|]. set (l := a :: l') in *.
  destruct (nth_error l (length l - 1 - i)) as [b|] eqn:E; [|apply nth_error_None in E; lia].
  rewrite (nth_error_nth' (rev l) a) by (rewrite rev_length; exact H). f_equal.
  rewrite rev_nth by exact H. replace (length l - S i) with (length l - 1 - i) by lia.
  apply nth_error_nth. exact E.
Qed.

Lemma end_agent times rows d T cs :
  Forall2 (fun t r => exists t' x, r = t' :: x /\ (t' == t)%Q /\ length x = d) times rows ->
  (exists m, length times = 2 * S m) ->
  agent_rows None T cs (Some rows) =
    Some (pick rows cs (if Qeq_bool (end_time times) T then [last_step times] else [])).
Proof.
  intros F [m L]. unfold agent_rows. assert (Lr : length rows = length times) by (symmetry; eapply Forall2_len; exact F).
  rewrite !nth_error_rev by lia. rewrite Lr.
  destruct (@rows_time times rows d (length times - 1 - 0) F) as [t [x [E1 [N1 [T1 _]]]]]; [lia|].
  destruct (@rows_time times rows d (length times - 1 - 1) F) as [t' [x' [E2 [N2 [T2 _]]]]]; [lia|].
  rewrite E1. cbn [obind time_of hd_error]. unfold end_time, last_step. replace (length times - 1 - 0) with (length times - 1) in * by lia.
  replace (Qeq_bool t T) with (Qeq_bool (nth (length times - 1) times 0%Q) T).
  2:{ destruct (Qeq_bool t T) eqn:B.
      - apply Qeq_bool_iff in B. apply Qeq_bool_iff. rewrite <- T1. exact B.
      - destruct (Qeq_bool (nth (length times - 1) times 0%Q) T) eqn:B'; [|reflexivity].
        apply Qeq_bool_iff in B'. rewrite <- T1 in B'. apply Qeq_bool_iff in B'. congruence. }
  destruct (Qeq_bool (nth (length times - 1) times 0%Q) T); [|reflexivity].
  rewrite E2. cbn [obind pick flat_map app].
  replace (2 * (length times / 2 - 1)) with (length times - 1 - 1).
  2:{ rewrite L. replace (2 * S m) with (S m * 2) by lia. rewrite Nat.div_mul by lia. lia. }
  replace (length times - 1 - 1 + 1) with (length times - 1) by lia. rewrite N1, N2. reflexivity.
Qed.

(** ** Composition over the agents *)
Lemma append_rows_spec acc rows : length acc = length rows -> append_rows acc rows = Some (zipw (@app Q) acc rows).
Proof.
  revert acc. induction rows as [|r rows IH]; intros [|a acc] L; simpl in L; try discriminate; [reflexivity|].
  simpl. rewrite IH by lia. reflexivity.
Qed.
Lemma zipw_len {A B C} (f : A -> B -> C) l m : length l = length m -> length (zipw f l m) = length l.
Proof. revert m. induction l as [|a l IH]; intros [|b m] L; simpl in *; try discriminate; [reflexivity|]. rewrite IH by lia. reflexivity. Qed.

Lemma compose_some L : 0 < L -> forall rs acc, length acc = L -> Forall (fun r => length r = L) rs ->
  exists c, compose (Some acc) rs = Some (Some c) /\ length c = L /\
    forall i, i < L -> nth i c [] = nth i acc [] ++ concat (map (fun r => nth i r []) rs).
Proof.
  intros P. induction rs as [|r rs IH]; intros acc La F; simpl.
  - exists acc. split; [reflexivity|]. split; [exact La|]. intros. rewrite app_nil_r. reflexivity.
  - inversion F as [|? ? Lr F']; subst x l. destruct r as [|r0 r']; [simpl in Lr; lia|].
    rewrite append_rows_spec by lia. cbn [obind].
    destruct (IH (zipw (@app Q) acc (r0 :: r'))) as [c [E [Lc H]]]; [rewrite zipw_len; lia|exact F'|].
    exists c. split; [exact E|]. split; [exact Lc|]. intros i Hi. rewrite H by exact Hi.
    rewrite app_assoc. f_equal. clear -La Lr Hi. revert acc i La Hi. revert L Lr. revert r0.
    assert (G : forall acc r i, length acc = length r -> i < length r -> nth i (zipw (@app Q) acc r) [] = nth i acc [] ++ nth i r []).
    { induction acc as [|a acc IH]; intros [|b r] i L1 L2; simpl in *; try lia; try discriminate.
      destruct i; [reflexivity|]. apply IH; lia. }
    intros r0 L Lr acc i La Hi. apply G; lia.
Qed.
Lemma compose_none rs : Forall (fun r => r = []) rs -> compose None rs = Some None.
Proof. induction 1 as [|r rs -> F IH]; simpl; [reflexivity|exact IH]. Qed.
Lemma compose_spec L rs : 0 < L -> rs <> [] -> Forall (fun r => length r = L) rs ->
  exists c, compose None rs = Some (Some c) /\ length c = L /\
    forall i, i < L -> nth i c [] = concat (map (fun r => nth i r []) rs).
Proof.
  intros P N F. destruct rs as [|r rs]; [congruence|]. inversion F as [|? ? Lr F']; subst x l.
  simpl. destruct r as [|r0 r']; [simpl in Lr; lia|].
  rewrite append_rows_spec by (rewrite map_length; reflexivity). cbn [obind].
  destruct (@compose_some L P rs (zipw (@app Q) (map (fun _ => []) (r0 :: r')) (r0 :: r'))) as [c [E [Lc H]]]; [|exact F'|].
  { rewrite zipw_len; rewrite map_length; lia. }
  exists c. split; [exact E|]. split; [exact Lc|]. intros i Hi. rewrite H by exact Hi. simpl (concat _). f_equal.
  assert (G : forall r, zipw (@app Q) (map (fun _ => []) r) r = r) by (induction r as [|a r IH]; simpl; [|rewrite IH]; reflexivity).
  rewrite G. reflexivity.
Qed.
