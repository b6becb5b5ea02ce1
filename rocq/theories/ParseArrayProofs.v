(** Proofs about the cached analysis of sensor functions. *)
From Coq Require Import Reals Qreals Lra QArith.Qminmax.
From Verif Require Import Base BaseFacts PyText Dict ScanProofs Piecewise PiecewiseSpec PiecewiseProofs ParseArray ParseArraySpec.
Set Implicit Arguments.
Open Scope nat_scope.

(** ** Names and intervals *)
Lemma dset_fresh {V} x (v : V) d : ~ In x (map fst d) -> dset word_eqb x v d = d ++ [(x, v)].
Proof.
  unfold dset. induction d as [|[y u] d IH]; intros H; [reflexivity|]. simpl in H. cbn [dalter].
  destruct (word_eqb x y) eqn:E; [apply word_eqb_iff in E; subst; exfalso; apply H; left; reflexivity|].
  cbn [app]. f_equal. apply IH. intros K. apply H. right. exact K.
Qed.
Lemma named_from names : forall bs d, NoDup names -> (forall x, In x names -> ~ In x (map fst d)) ->
  fold_left (fun d xb => dset word_eqb (fst xb) [snd xb] d) (combine names bs) d = d ++ map (fun xb => (fst xb, [snd xb : Q * Q])) (combine names bs).
Proof.
  induction names as [|x names IH]; intros bs d N F; [simpl; rewrite app_nil_r; reflexivity|].
  destruct bs as [|b bs]; [simpl; rewrite app_nil_r; reflexivity|]. inversion N as [|? ? N1 N2]; subst.
  cbn [combine fold_left fst snd]. rewrite dset_fresh by (apply F; left; reflexivity). rewrite IH.
  - cbn [map fst snd]. rewrite <- app_assoc. reflexivity.
  - exact N2.
  - intros y Hy K. rewrite map_app in K. apply in_app_or in K. destruct K as [K|[K|[]]]; [apply (F y); [right; exact Hy|exact K]|].
    simpl in K. subst y. contradiction.
Qed.
Lemma named_eq names bs : NoDup names -> named names bs = map (fun xb => (fst xb, [snd xb : Q * Q])) (combine names bs).
Proof. intros N. unfold named. rewrite named_from; [reflexivity|exact N|intros x _ []]. Qed.

Lemma named_same names : NoDup names -> forall bs bs', length bs = length names -> length bs' = length names ->
  same_bounds (named names bs) (named names bs') -> same_intervals bs bs'.
Proof.
  intros N bs bs' L L'. rewrite !named_eq by exact N. clear N. revert bs bs' L L'.
  induction names as [|x names IH]; intros [|b bs] [|b' bs'] L L' S; try discriminate; [constructor|].
  cbn [combine map fst snd] in S. inversion S as [|? ? ? ? [_ S1] S2]; subst. cbn [snd] in S1. inversion S1; subst. constructor; [assumption|].
  apply IH; [injection L; auto|injection L'; auto|exact S2].
Qed.
Lemma same_in_box bs bs' vs : same_intervals bs bs' -> in_box vs bs -> in_box vs bs'.
Proof.
  intros S. revert vs. induction S as [|i j l l' [A B] S IH]; intros vs H; inversion H; subst; constructor; [|apply IH; assumption].
  apply Qeq_eqR in A, B. rewrite <- A, <- B. assumption.
Qed.

(** ** Pieces of an interval *)
Lemma split_first lo hi n : 0 < n -> Q2R (split_point lo hi n 0) = Q2R lo.
Proof.
  intros H. unfold split_point. destruct (0 =? n) eqn:E; [apply Nat.eqb_eq in E; lia|]. apply Qeq_eqR.
  change (inject_Z (Z.of_nat 0)) with 0%Q. rewrite Qmult_0_l, Qplus_0_r. reflexivity.
Qed.
Lemma split_last lo hi n : split_point lo hi n n = hi.
Proof. unfold split_point. rewrite Nat.eqb_refl. reflexivity. Qed.
Lemma split_upto lo hi n v : 0 < n -> (Q2R lo <= v)%R -> forall m, (v <= Q2R (split_point lo hi n m))%R -> 0 < m -> m <= n ->
  exists i, i < m /\ (Q2R (split_point lo hi n i) <= v <= Q2R (split_point lo hi n (S i)))%R.
Proof.
  intros N L. induction m as [|m IH]; intros H P Q; [lia|].
  destruct (Rle_dec (Q2R (split_point lo hi n m)) v) as [K|K].
  - exists m. split; [lia|split; assumption].
  - destruct m as [|m]; [exfalso; rewrite split_first in K by exact N; lra|].
    destruct IH as (i & Hi & B); [lra|lia|lia|]. exists i. split; [lia|exact B].
Qed.
Lemma splits_cover n b v : splits n b <> [] -> (Q2R (fst b) <= v <= Q2R (snd b))%R -> exists c, In c (splits n b) /\ (Q2R (fst c) <= v <= Q2R (snd c))%R.
Proof.
  intros NE B. unfold splits in *. destruct (Qeq_bool (fst b) (snd b)); [exists b; split; [left; reflexivity|exact B]|].
  assert (0 < n) by (destruct n; [exfalso; apply NE; reflexivity|lia]).
  destruct (@split_upto (fst b) (snd b) n v H (proj1 B) n) as (i & Hi & C); [rewrite split_last; apply B|exact H|lia|].
  eexists. split; [apply in_map_iff; exists i; split; [reflexivity|apply in_seq; lia]|exact C].
Qed.
Lemma pieces_cover n input vs : in_box vs input -> product (map (splits n) input) <> [] ->
  exists sb, In sb (product (map (splits n) input)) /\ in_box vs sb.
Proof.
  intros B NE.
  assert (A : forall b, In b input -> splits n b <> []).
  { intros b Hb E. apply NE. clear B NE. induction input as [|a input IH]; [destruct Hb|]. simpl.
    destruct Hb as [<-|Hb]; [rewrite E; reflexivity|]. rewrite (IH Hb). generalize (splits n a). induction l; [reflexivity|]. simpl. exact IHl. }
  clear NE. enough (exists sb, Forall2 (fun x l => In x l) sb (map (splits n) input) /\ in_box vs sb) as (sb & H1 & H2) by (exists sb; split; [apply In_product, H1|exact H2]).
  induction B as [|v b vs input Hv B IH]; [exists []; split; constructor|].
  destruct IH as (sb & H1 & H2); [intros; apply A; right; assumption|].
  destruct (@splits_cover n b v (A b (or_introl eq_refl)) Hv) as (c & C1 & C2).
  exists (c :: sb). split; [constructor; assumption|constructor; assumption].
Qed.

(** ** Unions *)
Lemma Qmin_fold l : forall a b, In b (a :: l) -> (fold_left Qmin l a <= b)%Q.
Proof.
  induction l as [|c l IH]; intros a b H; simpl.
  - destruct H as [->|[]]. apply Qle_refl.
  - destruct H as [->|[->|H]].
    + eapply Qle_trans; [apply IH; left; reflexivity|]. apply Q.le_min_l.
    + eapply Qle_trans; [apply IH; left; reflexivity|]. apply Q.le_min_r.
    + apply IH. right. exact H.
Qed.
Lemma Qmax_fold l : forall a b, In b (a :: l) -> (b <= fold_left Qmax l a)%Q.
Proof.
  induction l as [|c l IH]; intros a b H; simpl.
  - destruct H as [->|[]]. apply Qle_refl.
  - destruct H as [->|[->|H]].
    + eapply Qle_trans; [|apply IH; left; reflexivity]. apply Q.le_max_l.
    + eapply Qle_trans; [|apply IH; left; reflexivity]. apply Q.le_max_r.
    + apply IH. right. exact H.
Qed.
Lemma Qfold_min l m b : Qfold Qmin l = Some m -> In b l -> (m <= b)%Q.
Proof. destruct l as [|a l]; [discriminate|]. intros [= <-] H. apply Qmin_fold. exact H. Qed.
Lemma Qfold_max l m b : Qfold Qmax l = Some m -> In b l -> (b <= m)%Q.
Proof. destruct l as [|a l]; [discriminate|]. intros [= <-] H. apply Qmax_fold. exact H. Qed.

Lemma In_Forall2_l {A B} (P : A -> B -> Prop) l m a : Forall2 P l m -> In a l -> exists b, In b m /\ P a b.
Proof. induction 1 as [|x y l m H F IH]; intros K; [destruct K|]. destruct K as [<-|K]; [exists y; split; [left; reflexivity|exact H]|]. destruct (IH K) as (b & ? & ?). exists b. split; [right; assumption|assumption]. Qed.
Lemma In_Forall2_r {A B} (P : A -> B -> Prop) l m b : Forall2 P l m -> In b m -> exists a, In a l /\ P a b.
Proof. induction 1 as [|x y l m H F IH]; intros K; [destruct K|]. destruct K as [<-|K]; [exists x; split; [left; reflexivity|exact H]|]. destruct (IH K) as (a & ? & ?). exists a. split; [right; assumption|assumption]. Qed.

Section Union.
  Variable merge : list (list (Q * Q)) -> list (Q * Q).

  Lemma union_get all u x : union_all merge all = Some u ->
    (forall l, dget word_eqb x u = Some l -> union_var merge all x = Some l) /\ (forall first, hd_error all = Some first -> map fst u = map fst first).
  Proof.
    unfold union_all. destruct (hd_error all) as [first|]; [|discriminate]. cbn [obind]. intros H. apply mapM_Forall2 in H. split.
    - intros l E. induction H as [|[y l0] [y' l1] f' u' H F IH]; [discriminate|]. cbn [fst] in H.
      destruct (union_var merge all y) as [l2|] eqn:U; [|discriminate]. cbn [obind] in H. injection H as <- <-.
      cbn [dget] in E. destruct (word_eqb x y) eqn:W; [|apply IH; exact E]. apply word_eqb_iff in W. subst y. injection E as <-. exact U.
    - intros ? [= <-]. induction H as [|[y l0] [y' l1] f' u' H F IH]; [reflexivity|]. cbn [fst] in H.
      destruct (union_var merge all y) as [l2|]; [|discriminate]. cbn [obind] in H. injection H as <- <-. simpl. f_equal. exact IH.
  Qed.

  (** The union of single intervals is one interval that contains them all. *)
  Lemma union_single all x l : union_var merge all x = Some l -> (forall cb lx, In cb all -> dget word_eqb x cb = Some lx -> length lx = 1) ->
    length l = 1 /\ forall cb lx v, In cb all -> dget word_eqb x cb = Some lx -> within v lx -> within v l.
  Proof.
    unfold union_var. destruct (mapM _ all) as [bl|] eqn:M; [|discriminate]. cbn [obind]. apply mapM_Forall2 in M. intros H S.
    assert (N : existsb (fun l => 1 <? length l) bl = false).
    { apply not_true_is_false. intros E. apply existsb_exists in E. destruct E as (y & Hy & L). destruct (In_Forall2_r _ M Hy) as (cb & Hc & G).
      rewrite (S _ _ Hc G) in L. discriminate. }
    rewrite N in H. destruct (mapM (@hd_error _) bl) as [b0|] eqn:B; [|discriminate]. cbn [obind] in H. apply mapM_Forall2 in B.
    destruct (Qfold Qmin _) as [mn|] eqn:E1; [|discriminate]. destruct (Qfold Qmax _) as [mx|] eqn:E2; [|discriminate]. injection H as <-.
    split; [reflexivity|]. intros cb lx v Hc G (b & Hb & V).
    destruct (In_Forall2_l _ M Hc) as (lx' & Hl & G'). rewrite G in G'. injection G' as <-.
    destruct (In_Forall2_l _ B Hl) as (c & Hcc & C). assert (L := S _ _ Hc G).
    destruct lx as [|a [|? ?]]; try discriminate. injection C as ->. destruct Hb as [->|[]].
    exists (mn, mx). split; [left; reflexivity|]. cbn [fst snd].
    assert (X := Qfold_min _ _ E1 (in_map fst _ _ Hcc)). assert (Y := Qfold_max _ _ E2 (in_map snd _ _ Hcc)).
    apply Qle_Rle in X, Y. cbn [fst snd] in *. lra.
  Qed.
  (** With a merge that loses nothing, nor does the union. *)
  Lemma union_keeps all x l : keeps merge -> union_var merge all x = Some l ->
    forall cb lx v, In cb all -> dget word_eqb x cb = Some lx -> within v lx -> within v l.
  Proof.
    intros Kp H cb lx v Hc G V. destruct (existsb (fun cb => match dget word_eqb x cb with Some l => 1 <? length l | None => false end) all) eqn:Ex.
    - unfold union_var in H. destruct (mapM _ all) as [bl|] eqn:M; [|discriminate]. cbn [obind] in H. apply mapM_Forall2 in M.
      apply existsb_exists in Ex. destruct Ex as (c1 & Hc1 & L1). destruct (In_Forall2_l _ M Hc1) as (l1 & I1 & G1). rewrite G1 in L1.
      assert (N : existsb (fun l => 1 <? length l) bl = true) by (apply existsb_exists; exists l1; auto). rewrite N in H. injection H as <-.
      destruct (In_Forall2_l _ M Hc) as (lx' & Hl & G'). rewrite G in G'. injection G' as <-. eapply Kp; eassumption.
    - refine (proj2 (@union_single all x l H _) cb lx v Hc G V). intros c1 l1 Hc1 G1.
      assert (LE : length l1 <= 1).
      { destruct (1 <? length l1) eqn:E; [|apply Nat.ltb_ge in E; exact E]. exfalso. apply not_true_iff_false in Ex. apply Ex. apply existsb_exists. exists c1. rewrite G1. auto. }
      unfold union_var in H. destruct (mapM _ all) as [bl|] eqn:M; [|discriminate]. cbn [obind] in H. apply mapM_Forall2 in M.
      destruct (existsb (fun l => 1 <? length l) bl) eqn:N.
      { exfalso. apply existsb_exists in N. destruct N as (y & Hy & L). destruct (In_Forall2_r _ M Hy) as (c2 & Hc2 & G2). apply not_true_iff_false in Ex. apply Ex. apply existsb_exists. exists c2. rewrite G2. auto. }
      destruct (mapM (@hd_error _) bl) as [b0|] eqn:B; [|discriminate]. apply mapM_Forall2 in B. destruct (In_Forall2_l _ M Hc1) as (l2 & I2 & G2). rewrite G1 in G2. injection G2 as <-.
      destruct (In_Forall2_l _ B I2) as (c & _ & C). destruct l1 as [|a [|? ?]]; [discriminate|reflexivity|cbn in LE; lia].
  Qed.
End Union.

(** ** The cache *)
Section Cache.
  Variable O : Type.
  Variable call : word -> list R -> option R.
  Variable analyse : O -> func -> bounds -> option bounds.
  Variable merge : list (list (Q * Q)) -> list (Q * Q).
  Variable K : Type.
  Variable keqb : K -> K -> bool.
  Hypothesis keqb_eq : forall a b, keqb a b = true <-> a = b.
  Variable key pkey : bounds -> word -> K.
  Hypothesis key_tells : tells key key.
  Hypothesis pkey_tells : tells pkey key.

  Variable es : list (event O).
  Variable o : O.
  Variable vars : func -> list word.
  Hypothesis opts : same_options o es.
  Hypothesis names : distinct_names es.
  Hypothesis args : forall f, calls es f -> NoDup (params f).
  Hypothesis right : forall f box r x, calls es f -> analyse o f (named (params f) box) = Some r -> length box = length (params f) -> bounds_of call f box x r.
  Hypothesis keys : forall f box r x, calls es f -> analyse o f (named (params f) box) = Some r -> length box = length (params f) -> (In x (map fst r) <-> In x (vars f)).

  Definition wanted (f : func) (x : word) : Prop := single analyse o f x \/ never_splits es \/ keeps merge.

  (** A result for [f] on [box]. *)
  Definition result (f : func) (box : list (Q * Q)) (b : bounds) : Prop :=
    (forall x, wanted f x -> bounds_of call f box x b) /\ (forall x, In x (map fst b) <-> In x (vars f)) /\
    (forall x l, single analyse o f x -> dget word_eqb x b = Some l -> length l = 1).
  Definition entry (k : K) (b : bounds) : Prop :=
    exists f box, calls es f /\ length box = length (params f) /\ k = key (named (params f) box) (fname f) /\ result f box b.
  Definition good (st : store K) : Prop := forall k b, dget keqb k st = Some b -> entry k b.

  Lemma good_set st k b : good st -> entry k b -> good (dset keqb k b st).
  Proof.
    intros G E k' b' H. unfold dset in H. destruct (keqb k k') eqn:X.
    - apply keqb_eq in X. subst k'. rewrite dget_alter_same in H by exact keqb_eq. injection H as <-. exact E.
    - rewrite dget_alter_other in H; [|exact keqb_eq|]. { apply G. exact H. } intros ->. rewrite (proj2 (keqb_eq _ _) eq_refl) in X. discriminate.
  Qed.

  Lemma result_same f box box' b : same_intervals box box' -> result f box' b -> result f box b.
  Proof.
    intros S (A & B & C). split; [|split; assumption]. intros x W vs v V. apply A; [exact W|]. eapply same_in_box; eassumption.
  Qed.
  Lemma entry_result st f box b (k : bounds -> word -> K) : tells k key -> good st -> calls es f -> length box = length (params f) ->
    dget keqb (k (named (params f) box) (fname f)) st = Some b -> result f box b.
  Proof.
    intros T G C L H. apply G in H. destruct H as (g & box' & Cg & Lg & E & R). apply T in E. destruct E as [S N].
    assert (f = g) by (apply names; assumption). subst g. eapply result_same; [|exact R]. eapply named_same; try eassumption. apply args. exact C.
  Qed.
  Lemma analysed f box r : calls es f -> length box = length (params f) -> analyse o f (named (params f) box) = Some r -> result f box r.
  Proof.
    intros C L A. split; [|split].
    - intros x _. eapply right; eassumption.
    - intros x. eapply keys; eassumption.
    - intros x l S G. eapply S; eassumption.
  Qed.

  Lemma cached_result st f box (k : bounds -> word -> K) cache par st' b : tells k key -> good st -> calls es f -> length box = length (params f) ->
    parse_cached analyse keqb o st f (named (params f) box) (k (named (params f) box) (fname f)) cache par = Some (st', b) -> result f box b.
  Proof.
    intros T G C L H. unfold parse_cached in H. destruct (dget keqb _ st) as [b0|] eqn:E.
    - injection H as <- <-. eapply entry_result; eassumption.
    - destruct (analyse o f _) as [r|] eqn:A; [|discriminate]. cbn [obind] in H. injection H as <- <-. apply analysed; assumption.
  Qed.

  Lemma array_result st f input cache n st' a : good st -> In (Call o f input cache n) es ->
    parse_array analyse merge keqb key pkey o st f input cache n = Some (st', a) -> good st' /\ result f input (answer_bounds a) /\ length input = length (params f).
  Proof.
    intros G I H. assert (C : calls es f) by (do 4 eexists; exact I). unfold parse_array in H.
    destruct (length input =? length (params f)) eqn:L; [|discriminate]. apply Nat.eqb_eq in L. cbn [negb] in H.
    destruct (existsb _ input); [discriminate|]. destruct (dget keqb _ st) as [b|] eqn:E.
    { injection H as <- <-. split; [exact G|split; [|exact L]]. exact (@entry_result st f input b key key_tells G C L E). }
    destruct (n =? 1) eqn:N.
    - destruct (parse_cached _ _ _ _ _ _ _ _ _) as [[st1 b]|] eqn:P; [|discriminate]. cbn [obind fst snd] in H. injection H as <- <-.
      assert (R : result f input b) by (eapply (@cached_result st f input key); eassumption).
      split; [|split; [exact R|exact L]]. unfold parse_cached in P. rewrite E in P. destruct (analyse o f _) as [r|]; [|discriminate]. cbn [obind] in P.
      injection P as <- <-. destruct cache; cbn [andb negb]; [|exact G]. apply good_set; [exact G|]. exists f, input. auto.
    - destruct (mapM _ (product _)) as [all|] eqn:M; [|discriminate]. cbn [obind] in H. destruct (union_all merge all) as [u|] eqn:U; [|discriminate].
      cbn [obind] in H. injection H as <- <-. apply mapM_Forall2 in M.
      assert (P : Forall2 (fun sb b => length sb = length (params f) /\ result f sb b) (product (map (splits n) input)) all).
      { assert (Q : forall sb, In sb (product (map (splits n) input)) -> length sb = length (params f)).
        { intros sb Hs. apply In_product in Hs. apply Forall2_len in Hs. rewrite Hs, map_length. exact L. }
        clear U. revert M Q. generalize (product (map (splits n) input)). intros l M Q. induction M as [|sb b l bs Hb M IH]; [constructor|].
        constructor; [|apply IH; intros; apply Q; right; assumption]. assert (Ls := Q sb (or_introl eq_refl)). split; [exact Ls|].
        destruct (parse_cached _ _ _ _ _ _ _ _ _) as [[st1 b1]|] eqn:PC; [|discriminate]. cbn [obind snd] in Hb. injection Hb as <-.
        eapply (@cached_result st f sb pkey); eassumption. }
      assert (R : result f input u).
      { assert (HD : exists first, hd_error all = Some first) by (unfold union_all in U; destruct (hd_error all); [eauto|discriminate]).
        destruct HD as [first HD]. assert (UK := proj2 (@union_get merge all u [] U) first HD).
        assert (InF : In first all) by (destruct all; [discriminate|injection HD as ->; left; reflexivity]).
        destruct (In_Forall2_r _ P InF) as (sb0 & Hsb0 & L0 & R0).
        assert (SL : forall x cb lx, single analyse o f x -> In cb all -> dget word_eqb x cb = Some lx -> length lx = 1).
        { intros x cb lx S Hc Gx. destruct (In_Forall2_r _ P Hc) as (sb & _ & _ & _ & _ & R3). eapply R3; eassumption. }
        split; [|split].
        - intros x W vs v V A. assert (S : single analyse o f x \/ keeps merge).
          { destruct W as [S|[NS|Kp]]; [left; exact S| |right; exact Kp]. rewrite (NS _ _ _ _ _ I) in N. discriminate. }
          assert (product (map (splits n) input) <> []) as NE by (intros X; rewrite X in Hsb0; destruct Hsb0).
          destruct (@pieces_cover n input vs V NE) as (sb & Hs & Vs). destruct (In_Forall2_l _ P Hs) as (cb & Hc & Ls & R1 & R2 & R3).
          destruct (R1 x W vs v Vs A) as (lx & Gx & Wx).
          assert (KX : In x (map fst u)).
          { rewrite UK. apply R0. apply R2. apply (dget_In word_eqb word_eqb_iff) in Gx. apply (in_map fst) in Gx. exact Gx. }
          destruct (dget word_eqb x u) as [l|] eqn:GU; [|apply (dget_None word_eqb word_eqb_iff) in GU; contradiction].
          exists l. split; [reflexivity|]. assert (UV := proj1 (@union_get merge all u x U) l GU).
          destruct S as [S|Kp]; [|eapply (@union_keeps merge all x l Kp UV); eassumption].
          destruct (@union_single merge all x l UV) as [_ Z]; [intros cb' lx' ? ?; eapply SL; eassumption|]. eapply Z; eassumption.
        - intros x. rewrite UK. apply R0.
        - intros x l S GU. assert (UV := proj1 (@union_get merge all u x U) l GU).
          destruct (@union_single merge all x l UV) as [Z _]; [intros cb' lx' ? ?; eapply SL; eassumption|]. exact Z. }
      split; [|split; [exact R|exact L]]. destruct cache; [|exact G]. apply good_set; [exact G|]. exists f, input. auto.
  Qed.

  Lemma steps_result l : forall st st' answers, incl l es -> good st -> steps analyse merge keqb key pkey st l = (st', answers) ->
    forall i f box cache n a, nth_error l i = Some (Call o f box cache n) -> nth_error answers i = Some (Some a) -> result f box (answer_bounds a).
  Proof.
    induction l as [|e l IH]; intros st st' answers I G H i f box cache n a E A; [destruct i; discriminate|].
    cbn [steps] in H. destruct (step analyse merge keqb key pkey st e) as [st1 a1] eqn:S. destruct (steps analyse merge keqb key pkey st1 l) as [st2 l2] eqn:SS. injection H as <- <-.
    assert (G1 : good st1 /\ (forall a2 f box cache n, e = Call o f box cache n -> a1 = Some a2 -> result f box (answer_bounds a2))).
    { unfold step in S. destruct e as [o' f' box' cache' n'|]; [|injection S as <- <-; split; [intros k b X; discriminate|intros; discriminate]].
      assert (Ie : In (Call o' f' box' cache' n') es) by (apply I; left; reflexivity). assert (o' = o) by (eapply opts; exact Ie). subst o'.
      destruct (parse_array _ _ _ _ _ _ _ _ _ _ _) as [[st3 a3]|] eqn:PA; injection S as <- <-.
      - destruct (@array_result _ _ _ _ _ _ _ G Ie PA) as (A1 & A2 & A3). split; [exact A1|]. intros a2 ? ? ? ? [= <- <- <- <-] [= <-]. exact A2.
      - split; [exact G|]. intros; discriminate. }
    destruct G1 as [G1 R1]. destruct i as [|i]; cbn [nth_error] in E, A.
    - injection E as ->. injection A as ->. eapply R1; reflexivity.
    - eapply (IH st1 st2 l2); try eassumption. intros y Hy. apply I. right. exact Hy.
  Qed.
End Cache.

(** ** Entries stay *)
Section Stay.
  Variable O : Type.
  Variable analyse : O -> func -> bounds -> option bounds.
  Variable merge : list (list (Q * Q)) -> list (Q * Q).
  Variable K : Type.
  Variable keqb : K -> K -> bool.
  Hypothesis keqb_eq : forall a b, keqb a b = true <-> a = b.
  Variable key pkey : bounds -> word -> K.

  Lemma dset_keeps k0 k (b0 b : bounds) st : dget keqb k st = None -> dget keqb k0 st = Some b0 -> dget keqb k0 (dset keqb k b st) = Some b0.
  Proof. intros N H. unfold dset. rewrite dget_alter_other; [exact H|exact keqb_eq|]. intros ->. rewrite H in N. discriminate. Qed.
  Lemma array_keeps o st f input cache n st' a k0 b0 : parse_array analyse merge keqb key pkey o st f input cache n = Some (st', a) ->
    dget keqb k0 st = Some b0 -> dget keqb k0 st' = Some b0.
  Proof.
    intros H D. unfold parse_array in H. destruct (negb _); [discriminate|]. destruct (existsb _ input); [discriminate|].
    destruct (dget keqb (key _ _) st) as [b|] eqn:E; [injection H as <- <-; exact D|]. destruct (n =? 1).
    - unfold parse_cached in H. rewrite E in H. destruct (analyse o f _) as [r|]; [|discriminate]. cbn [obind fst snd] in H. injection H as <- <-.
      destruct cache; cbn [andb negb]; [apply dset_keeps; assumption|exact D].
    - destruct (mapM _ _) as [all|]; [|discriminate]. cbn [obind] in H. destruct (union_all merge all) as [u|]; [|discriminate]. cbn [obind] in H.
      injection H as <- <-. destruct cache; [apply dset_keeps; assumption|exact D].
  Qed.
  Lemma steps_keep es : forall st k0 b0, (forall e, In e es -> e <> Clear) -> dget keqb k0 st = Some b0 ->
    dget keqb k0 (fst (steps analyse merge keqb key pkey st es)) = Some b0.
  Proof.
    induction es as [|e es IH]; intros st k0 b0 N D; [exact D|]. cbn [steps].
    destruct (step analyse merge keqb key pkey st e) as [st1 a1] eqn:S. destruct (steps analyse merge keqb key pkey st1 es) as [st2 l2] eqn:SS.
    cbn [fst]. change st2 with (fst (st2, l2)). rewrite <- SS. apply IH; [intros; apply N; right; assumption|].
    unfold step in S. destruct e as [o f input cache n|]; [|exfalso; apply (N Clear); [left; reflexivity|reflexivity]].
    destruct (parse_array _ _ _ _ _ _ _ _ _ _ _) as [[st3 a3]|] eqn:PA; injection S as <- <-; [eapply array_keeps; eassumption|exact D].
  Qed.
  Lemma array_stores o st f input n st' a : parse_array analyse merge keqb key pkey o st f input true n = Some (st', a) ->
    length input = length (params f) /\ existsb (fun b => negb (Qle_bool (fst b) (snd b))) input = false /\
    dget keqb (key (named (params f) input) (fname f)) st' = Some (answer_bounds a).
  Proof.
    intros H. unfold parse_array in H. destruct (length input =? length (params f)) eqn:L; [|discriminate]. apply Nat.eqb_eq in L. split; [exact L|].
    cbn [negb] in H. destruct (existsb _ input); [discriminate|]. split; [reflexivity|].
    destruct (dget keqb (key _ _) st) as [b|] eqn:E; [injection H as <- <-; exact E|]. destruct (n =? 1).
    - unfold parse_cached in H. rewrite E in H. destruct (analyse o f _) as [r|]; [|discriminate]. cbn [obind fst snd andb negb] in H. injection H as <- <-.
      unfold dset. rewrite dget_alter_same by exact keqb_eq. reflexivity.
    - destruct (mapM _ _) as [all|]; [|discriminate]. cbn [obind] in H. destruct (union_all merge all) as [u|]; [|discriminate]. cbn [obind] in H.
      injection H as <- <-. unfold dset. rewrite dget_alter_same by exact keqb_eq. reflexivity.
  Qed.
  Lemma array_hit o st f input cache n b : length input = length (params f) -> existsb (fun b => negb (Qle_bool (fst b) (snd b))) input = false ->
    dget keqb (key (named (params f) input) (fname f)) st = Some b ->
    parse_array analyse merge keqb key pkey o st f input cache n = Some (st, Only b).
  Proof. intros L V D. unfold parse_array. rewrite L, Nat.eqb_refl, V, D. reflexivity. Qed.

  (** Without the cache flag nothing is stored. *)
  Lemma array_uncached o st f input n st' a : parse_array analyse merge keqb key pkey o st f input false n = Some (st', a) -> st' = st.
  Proof.
    intros H. unfold parse_array in H. destruct (negb _); [discriminate|]. destruct (existsb _ input); [discriminate|].
    destruct (dget keqb (key _ _) st) as [b|] eqn:E; [injection H as <- <-; reflexivity|]. destruct (n =? 1).
    - unfold parse_cached in H. rewrite E in H. destruct (analyse o f _) as [r|]; [|discriminate]. cbn [obind fst snd] in H. injection H as <- <-. reflexivity.
    - destruct (mapM _ _) as [all|]; [|discriminate]. cbn [obind] in H. destruct (union_all merge all) as [u|]; [|discriminate]. cbn [obind] in H.
      injection H as <- <-. reflexivity.
  Qed.
End Stay.

(** ** The statement-by-statement analysis *)
Section Concrete.
  Variable opt : bool -> list zc -> word -> option Q.
  Variable crown : expr -> list word -> bounds -> option (list (Q * Q)).
  Variable angular mapf : word -> list word -> bounds -> option (list (Q * Q)).
  Variable aliases : list (word * word).
  Variable af mf : list word.
  Variable pws : list func.

  Fixpoint assigned (body : list stmt) : list word :=
    match body with SAssign x _ :: rest => x :: assigned rest | _ => [] end.
  Lemma dset_In {V} x y (v : V) d : In y (map fst (dset word_eqb x v d)) <-> y = x \/ In y (map fst d).
  Proof.
    unfold dset. rewrite (dalter_keys word_eqb). unfold dmem. destruct (dget word_eqb x d) as [u|] eqn:E.
    - apply (dget_In word_eqb word_eqb_iff) in E. apply (in_map fst) in E. simpl in E. split; [auto|]. intros [->|H]; assumption.
    - rewrite in_app_iff. simpl. intuition.
  Qed.
  Lemma body_keys body : forall cur r, parse_body opt crown angular mapf aliases af mf pws body cur = Some r ->
    forall x, In x (map fst r) <-> In x (assigned body) \/ In x (map fst cur).
  Proof.
    induction body as [|s body IH]; intros cur r H x; [injection H as <-; simpl; tauto|]. destruct s as [|y e|e|]; simpl in H; try discriminate.
    - destruct (compute _ _ _ _ _ _ _ _ e cur) as [b|]; [|discriminate]. cbn [obind] in H. rewrite (IH _ _ H), dset_In. simpl. intuition.
    - injection H as <-. simpl. tauto.
  Qed.
  Lemma named_keys names box : NoDup names -> length box = length names -> map fst (named names box) = names.
  Proof.
    intros N L. rewrite named_eq by exact N. rewrite map_map. cbn [fst]. clear N. revert box L. induction names as [|x names IH]; intros [|b box] L; try discriminate; [reflexivity|].
    simpl. f_equal. apply IH. injection L; auto.
  Qed.
  Lemma in_box_state names box vs : NoDup names -> length box = length names -> in_box vs box -> state_in (combine names vs) (named names box).
  Proof.
    intros N L V. rewrite named_eq by exact N. clear N. revert names L. induction V as [|v b vs box Hv V IH]; intros names L x u G; [destruct names; discriminate|].
    destruct names as [|y names]; [discriminate|]. cbn [combine map fst snd dget] in *. destruct (word_eqb x y).
    - injection G as <-. eexists. split; [reflexivity|]. exists b. split; [left; reflexivity|exact Hv].
    - apply (IH names); [injection L; auto|exact G].
  Qed.
End Concrete.
