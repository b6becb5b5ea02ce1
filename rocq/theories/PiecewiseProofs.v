(** Lemmas for parsed sensor functions. *)
From Coq Require Import Ascii String Reals Qreals Lra QArith.Qminmax.
From Verif Require Import Base BaseFacts PyText Dict ResetProofs Piecewise PiecewiseSpec.
Set Implicit Arguments.
Open Scope nat_scope.

Lemma existsb_word x l : existsb (word_eqb x) l = true <-> In x l.
Proof.
  rewrite existsb_exists. split.
  - intros [y [H E]]. apply word_eqb_eq in E. subst. exact H.
  - intros H. exists x. split; [exact H|]. apply word_eqb_eq. reflexivity.
Qed.

(** ** Translation of expressions *)
Lemma zpos_val p d0 z : zval p d0 (zpos z) = zval p d0 z.
Proof. destruct z; reflexivity. Qed.
Lemma zneg_val p d0 z : zval p d0 (zneg z) = (- zval p d0 z)%R.
Proof. destruct z; simpl; try reflexivity. apply Q2R_opp. Qed.
Lemma zbin_val p d0 o a b z v : zbin o a b = Some z -> py_bin o (zval p d0 a) (zval p d0 b) = Some v -> zval p d0 z = v.
Proof.
  intros E P. assert (G : z = ZBin o a b \/ exists x y, a = ZNum x /\ b = ZNum y).
  { destruct a; try (left; injection E as <-; reflexivity). destruct b; try (left; injection E as <-; reflexivity). right. eauto. }
  destruct G as [->|[x [y [-> ->]]]].
  - destruct o; simpl in P |- *; try (injection P as <-; reflexivity). destruct (Req_EM_T _ _); [discriminate|]. injection P as <-. reflexivity.
  - simpl in P, E. destruct o; simpl in P.
    + injection E as <-. injection P as <-. simpl. apply Q2R_plus.
    + injection E as <-. injection P as <-. simpl. apply Q2R_minus.
    + injection E as <-. injection P as <-. simpl. apply Q2R_mult.
    + destruct (Qeq_bool y 0) eqn:Y; [discriminate|]. injection E as <-. destruct (Req_EM_T _ _); [discriminate|]. injection P as <-. simpl.
      apply Q2R_div. intros H. apply Qeq_bool_neq in Y. contradiction.
Qed.

Section Sem.
  Variable call : word -> list R -> option R.
  Variables (s : dict word R) (p : word -> R) (d0 : R -> R).
  Hypothesis agree : forall x v, dget word_eqb x s = Some v -> p x = v.

  Lemma z3_expr_ok vars e : forall z v, z3_expr vars e = Some z -> py_expr call s e = Some v -> zval p d0 z = v.
  Proof.
    induction e; intros z v E P; simpl in E, P.
    - destruct (existsb _ _); [|discriminate]. injection E as <-. apply agree, P.
    - injection E as <-. injection P as <-. reflexivity.
    - destruct (z3_expr vars e) as [a|]; [|discriminate]. injection E as <-. rewrite zpos_val. apply IHe; auto.
    - destruct (z3_expr vars e) as [a|]; [|discriminate]. injection E as <-. rewrite zneg_val.
      destruct (py_expr call s e) as [u|]; [|discriminate]. injection P as <-. f_equal. apply IHe; auto.
    - destruct (z3_expr vars e1) as [a|]; [|discriminate]. cbn [obind] in E. destruct (z3_expr vars e2) as [b|]; [|discriminate]. cbn [obind] in E.
      destruct (py_expr call s e1) as [x|]; [|discriminate]. cbn [obind] in P. destruct (py_expr call s e2) as [y|]; [|discriminate]. cbn [obind] in P.
      eapply zbin_val; [exact E|]. rewrite (IHe1 a x), (IHe2 b y) by reflexivity. exact P.
    - discriminate.
  Qed.

  Definition z3_conds vars := fix go l := match l with [] => Some [] | c :: l' => do z <- z3_cond vars c; do zs <- go l'; Some (z :: zs) end.
  Definition uncs := fix all l := match l with [] => True | c :: l' => unchained c /\ all l' end.
  Definition zall := fix all l := match l with [] => True | c :: l' => zholds p d0 c /\ all l' end.
  Definition zany := fix any l := match l with [] => False | c :: l' => zholds p d0 c \/ any l' end.

  Scheme cond_is_mut := Minimality for cond_is Sort Prop
    with all_is_mut := Minimality for all_is Sort Prop
    with any_is_mut := Minimality for any_is Sort Prop.

  Lemma z3_cond_ok vars c b : cond_is call s c b -> forall z, unchained c -> z3_cond vars c = Some z -> (zholds p d0 z <-> b = true).
  Proof.
    intros H. revert c b H.
    apply (@cond_is_mut call s
      (fun c b => forall z, unchained c -> z3_cond vars c = Some z -> (zholds p d0 z <-> b = true))
      (fun l b => forall zs, uncs l -> z3_conds vars l = Some zs -> (zall zs <-> b = true))
      (fun l b => forall zs, uncs l -> z3_conds vars l = Some zs -> (zany zs <-> b = true))).
    - intros l rest v b Hl _ Hc z U E. simpl in U, E. destruct rest as [|[o e] [|? ?]]; try discriminate U.
      destruct (z3_expr vars l) as [zl|] eqn:El; [|discriminate]. cbn [obind z3_cmps] in E.
      destruct (z3_expr vars e) as [ze|] eqn:Ee; [|discriminate]. cbn [obind] in E.
      inversion Hc; subst.
      + assert (Ez : z = ZCmp o zl ze) by (destruct o; try discriminate; injection E as <-; reflexivity). subst z.
        match goal with K : cmps_is _ _ _ [] _ |- _ => inversion K; subst end.
        simpl. rewrite (z3_expr_ok vars l El Hl). erewrite z3_expr_ok by eassumption. tauto.
      + assert (Ez : z = ZCmp o zl ze) by (destruct o; try discriminate; injection E as <-; reflexivity). subst z.
        simpl. rewrite (z3_expr_ok vars l El Hl). erewrite z3_expr_ok by eassumption. split; [contradiction|discriminate].
    - intros l b _ IH z U E. simpl in E. fold (z3_conds vars) in E. destruct (z3_conds vars l) as [zs|] eqn:Z; [|discriminate].
      injection E as <-. simpl. fold zall. apply IH; auto.
    - intros l b _ IH z U E. simpl in E. fold (z3_conds vars) in E. destruct (z3_conds vars l) as [zs|] eqn:Z; [|discriminate].
      injection E as <-. simpl. fold zany. apply IH; auto.
    - intros c b _ IH z U E. simpl in E, U. destruct (z3_cond vars c) as [z'|]; [|discriminate]. injection E as <-. simpl.
      rewrite (IH z' U eq_refl). destruct b; simpl; split; congruence.
    - intros zs _ E. injection E as <-. simpl. tauto.
    - intros c l b _ IHc _ IHl zs [U1 U2] E. simpl in E. fold (z3_conds vars) in E. destruct (z3_cond vars c) as [z|]; [|discriminate]. cbn [obind] in E.
      destruct (z3_conds vars l) as [zs'|]; [|discriminate]. injection E as <-. simpl. fold zall.
      rewrite (IHc z U1 eq_refl), (IHl zs' U2 eq_refl). tauto.
    - intros c l _ IHc zs [U1 U2] E. simpl in E. fold (z3_conds vars) in E. destruct (z3_cond vars c) as [z|]; [|discriminate]. cbn [obind] in E.
      destruct (z3_conds vars l) as [zs'|]; [|discriminate]. injection E as <-. simpl. fold zall.
      rewrite (IHc z U1 eq_refl). split; [intros [K _]; discriminate|discriminate].
    - intros zs _ E. injection E as <-. simpl. split; [intros []|discriminate].
    - intros c l b _ IHc _ IHl zs [U1 U2] E. simpl in E. fold (z3_conds vars) in E. destruct (z3_cond vars c) as [z|]; [|discriminate]. cbn [obind] in E.
      destruct (z3_conds vars l) as [zs'|]; [|discriminate]. injection E as <-. simpl. fold zany.
      rewrite (IHc z U1 eq_refl), (IHl zs' U2 eq_refl). split; [intros [K|K]; [discriminate|exact K]|auto].
    - intros c l _ IHc zs [U1 U2] E. simpl in E. fold (z3_conds vars) in E. destruct (z3_cond vars c) as [z|]; [|discriminate]. cbn [obind] in E.
      destruct (z3_conds vars l) as [zs'|]; [|discriminate]. injection E as <-. simpl. fold zany.
      rewrite (IHc z U1 eq_refl). tauto.
  Qed.
End Sem.

(** ** The chain *)
Lemma returns_value body e : returns body e -> return_value body = Some e.
Proof.
  intros [docs [rest [-> F]]]. induction F as [|d docs -> F IH]; [reflexivity|exact IH].
Qed.

Definition translated (vars : list word) (pieces : list (cond * expr)) (default : option expr) (bs : list (option zc * expr)) : Prop :=
  exists zs, Forall2 (fun ce z => z3_cond vars (fst ce) = Some z) pieces zs /\
    bs = zipw (fun z ce => (Some z, snd ce)) zs pieces ++ match default with Some e => [(None, e)] | None => [] end.

Lemma chain_parse vars s pieces default : chain s pieces default -> forall bs, parse_chain vars s = Some bs -> translated vars pieces default bs.
Proof.
  induction 1 as [c b e Hb|c b e b' e' Hb Hb'|c b e s l o Hb Hc IH]; intros bs E; simpl in E.
  - destruct (z3_cond vars c) as [z|] eqn:Z; [|discriminate]. cbn [obind] in E. rewrite (returns_value Hb) in E. cbn [obind] in E. injection E as <-.
    exists [z]. split; [constructor; [exact Z|constructor]|reflexivity].
  - destruct (z3_cond vars c) as [z|] eqn:Z; [|discriminate]. cbn [obind] in E. rewrite (returns_value Hb) in E. cbn [obind] in E.
    assert (E' : Some [(Some z, e); (None, e')] = Some bs).
    { assert (R := returns_value Hb'). destruct b' as [|s b']; [discriminate|]. destruct s; try (rewrite R in E; exact E).
      destruct b'; [discriminate R|]. rewrite R in E. exact E. }
    injection E' as <-. exists [z]. split; [constructor; [exact Z|constructor]|reflexivity].
  - destruct (z3_cond vars c) as [z|] eqn:Z; [|discriminate]. cbn [obind] in E. rewrite (returns_value Hb) in E. cbn [obind] in E.
    assert (E' : obind (parse_chain vars s) (fun rest => Some ((Some z, e) :: rest)) = Some bs) by (destruct Hc; exact E). clear E.
    destruct (parse_chain vars s) as [bs'|]; [|discriminate]. injection E' as <-. destruct (IH bs' eq_refl) as [zs [F ->]].
    exists (z :: zs). split; [constructor; [exact Z|exact F]|reflexivity].
Qed.

Lemma docs_first docs s : Forall (fun s => s = SDoc) docs -> first_if (docs ++ [s]) = first_if [s].
Proof. induction 1 as [|d docs -> F IH]; [reflexivity|exact IH]. Qed.

(** The piece Python selects. *)
Inductive selects call (s : dict word R) : list (cond * expr) -> option expr -> expr -> Prop :=
| sel_here c e l o : cond_is call s c true -> selects call s ((c, e) :: l) o e
| sel_next c e l o e' : cond_is call s c false -> selects call s l o e' -> selects call s ((c, e) :: l) o e'
| sel_default e : selects call s [] (Some e) e.

Lemma runs_returns call s body e r : returns body e -> runs call s body r -> exists v, r = inr v /\ py_expr call s e = Some v.
Proof.
  intros [docs [rest [-> F]]]. induction F as [|d docs -> F IH]; simpl; intros H; inversion H; subst.
  - eauto.
  - apply IH. assumption.
Qed.
Lemma runs_nil call s r : runs call s [] r -> r = inl s.
Proof. intros H; inversion H; reflexivity. Qed.

Lemma runs_chain call s st pieces default v : chain st pieces default -> runs call s [st] (inr v) ->
  exists e, selects call s pieces default e /\ py_expr call s e = Some v.
Proof.
  induction 1 as [c b e Hb|c b e b' e' Hb Hb'|c b e s' l o Hb Hc IH]; intros H.
  - inversion H; subst.
    + destruct b0; [|match goal with K : runs _ _ [] _ |- _ => apply runs_nil in K; discriminate end].
      match goal with K : runs _ _ b _ |- _ => destruct (runs_returns Hb K) as [v' [[= <-] P]] end.
      exists e. split; [apply sel_here; assumption|exact P].
    + match goal with K : runs _ _ [] (inr v) |- _ => apply runs_nil in K; discriminate end.
  - inversion H; subst.
    + destruct b0.
      * match goal with K : runs _ _ b _ |- _ => destruct (runs_returns Hb K) as [v' [[= <-] P]] end.
        exists e. split; [apply sel_here; assumption|exact P].
      * match goal with K : runs _ _ b' _ |- _ => destruct (runs_returns Hb' K) as [v' [[= <-] P]] end.
        exists e'. split; [apply sel_next; [assumption|apply sel_default]|exact P].
    + match goal with K : runs _ _ [] (inr v) |- _ => apply runs_nil in K; discriminate end.
  - inversion H; subst.
    + destruct b0.
      * match goal with K : runs _ _ b _ |- _ => destruct (runs_returns Hb K) as [v' [[= <-] P]] end.
        exists e. split; [apply sel_here; assumption|exact P].
      * match goal with K : runs _ _ [s'] _ |- _ => destruct (IH K) as [e' [S P]] end.
        exists e'. split; [apply sel_next; assumption|exact P].
    + match goal with K : runs _ _ [] (inr v) |- _ => apply runs_nil in K; discriminate end.
Qed.
Lemma runs_docs call s docs st r : Forall (fun s => s = SDoc) docs -> runs call s (docs ++ [st]) r -> runs call s [st] r.
Proof. induction 1 as [|d docs -> F IH]; simpl; intros H; [exact H|]. inversion H; subst. apply IH. assumption. Qed.

(** ** The boxes *)
Lemma box_holds p d0 (d : box) : (forall x a b, In (x, (a, b)) d -> (Q2R a <= p x <= Q2R b)%R) ->
  forall c, In c (box_constraints d) -> zholds p d0 c.
Proof.
  intros H c Hc. apply in_flat_map in Hc. destruct Hc as [[x [a b]] [Hx Hc]]. specialize (H x a b Hx).
  destruct Hc as [<-|[<-|[]]]; simpl; lra.
Qed.

Lemma zall_all p d0 l : (forall c, In c l -> zholds p d0 c) -> zholds p d0 (ZAnd l).
Proof. intros H. simpl. induction l as [|c l IH]; [exact I|]. split; [apply H; left; reflexivity|apply IH; intros; apply H; right; assumption]. Qed.

Lemma branch_ok opt p d0 (d : box) c : (forall x a b, In (x, (a, b)) d -> (Q2R a <= p x <= Q2R b)%R) -> zholds p d0 c ->
  (forall x, In x (map fst d) -> opt_sound opt (box_constraints d ++ [c]) x) ->
  exists cb, branch_bounds opt d c = Some cb /\ map fst cb = map fst d /\ forall x a b, In (x, (a, b)) cb -> (Q2R a <= p x <= Q2R b)%R.
Proof.
  intros Hb Hc So. unfold branch_bounds. set (cs := box_constraints d ++ [c]) in *.
  assert (All : forall c', In c' cs -> zholds p d0 c').
  { intros c' H. apply in_app_or in H. destruct H as [H|[<-|[]]]; [|exact Hc]. eapply box_holds; eassumption. }
  clearbody cs. clear Hc. induction d as [|[x [a b]] d IH]; [exists []; simpl; split; [reflexivity|split; [reflexivity|intros ? ? ? []]]|].
  destruct (So x (or_introl eq_refl) p d0 All) as [mn [mx [E1 [E2 B]]]].
  destruct IH as [cb [E [K P]]]; [intros; apply Hb; right; assumption|intros; apply So; right; assumption|].
  exists ((x, (mn, mx)) :: cb). simpl. rewrite E1. cbn [obind]. rewrite E2. cbn [obind]. rewrite E. cbn [obind].
  split; [reflexivity|]. split; [simpl; congruence|]. intros y a' b' [[= <- <- <-]|H]; [exact B|apply P, H].
Qed.

Lemma bounded_ok opt call s p d0 vars (d : box) : (forall x v, dget word_eqb x s = Some v -> p x = v) ->
  (forall x a b, In (x, (a, b)) d -> (Q2R a <= p x <= Q2R b)%R) ->
  forall pieces default e, selects call s pieces default e -> forall bs negs, translated vars pieces default bs ->
  Forall (fun ce => unchained (fst ce)) pieces -> (forall c, In c negs -> zholds p d0 c) ->
  (forall c x, In c (branch_conditions negs bs) -> In x (map fst d) -> opt_sound opt (box_constraints d ++ [c]) x) ->
  exists cb, In (cb, e) (bounded_piecewise opt d negs bs) /\ map fst cb = map fst d /\ forall x a b, In (x, (a, b)) cb -> (Q2R a <= p x <= Q2R b)%R.
Proof.
  intros Ag Hb pieces default e S. induction S as [c e l o Hc|c e l o e' Hc S IH|e]; intros bs negs [zs [F ->]] U N So.
  - inversion F as [|? z ? zs' Z F']; subst. inversion U; subst. simpl in *.
    destruct (@branch_ok opt p d0 d z Hb) as [cb [E [K P]]].
    + apply (@z3_cond_ok call s p d0 Ag vars _ _ Hc); auto.
    + intros x Hx. apply So; auto.
    + rewrite E. exists cb. split; [left; reflexivity|auto].
  - inversion F as [|? z ? zs' Z F']; subst. inversion U; subst. simpl in *.
    destruct (IH (zipw (fun z ce => (Some z, snd ce)) zs' l ++ match o with Some e => [(None, e)] | None => [] end) (negs ++ [ZNot z])) as [cb [E [K P]]].
    + exists zs'. auto.
    + assumption.
    + intros c' H. apply in_app_or in H. destruct H as [H|[<-|[]]]; [apply N, H|]. simpl.
      rewrite (@z3_cond_ok call s p d0 Ag vars _ _ Hc) by eassumption. discriminate.
    + intros c' x H. apply So. right. exact H.
    + exists cb. split; [|auto]. destruct (branch_bounds opt d z); [right|]; exact E.
  - inversion F; subst. simpl in *.
    destruct (@branch_ok opt p d0 d (match negs with [] => ZTrue | _ => ZAnd negs end) Hb) as [cb [E [K P]]].
    + destruct negs; [exact I|]. apply zall_all, N.
    + intros x Hx. apply So; auto.
    + rewrite E. exists cb. split; [left; reflexivity|auto].
Qed.

(** ** Combinations of intervals *)
Lemma dset_new (d : box) x v : ~ In x (map fst d) -> dset word_eqb x v d = d ++ [(x, v)].
Proof.
  unfold dset. induction d as [|[y u] d IH]; simpl; intros H; [reflexivity|].
  destruct (word_eqb x y) eqn:E; [apply word_eqb_eq in E; subst; tauto|]. rewrite IH by tauto. reflexivity.
Qed.
Lemma zip_dict_combine names comb : NoDup names -> zip_dict names comb = combine names comb.
Proof.
  unfold zip_dict. intros N.
  assert (G : forall l (d : box), NoDup (map fst d ++ map fst l) -> fold_left (fun d xb => dset word_eqb (fst xb) (snd xb) d) l d = d ++ l).
  { induction l as [|[x v] l IH]; intros d H; simpl; [rewrite app_nil_r; reflexivity|].
    rewrite dset_new.
    - rewrite IH; [rewrite <- app_assoc; reflexivity|]. rewrite map_app, <- app_assoc. exact H.
    - simpl in H. apply NoDup_remove_2 in H. intros K. apply H. apply in_or_app. left. exact K. }
  rewrite G; [reflexivity|]. simpl.
  assert (P : forall (ns : list word) (cs : list (Q * Q)), NoDup ns -> NoDup (map fst (combine ns cs))).
  { induction ns as [|n ns IH]; intros [|c cs] K; simpl; try constructor; inversion K; subst.
    - intros H. apply in_map_iff in H. destruct H as [[a b] [<- H]]. apply in_combine_l in H. contradiction.
    - apply IH. assumption. }
  apply P, N.
Qed.

Lemma product_pick {A} (P : A -> R -> Prop) bl vs : Forall2 (fun l u => exists b, In b l /\ P b u) bl vs ->
  exists comb, In comb (product bl) /\ Forall2 P comb vs.
Proof.
  induction 1 as [|l u bl vs [b [Hb Pb]] F [comb [Hc Pc]]]; [exists []; simpl; auto|].
  exists (b :: comb). split; [|constructor; assumption]. simpl. apply in_flat_map. exists b. split; [exact Hb|]. apply in_map, Hc.
Qed.

Lemma Qfold_min l m : Qfold Qmin l = Some m -> forall a, In a l -> (m <= a)%Q.
Proof.
  destruct l as [|x l]; [discriminate|]. simpl. intros [= <-].
  assert (G : forall l x, (fold_left Qmin l x <= x)%Q /\ forall a, In a l -> (fold_left Qmin l x <= a)%Q).
  { induction l0 as [|y l0 IH]; intros z; simpl; [split; [apply Qle_refl|intros ? []]|]. destruct (IH (Qmin z y)) as [H1 H2]. split.
    - eapply Qle_trans; [exact H1|apply Q.le_min_l].
    - intros a [<-|Ha]; [eapply Qle_trans; [exact H1|apply Q.le_min_r]|apply H2, Ha]. }
  intros a [<-|Ha]; [exact (proj1 (G l x))|exact (proj2 (G l x) a Ha)].
Qed.
Lemma Qfold_max l m : Qfold Qmax l = Some m -> forall a, In a l -> (a <= m)%Q.
Proof.
  destruct l as [|x l]; [discriminate|]. simpl. intros [= <-].
  assert (G : forall l x, (x <= fold_left Qmax l x)%Q /\ forall a, In a l -> (a <= fold_left Qmax l x)%Q).
  { induction l0 as [|y l0 IH]; intros z; simpl; [split; [apply Qle_refl|intros ? []]|]. destruct (IH (Qmax z y)) as [H1 H2]. split.
    - eapply Qle_trans; [apply Q.le_max_l|exact H1].
    - intros a [<-|Ha]; [eapply Qle_trans; [apply Q.le_max_r|exact H1]|apply H2, Ha]. }
  intros a [<-|Ha]; [exact (proj1 (G l x))|exact (proj2 (G l x) a Ha)].
Qed.

Lemma mapM_in {A B} (f : A -> option B) l : forall l' a, mapM f l = Some l' -> In a l -> exists b, f a = Some b /\ In b l'.
Proof.
  induction l as [|x l IH]; intros l' a E H; [destruct H|]. simpl in E. destruct (f x) as [b|] eqn:F; [|discriminate]. cbn [obind] in E.
  destruct (mapM f l) as [bs|]; [|discriminate]. injection E as <-. destruct H as [<-|H]; [exists b; simpl; auto|].
  destruct (IH bs a eq_refl H) as [b' [H1 H2]]. exists b'. simpl. auto.
Qed.

Lemma dget_combine_nodup {V} names (vs : list V) x v : dget word_eqb x (combine names vs) = Some v -> exists i, nth_error names i = Some x /\ nth_error vs i = Some v.
Proof.
  revert vs. induction names as [|n names IH]; intros [|u vs]; simpl; try discriminate.
  destruct (word_eqb x n) eqn:E.
  - apply word_eqb_eq in E. intros [= ->]. subst. exists 0. auto.
  - intros H. destruct (IH vs H) as [i [A B]]. exists (S i). auto.
Qed.
Lemma nodup_nth {A} (l : list A) i j x : NoDup l -> nth_error l i = Some x -> nth_error l j = Some x -> i = j.
Proof. intros N H1 H2. eapply NoDup_nth_error; [exact N|apply nth_error_Some; congruence|congruence]. Qed.
Lemma in_combine_nth {A B} (l : list A) (m : list B) a b : In (a, b) (combine l m) -> exists i, nth_error l i = Some a /\ nth_error m i = Some b.
Proof.
  revert m. induction l as [|x l IH]; intros [|y m]; simpl; try (intros []; fail). intros [[= -> ->]|H]; [exists 0; auto|].
  destruct (IH m H) as [i K]. exists (S i). exact K.
Qed.
Lemma forall2_nth_both {A B} (P : A -> B -> Prop) l m i a b : Forall2 P l m -> nth_error l i = Some a -> nth_error m i = Some b -> P a b.
Proof.
  intros F. revert i. induction F as [|x y l m H F IH]; intros [|i] H1 H2; simpl in *; try discriminate; [congruence|eapply IH; eassumption].
Qed.
Lemma dget_combine_some names (vs : list R) i x v : NoDup names -> nth_error names i = Some x -> nth_error vs i = Some v ->
  dget word_eqb x (combine names vs) = Some v.
Proof.
  intros N. revert vs i. induction N as [|n names Hn N IH]; intros [|u vs] [|i] H1 H2; simpl in *; try discriminate.
  - injection H1 as ->. injection H2 as ->. rewrite (proj2 (word_eqb_eq _ _) eq_refl). reflexivity.
  - destruct (word_eqb x n) eqn:E; [|eapply IH; eassumption]. apply word_eqb_eq in E. subst. apply nth_error_In in H1. contradiction.
Qed.

(** What the run of a piecewise function gives for the analysis. *)
Lemma handle_core opt call out f pieces default cur bs bl outs vs v :
  piecewise f pieces default -> NoDup (params f) ->
  Forall2 (fun x u => exists b, dget word_eqb x cur = Some b /\ within u b) (params f) vs ->
  runs call (combine (params f) vs) (fbody f) (inr v) ->
  queries_sound opt f cur ->
  (forall e, (exists c, In (c, e) pieces) \/ default = Some e -> expr_sound call out e) ->
  mapM (fun x => dget word_eqb x cur) (params f) = Some bl -> parse_piecewise f = Some bs ->
  mapM (fun comb =>
        mapM (fun r => out (snd r) (params f) (map (fun xb => (fst xb, [snd xb])) (fst r)))
             (bounded_piecewise opt (zip_dict (params f) comb) [] bs)) (product bl) = Some outs ->
  within v (concat (concat outs)).
Proof.
  intros [docs [st [Eb [Fd [Ch U]]]]] N F Ru So Se Ebl Ep Eo.
  assert (Tr : translated (params f) pieces default bs).
  { unfold parse_piecewise in Ep. rewrite Eb, docs_first in Ep by exact Fd. destruct Ch; cbn [first_if obind] in Ep; eapply chain_parse; try exact Ep; econstructor; eassumption. }
  rewrite Eb in Ru. apply runs_docs in Ru; [|exact Fd]. destruct (runs_chain Ch Ru) as [e [Sel Pe]].
  assert (Fb : Forall2 (fun l u => exists b, In b l /\ (fun b u => (Q2R (fst b) <= u <= Q2R (snd b))%R) b u) bl vs).
  { clear -F Ebl. revert bl Ebl. induction F as [|x u names vs [b [Hb Wb]] F IH]; intros bl E; simpl in E.
    - injection E as <-. constructor.
    - rewrite Hb in E. cbn [obind] in E. destruct (mapM _ names) as [bl'|]; [|discriminate]. injection E as <-. constructor; [exact Wb|apply IH; reflexivity]. }
  destruct (product_pick _ Fb) as [comb [Hc Pc]].
  assert (Lc : length comb = length (params f)).
  { rewrite (Forall2_len Pc). symmetry. exact (Forall2_len F). }
  set (s := combine (params f) vs) in *.
  set (p := fun x => match dget word_eqb x s with Some v => v | None => 0%R end).
  destruct (@bounded_ok opt call s p (fun _ => 0%R) (params f) (zip_dict (params f) comb)) with (pieces := pieces) (default := default) (e := e) (bs := bs) (negs := @nil zc)
    as [cb [Hcb [Kcb Pcb]]].
  - intros x u Hx. unfold p. rewrite Hx. reflexivity.
  - rewrite zip_dict_combine by exact N. intros x a b Hin. apply in_combine_nth in Hin. destruct Hin as [i [H1 H2]].
    assert (exists u, nth_error vs i = Some u) as [u H3].
    { destruct (nth_error vs i) eqn:E; [eauto|]. apply nth_error_None in E. assert (Hlt : i < length comb) by (apply nth_error_Some; congruence). rewrite (Forall2_len Pc) in Hlt. lia. }
    assert (B := forall2_nth_both i Pc H2 H3). unfold p, s. rewrite (dget_combine_some vs i N H1 H3). exact B.
  - exact Sel.
  - exact Tr.
  - exact U.
  - intros c [].
  - intros c x Hc' Hx. rewrite zip_dict_combine in Hx |- * by exact N.
    assert (Hk : In x (params f)). { apply in_map_iff in Hx. destruct Hx as [[a b] [<- Hx]]. apply in_combine_l in Hx. exact Hx. }
    assert (Z := So bs bl comb c x Ep Ebl Hc Hc' Hk). rewrite zip_dict_combine in Z by exact N. exact Z.
  - destruct (mapM_in _ _ _ Eo Hc) as [os [Eos Hos]]. destruct (mapM_in _ _ _ Eos Hcb) as [l [El Hl]]. cbn [fst snd] in El.
    assert (W : within v l).
    { eapply (Se e); [|exact El| |exact Pe].
      - clear -Sel. induction Sel as [c e l o _|c e l o e' _ S IH|e]; [left; exists c; left; reflexivity| |auto].
        destruct IH as [[c' H]|H]; [left; exists c'; right; exact H|auto].
      - intros x u Hx. assert (Px : p x = u) by (unfold p; rewrite Hx; reflexivity).
        apply dget_combine_nodup in Hx. destruct Hx as [i [H1 _]].
        assert (H0 : In x (map fst cb)).
        { rewrite Kcb, zip_dict_combine by exact N. destruct (nth_error comb i) as [b|] eqn:E.
          - apply in_map_iff. exists (x, b). split; [reflexivity|]. clear -H1 E. revert i comb H1 E. generalize (params f). induction l as [|n l IH]; intros [|i] [|c comb] H1 E; simpl in *; try discriminate.
            + left. congruence.
            + right. eapply IH; eassumption.
          - apply nth_error_None in E. assert (i < length (params f)) by (apply nth_error_Some; congruence). lia. }
        clear -H0 Pcb Px. induction cb as [|[y [a b]] cb IH]; [destruct H0|]. simpl. destruct (word_eqb x y) eqn:E.
        + apply word_eqb_eq in E. subst y. exists [(a, b)]. split; [reflexivity|]. exists (a, b). split; [left; reflexivity|]. rewrite <- Px. apply Pcb. left. reflexivity.
        + destruct H0 as [H0|H0]; [apply word_eqb_neq in E; simpl in H0; congruence|]. apply IH; [|exact H0]. intros; apply Pcb; right; assumption. }
    destruct W as [b [Hb B]]. assert (Hall : In b (concat (concat outs))).
    { apply in_concat. exists l. split; [|exact Hb]. apply in_concat. exists os. auto. }
    exists b. auto.
Qed.

Lemma hull_ok all (v : R) : within v all -> forall r,
  obind (Qfold Qmin (map (fun b => Qmin (fst b) (snd b)) all)) (fun mn =>
    obind (Qfold Qmax (map (fun b => Qmax (fst b) (snd b)) all)) (fun mx => Some [(mn, mx)])) = Some r -> within v r.
Proof.
  intros [b [Hall B]] r H.
    destruct (Qfold Qmin _) as [mn|] eqn:Emn; [|discriminate]. cbn [obind] in H. destruct (Qfold Qmax _) as [mx|] eqn:Emx; [|discriminate]. injection H as <-.
    exists (mn, mx). split; [left; reflexivity|]. simpl.
    assert (H1 := Qfold_min _ Emn _ (in_map (fun b => Qmin (fst b) (snd b)) _ _ Hall)). assert (H2 := Qfold_max _ Emx _ (in_map (fun b => Qmax (fst b) (snd b)) _ _ Hall)). cbn beta in H1, H2.
    assert (H3 : (mn <= fst b)%Q) by (eapply Qle_trans; [exact H1|apply Q.le_min_l]). assert (H4 : (snd b <= mx)%Q) by (eapply Qle_trans; [apply Q.le_max_r|exact H2]).
    apply Qle_Rle in H3, H4. lra.
Qed.

Lemma hull_total (v : R) all : within v all -> exists r,
  obind (Qfold Qmin (map (fun b => Qmin (fst b) (snd b)) all)) (fun mn =>
    obind (Qfold Qmax (map (fun b => Qmax (fst b) (snd b)) all)) (fun mx => Some [(mn, mx)])) = Some r.
Proof. intros [b [Hb _]]. destruct all as [|c all]; [destruct Hb|]. eexists. reflexivity. Qed.

Lemma handle_piecewise_ok opt call out f pieces default cur r vs v :
  piecewise f pieces default -> NoDup (params f) ->
  Forall2 (fun x u => exists b, dget word_eqb x cur = Some b /\ within u b) (params f) vs ->
  runs call (combine (params f) vs) (fbody f) (inr v) -> queries_sound opt f cur ->
  (forall e, (exists c, In (c, e) pieces) \/ default = Some e -> expr_sound call out e) ->
  handle_piecewise opt out f (params f) cur = Some r -> within v r.
Proof.
  intros Sh N F Ru So Se H. unfold handle_piecewise in H.
  destruct (mapM (fun x => dget word_eqb x cur) (params f)) as [bl|] eqn:Ebl; [|discriminate]. cbn [obind] in H.
  destruct (parse_piecewise f) as [bs|] eqn:Ep; [|discriminate]. cbn [obind] in H.
  destruct (mapM _ (product bl)) as [outs|] eqn:Eo; [|discriminate]. cbn [obind] in H.
  eapply hull_ok; [|exact H]. eapply handle_core; eassumption.
Qed.

Lemma mapM_total {A B} (f : A -> option B) l : (forall a, In a l -> f a <> None) -> exists l', mapM f l = Some l'.
Proof.
  induction l as [|a l IH]; intros H; [exists []; reflexivity|]. simpl. destruct (f a) as [b|] eqn:E; [|exfalso; apply (H a); [left; reflexivity|exact E]].
  cbn [obind]. destruct IH as [l' ->]; [intros x Hx; apply H; right; exact Hx|]. eexists. reflexivity.
Qed.

Lemma handle_piecewise_total opt call out f pieces default cur bs vs v :
  piecewise f pieces default -> NoDup (params f) ->
  Forall2 (fun x u => exists b, dget word_eqb x cur = Some b /\ within u b) (params f) vs ->
  runs call (combine (params f) vs) (fbody f) (inr v) -> queries_sound opt f cur ->
  (forall e, (exists c, In (c, e) pieces) \/ default = Some e -> expr_sound call out e) ->
  parse_piecewise f = Some bs -> (forall e names d, out e names d <> None) ->
  exists r, handle_piecewise opt out f (params f) cur = Some r.
Proof.
  intros Sh N F Ru So Se Ep To. unfold handle_piecewise. rewrite Ep. cbn [obind].
  destruct (@mapM_total _ _ (fun x => dget word_eqb x cur) (params f)) as [bl Ebl].
  { intros x Hx E. apply In_nth_error in Hx. destruct Hx as [i Hi]. assert (exists u, nth_error vs i = Some u) as [u Hu].
    { destruct (nth_error vs i) eqn:K; [eauto|]. apply nth_error_None in K. assert (i < length (params f)) by (apply nth_error_Some; congruence). rewrite (Forall2_len F) in H. lia. }
    destruct (forall2_nth_both i F Hi Hu) as [b [Hb _]]. congruence. }
  rewrite Ebl. cbn [obind].
  match goal with |- context [mapM ?g (product bl)] => destruct (@mapM_total _ _ g (product bl)) as [outs Eo] end.
  { intros comb _. match goal with |- mapM ?g ?l <> None => destruct (@mapM_total _ _ g l) as [l' ->]; [intros; apply To|discriminate] end. }
  rewrite Eo. cbn [obind]. apply hull_total with v. eapply handle_core; eassumption.
Qed.
