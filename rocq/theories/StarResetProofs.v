(** Proofs for StarResetProps.v. *)
From Coq Require Import Ascii String.
From Verif Require Import Base BaseFacts Dict PyText Reset ResetSpec ResetProofs Star StarSpec StarProofs StarReset StarResetSpec.
From Coq Require Import Lqa.
Set Implicit Arguments.
Open Scope nat_scope.

(** ** Images *)
Lemma image_at n f s M b : wf_star s -> dim s = n -> length M = n -> (forall r, In r M -> length r = n) -> length b = n ->
  (forall x, corner s x -> exists y, f x = Some y /\ length y = n /\ forall i, i < n -> (nth i y 0 == inner (nth i M []) x + nth i b 0)%Q) ->
  exists s', image f s = Some s' /\ wf_star s' /\ dim s' = n /\
    forall y, in_star s' y <-> exists x, in_star s x /\ length y = n /\ forall i, i < n -> (nth i y 0 == inner (nth i M []) x + nth i b 0)%Q.
Proof.
  intros W Dn LM RM Lb Hf. pose proof W as (W1 & W2 & W3).
  destruct (Hf (center s) (or_introl eq_refl)) as (c' & Ec & Lc & Hc). unfold image. rewrite Ec. cbn [obind].
  assert (B : exists bs, mapM (fun v => if length v =? length (center s) then do new_x <- f (vadd (center s) v); (if (length new_x =? length c') && (length new_x =? length (center s)) then Some (vsub new_x c') else None) else None) (basis s) = Some bs
    /\ Forall2 (fun v v' => length v' = n /\ forall i, i < n -> (nth i v' 0 == inner (nth i M []) v)%Q) (basis s) bs).
  { assert (Hf' : forall v, In v (basis s) -> exists y, f (vadd (center s) v) = Some y /\ length y = n /\ forall i, i < n -> (nth i y 0 == inner (nth i M []) (vadd (center s) v) + nth i b 0)%Q).
    { intros v Hv. apply Hf. right. eauto. }
    clear W W2 W3 Hf. induction (basis s) as [|v vs IH]; [exists []; split; [reflexivity|constructor]|].
    assert (Lv : length v = dim s) by (apply W1; cbn; auto). unfold dim in Lv, Dn. destruct IH as (bs & E & H); [intros; apply W1; cbn; auto|intros; apply Hf'; cbn; auto|].
    destruct (Hf' v (or_introl eq_refl)) as (z & Ez & Lz & Hz).
    cbn [mapM]. rewrite Lv, Nat.eqb_refl, Ez. cbn [obind]. rewrite Lz, Lc, Dn, Nat.eqb_refl. cbn [andb obind]. rewrite Lc, Dn in E. rewrite E. cbn [obind]. eexists. split; [reflexivity|]. constructor; [|exact H].
    split; [rewrite vsub_len; congruence|]. intros i Hi. rewrite vsub_nth by congruence. rewrite (Hz i Hi), (Hc i Hi), inner_vadd by congruence. lra. }
  destruct B as (bs & E & H). rewrite E. cbn [obind]. unfold superposition. rewrite <- (Forall2_len H), Nat.eqb_refl.
  assert (Lbs : forall v, In v bs -> length v = length c'). { intros v Hv. clear - H Hv Lc. induction H as [|a c l l' [P _] H IH]; [destruct Hv|]. destruct Hv as [<-|Hv]; [congruence|auto]. }
  assert (LC : forall r, In r (C s) -> length r = length bs). { intros r Hr. rewrite (W2 r Hr). unfold gens. apply (Forall2_len H). }
  rewrite mk_star_some by auto. eexists. split; [reflexivity|]. split; [split; [exact Lbs|split; [exact LC|exact W3]]|]. split; [exact Lc|].
  intros y.
  rewrite (@image_set n M b RM LM s _ (fun x y => length y = n /\ forall i, i < n -> (nth i y 0 == inner (nth i M []) x + nth i b 0)%Q)); try assumption; try reflexivity.
  - cbn. symmetry. apply (Forall2_len H).
  - eapply F2_impl; [|exact H]. intros ? ? [_ P]; exact P.
Qed.

Lemma rows_exist n (P : nat -> vec -> Q -> Prop) : (forall i, i < n -> exists r c, length r = n /\ P i r c) ->
  exists M b, length M = n /\ (forall r, In r M -> length r = n) /\ length b = n /\ forall i, i < n -> P i (nth i M []) (nth i b 0%Q).
Proof.
  intros H. assert (K : forall m, m <= n -> exists M b, length M = m /\ (forall r, In r M -> length r = n) /\ length b = m /\ forall i, i < m -> P i (nth i M []) (nth i b 0%Q)).
  { induction m as [|m IH]; intros Hm; [exists [], []; repeat split; auto; [intros r []|lia]|].
    destruct IH as (M & b & LM & RM & Lb & HP); [lia|]. destruct (H m) as (r & c & Lr & Hr); [lia|].
    exists (M ++ [r]), (b ++ [c]). rewrite !app_length, LM, Lb. cbn. repeat split; [lia| |lia|].
    - intros r' Hr'. apply in_app_iff in Hr'. destruct Hr' as [?|[<-|[]]]; auto.
    - intros i Hi. destruct (Nat.eq_dec i m) as [->|N].
      + rewrite app_nth2 by lia. rewrite (app_nth2 b) by lia. rewrite LM, Lb, Nat.sub_diag. exact Hr.
      + rewrite app_nth1 by lia. rewrite (app_nth1 b) by lia. apply HP. lia. }
  apply (K n). lia.
Qed.

(** ** Names *)
Lemma after_dot_ego v : after_dot (ego_name v) = Some v.
Proof. reflexivity. Qed.
Lemma ego_name_inj a b : ego_name a = ego_name b -> a = b.
Proof. unfold ego_name. intros H. injection H. auto. Qed.
Lemma env_at_nth names : forall x i v, NoDup names -> length x = length names -> nth_error names i = Some v -> env_at names x (ego_name v) = nth i x 0%Q.
Proof.
  induction names as [|a names IH]; intros [|q x] [|i] v ND L E; cbn [env_at nth nth_error length] in *; try discriminate.
  - injection E as ->. rewrite word_eqb_refl. reflexivity.
  - inversion ND; subst. replace (word_eqb (ego_name v) (ego_name a)) with false; [apply IH; auto|].
    symmetry. apply word_eqb_neq. intros E'. apply ego_name_inj in E'. subst a. apply nth_error_In in E. contradiction.
Qed.
Lemma env_at_in names x v : NoDup names -> length x = length names -> In v names -> In (ego_name v, env_at names x (ego_name v)) (combine (map ego_name names) x).
Proof.
  intros ND L Hv. apply In_nth_error in Hv. destruct Hv as [i Ei]. rewrite (env_at_nth _ _ ND L Ei).
  assert (Hi : i < length names) by (apply nth_error_Some; congruence).
  replace (ego_name v) with (nth i (map ego_name names) []).
  - rewrite <- combine_nth by (rewrite map_length; congruence). apply nth_In. rewrite combine_length, map_length. lia.
  - rewrite (nth_indep _ [] (ego_name [])) by (rewrite map_length; lia). rewrite map_nth. f_equal. apply nth_error_nth. exact Ei.
Qed.

Lemma write_back_spec x v names : forall out, length out = length names ->
  exists out', write_back x v (map ego_name names) out = Some out' /\ length out' = length names /\
    forall i n, nth_error names i = Some n -> nth i out' 0%Q = if word_eqb x n then v else nth i out 0%Q.
Proof.
  unfold write_back. induction names as [|a names IH]; intros [|q out] L; cbn in L; try discriminate.
  - exists []. repeat split; auto. intros [|i] n; discriminate.
  - destruct (IH out) as (o & E & Lo & H); [lia|]. eexists. cbn [map combine mapM]. cbn [fst snd]. rewrite after_dot_ego. cbn [obind]. rewrite E. cbn [obind]. split; [reflexivity|]. split; [cbn; congruence|].
    intros [|i] n Ei; cbn in *; [injection Ei as ->; reflexivity|apply H; exact Ei].
Qed.

Section Func.
  Variables (show : Q -> word) (read : word -> option Q) (F : Q -> Prop) (names : list word).
  Hypothesis NDn : NoDup names.
  Hypothesis W : writes show read F (map ego_name names).
  Hypothesis NA : names_apart (map ego_name names).

  Lemma eval_own x e : length x = length names -> (forall q, In q x -> F q) -> own_rhs F names e ->
    exists v, eval_subst show read (map ego_name names) x (unparse show e) = Some v /\ (v == aeval (env_at names x) e)%Q.
  Proof.
    intros L HF (Hv & HL & HP). apply (eval_subst_ok W NA).
    - clear - NDn. induction names as [|a l IH]; cbn; constructor; inversion NDn; subst; [|auto]. intros H. apply in_map_iff in H. destruct H as (b & E & Hb). apply ego_name_inj in E. subst. contradiction.
    - rewrite map_length. exact L.
    - auto.
    - exact HF.
    - intros y Hy. destruct (Hv y Hy) as (v & Hin & ->). apply env_at_in; auto.
    - exact HL.
    - eapply pow_bases_mono; [|exact HP]. intros ? _ [].
  Qed.

  (** The expressions collected: by index, with the name of that variable. *)
  Definition es_ok (es : dict nat (expr * word)) : Prop :=
    NoDup (map fst es) /\ forall i e x, In (i, (e, x)) es -> nth_error names i = Some x /\ own_rhs F names e.

  Lemma reset_func_ok es x : es_ok es -> length x = length names -> (forall q, In q x -> F q) ->
    exists y, reset_func show read es (map ego_name names) x = Some y /\ length y = length names /\
      forall i, i < length names ->
        (forall e v, In (i, (e, v)) es -> (nth i y 0 == aeval (env_at names x) e)%Q) /\
        (~ In i (map fst es) -> nth i y 0%Q = nth i x 0%Q).
  Proof.
    intros [ND Hes] L HF. unfold reset_func.
    assert (K : forall out, length out = length names -> exists y, fold_left (fun acc p => do out <- acc; if length x <=? length (map ego_name names) then do v <- eval_subst show read (firstn (length x) (map ego_name names)) x (unparse show (fst (snd p))); write_back (snd (snd p)) v (firstn (length x) (map ego_name names)) out else None) es (Some out) = Some y /\ length y = length names /\
      forall i, i < length names ->
        (forall e v, In (i, (e, v)) es -> (nth i y 0 == aeval (env_at names x) e)%Q) /\
        (~ In i (map fst es) -> nth i y 0%Q = nth i out 0%Q)).
    { rewrite map_length, L, Nat.leb_refl. rewrite firstn_all2 by (rewrite map_length; lia).
      induction es as [|[j [e v]] es IH]; intros out Lo; cbn [fold_left fst snd obind].
      - exists out. repeat split; auto. intros e v [].
      - inversion ND; subst. destruct (Hes j e v (or_introl eq_refl)) as [Ej Oe]. destruct (@eval_own x e L HF Oe) as (q & Eq & Hq). rewrite Eq. cbn [obind].
        destruct (@write_back_spec v q names out Lo) as (out1 & E1 & L1 & H1'). rewrite E1.
        destruct (IH H2 (fun i e x H => Hes i e x (or_intror H)) out1 L1) as (y & Ey & Ly & Hy). exists y. split; [exact Ey|]. split; [exact Ly|]. intros i Hi. destruct (Hy i Hi) as [Hy1 Hy2].
        destruct (nth_error names i) as [n|] eqn:En; [|apply nth_error_None in En; lia]. specialize (H1' i n En). split.
        + intros e' v' [[= -> -> ->]|Hin]; [|eauto]. rewrite (Hy2 H1), H1'. assert (n = v') by congruence. subst n. rewrite word_eqb_refl. exact Hq.
        + cbn [map fst In]. intros Ni. rewrite Hy2 by tauto. rewrite H1'. replace (word_eqb v n) with false; [reflexivity|]. symmetry. apply word_eqb_neq. intros ->.
          apply Ni. left. exact (@nodup_nth_inj _ _ _ _ _ NDn Ej En). }
    exact (K x L).
  Qed.
End Func.

(** ** Collecting *)
Section Collect.
  Variables (lg : logic) (mode : list word).
  Hypothesis NDd : NoDup (disc_vars lg).
  Hypothesis NDc : NoDup (cont_vars lg).
  Hypothesis Lm : length mode = length (disc_vars lg).

  Definition cinv (done : list reset) (st : collected) : Prop :=
    let '(pd, es, sv) := st in
    length pd = length mode /\
    (forall i x, nth_error (disc_vars lg) i = Some x ->
       (forall r, In r done -> rvar r = x -> is_mode_var x = true -> nth i pd [] = choices (rval r)) /\
       ((forall r, In r done -> is_mode_var x = true -> rvar r <> x) -> nth i pd [] = [nth i mode []])) /\
    NoDup (map fst es) /\
    (forall i e x, In (i, (e, x)) es <-> exists r, In r done /\ is_mode_var x = false /\ rvar r = x /\ rval r = RArith e /\ nth_error (cont_vars lg) i = Some x) /\
    (es = [] \/ sv = map ego_name (cont_vars lg)).

  Lemma cinv_step done st r d : cinv done st -> (forall r', In r' done -> rvar r' <> rvar r) ->
    ((is_mode_var (rvar r) = true /\ In (rvar r) (disc_vars lg) /\
       match rval r with RArith _ => False | RMember t _ => In t (mode_types lg) | _ => True end) \/
     (is_mode_var (rvar r) = false /\ In (rvar r) (cont_vars lg) /\ exists e, rval r = RArith e)) ->
    filter (occurs (w "ego"%string)) d = map ego_name (cont_vars lg) ->
    exists st', collect lg st (r, d) = Some st' /\ cinv (done ++ [r]) st'.
  Proof.
    destruct st as [[pd es] sv]. intros (Hp & Hd & ND & Hes & Hsv) Hfresh Hok Hf.
    unfold collect. cbn [fst snd]. fold (is_mode_var (rvar r)). destruct Hok as [(Em & Hin & Hr)|(Em & Hin & e & Er)]; rewrite Em.
    - destruct (@find_var_spec _ _ NDd Hin) as (i & Ei & Hi). rewrite Ei. cbn [obind].
      assert (Hil : i < length pd). { rewrite Hp, Lm. apply nth_error_Some. congruence. }
      exists (set_nth i (choices (rval r)) pd, es, sv). split.
      { destruct (rval r) as [v|t m|res|e]; simpl; try reflexivity; [|contradiction].
        replace (existsb (word_eqb t) (mode_types lg)) with true; [reflexivity|]. symmetry.
        apply existsb_exists. exists t. split; [exact Hr|apply word_eqb_refl]. }
      unfold cinv. rewrite set_nth_length. split; [exact Hp|]. split; [|split; [exact ND|split; [|exact Hsv]]].
      + intros j x Hj. destruct (Hd j x Hj) as [H1 H2]. destruct (Nat.eq_dec i j) as [<-|Hij].
        * assert (x = rvar r) by congruence. subst x. rewrite set_nth_same by exact Hil. split.
          -- intros r' Hr' Ex _. apply in_app_iff in Hr'. destruct Hr' as [Hr'|[<-|[]]]; [|reflexivity]. exfalso. eapply Hfresh; eauto.
          -- intros Hno. exfalso. apply (Hno r); auto. apply in_or_app; simpl; auto.
        * rewrite set_nth_other by exact Hij. split.
          -- intros r' Hr' Ex Emx. apply in_app_iff in Hr'. destruct Hr' as [Hr'|[<-|[]]]; [eauto|]. exfalso. subst x. exact (Hij (@nodup_nth_inj _ _ _ _ _ NDd Hi Hj)).
          -- intros Hno. apply H2. intros r' Hr'. apply Hno. apply in_or_app; auto.
      + intros j e x. rewrite Hes. split; intros (r' & Hr' & Hrest); exists r'; (split; [|exact Hrest]).
        * apply in_or_app; auto.
        * apply in_app_iff in Hr'. destruct Hr' as [Hr'|[<-|[]]]; [exact Hr'|]. exfalso. destruct Hrest as (A & B & _). congruence.
    - destruct (@find_var_spec _ _ NDc Hin) as (i & Ei & Hi). rewrite Ei. cbn [obind]. rewrite Er.
      assert (Nk : ~ In i (map fst es)).
      { intros H. apply in_map_iff in H. destruct H as ([j [e' x]] & E & H). cbn in E. subst j. apply Hes in H. destruct H as (r' & Hr' & _ & Ex & _ & Hx).
        apply (Hfresh r' Hr'). congruence. }
      eexists. split; [reflexivity|]. rewrite Hf.
      assert (Es : dset Nat.eqb i (e, rvar r) es = es ++ [(i, (e, rvar r))]).
      { clear - Nk. unfold dset. induction es as [|[k v] es IH]; cbn; [reflexivity|]. cbn in Nk. destruct (Nat.eqb_spec i k) as [->|N]; [tauto|]. f_equal. apply IH. tauto. }
      rewrite Es. split; [exact Hp|]. split; [|split; [|split; [|auto]]].
      + intros j x Hj. destruct (Hd j x Hj) as [H1 H2]. split.
        * intros r' Hr' Ex Emx. apply in_app_iff in Hr'. destruct Hr' as [Hr'|[<-|[]]]; [eauto|congruence].
        * intros Hno. apply H2. intros r' Hr'. apply Hno. apply in_or_app; auto.
      + rewrite map_app. cbn. clear - ND Nk. induction es as [|[k v] es IH]; cbn in *; [constructor; [tauto|constructor]|]. inversion ND; subst. constructor; [|apply IH; tauto].
        rewrite in_app_iff. cbn. intuition.
      + intros j e' x. rewrite in_app_iff, Hes. cbn [In]. split.
        * intros [(r' & Hr' & Hrest)|[[= <- <- <-]|[]]]; [exists r'; split; [apply in_or_app; auto|exact Hrest]|]. exists r. split; [apply in_or_app; cbn; auto|]. auto.
        * intros (r' & Hr' & A & B & D & G). apply in_app_iff in Hr'. destruct Hr' as [Hr'|[<-|[]]]; [left; exists r'; auto|]. right. left. subst x.
          rewrite Er in D. injection D as <-. rewrite (@nodup_nth_inj _ _ _ _ _ NDc Hi G). reflexivity.
  Qed.

  Lemma cinv_fold rs : forall done st, cinv done st -> NoDup (map rvar (done ++ map fst rs)) ->
    (forall r, In r (map fst rs) ->
      (is_mode_var (rvar r) = true /\ In (rvar r) (disc_vars lg) /\
         match rval r with RArith _ => False | RMember t _ => In t (mode_types lg) | _ => True end) \/
      (is_mode_var (rvar r) = false /\ In (rvar r) (cont_vars lg) /\ exists e, rval r = RArith e)) ->
    (forall r d, In (r, d) rs -> filter (occurs (w "ego"%string)) d = map ego_name (cont_vars lg)) ->
    exists st', fold_left (fun acc r => do a <- acc; collect lg a r) rs (Some st) = Some st' /\ cinv (done ++ map fst rs) st'.
  Proof.
    induction rs as [|[r d] rs IH]; intros done st Hinv ND Hok Hd.
    - exists st. cbn. rewrite app_nil_r. auto.
    - destruct (@cinv_step done st r d) as (st1 & E1 & I1); auto.
      + intros r' Hr' E. rewrite map_app in ND. simpl in ND. apply NoDup_remove_2 in ND. apply ND. rewrite <- E. apply in_or_app. left. apply in_map. exact Hr'.
      + apply Hok. simpl; auto.
      + apply (Hd r). cbn; auto.
      + destruct (IH (done ++ [r]) st1) as (st' & E & I'); auto.
        * rewrite <- app_assoc. exact ND.
        * intros; apply Hok; simpl; auto.
        * intros r' d' Hr'. apply (Hd r'). cbn; auto.
        * exists st'. simpl. rewrite E1. split; [exact E|]. rewrite <- app_assoc in I'. exact I'.
  Qed.

  Lemma cinv_init : cinv [] (map (fun m => [m]) mode, [], []).
  Proof.
    unfold cinv. rewrite map_length. split; [reflexivity|]. split; [|split; [constructor|split; [|auto]]].
    - intros i x Hi. split; [intros r []|]. intros _.
      assert (i < length mode). { rewrite Lm. apply nth_error_Some. congruence. }
      rewrite (nth_indep _ [] [[]]) by (rewrite map_length; lia). exact (map_nth (fun m : word => [m]) mode [] i).
    - intros i e x. split; [intros []|intros (r & [] & _)].
  Qed.
End Collect.

Lemma inner_unit_vec n i x : i < n -> length x = n -> (inner (unit_vec n i) x == nth i x 0)%Q.
Proof.
  intros Hi L. rewrite inner_comm. unfold unit_vec. rewrite <- L.
  transitivity (inner x (map (fun j => if i =? j then 1%Q else 0%Q) (seq 0 (length x)))).
  - apply inner_same. unfold same. clear. induction (seq 0 (length x)); cbn; constructor; auto. rewrite Nat.eqb_sym. reflexivity.
  - rewrite inner_unit. cbn. rewrite Nat.sub_0_r. reflexivity.
Qed.

Section Whole.
  Variables (show : Q -> word) (read : word -> option Q) (F : Q -> Prop) (lg : logic) (mode : list word) (s : star) (rs : list (reset * list word)).
  Notation names := (cont_vars lg).
  Hypothesis NDd : NoDup (disc_vars lg).
  Hypothesis NDc : NoDup names.
  Hypothesis Lm : length mode = length (disc_vars lg).
  Hypothesis Ws : wf_star s.
  Hypothesis Ds : dim s = length names.
  Hypothesis Rok : resets_ok lg (map fst rs).
  Hypothesis Dicts : forall r d, In (r, d) rs -> filter (occurs (w "ego"%string)) d = map ego_name names.
  Hypothesis Wr : writes show read F (map ego_name names).
  Hypothesis NA : names_apart (map ego_name names).
  Hypothesis Cs : forall x q, corner s x -> In q x -> F q.
  Hypothesis Rhs : forall r d e, In (r, d) rs -> rval r = RArith e -> own_rhs F names e.

  Lemma corner_len x : corner s x -> length x = length names.
  Proof. destruct Ws as (W1 & _). intros [->|(v & Hv & ->)]; [exact Ds|]. rewrite vadd_len; [exact Ds|]. symmetry. apply W1. exact Hv. Qed.

  (** The code's star, as a function of the reset map at the corners. *)
  Lemma stars_run : exists es dests,
    apply_reset_stars show read lg mode s rs = (do s' <- image (reset_func show read es (map ego_name names)) s; Some (dests, s')) /\
    es_ok F names es /\
    (forall i e x, In (i, (e, x)) es <-> exists r d, In (r, d) rs /\ rvar r = x /\ rval r = RArith e /\ nth_error names i = Some x) /\
    (forall d, In d dests <-> length d = length mode /\
       forall i x, nth_error (disc_vars lg) i = Some x ->
         (forall r, In r (map fst rs) -> rvar r = x -> is_mode_var x = true -> In (nth i d []) (choices (rval r))) /\
         ((forall r, In r (map fst rs) -> is_mode_var x = true -> rvar r <> x) -> nth i d [] = nth i mode [])).
  Proof.
    destruct Rok as [ND Ok]. destruct (@cinv_fold lg mode NDd NDc Lm rs [] _ (@cinv_init lg mode Lm)) as (st & E & I); auto. destruct st as [[pd es] sv]. cbn [app] in I. destruct I as (Hp & Hd & NDe & Hes & Hsv).
    exists es, (product pd). split; [|split; [|split]].
    - unfold apply_reset_stars. match goal with |- obind ?X _ = _ => replace X with (Some (pd, es, sv)) by (symmetry; exact E) end. cbn [obind fst snd]. destruct Hsv as [-> | ->]; [|reflexivity].
      assert (Ef : forall sv', image (reset_func show read [] sv') s = image (fun x => Some x) s) by reflexivity. rewrite !Ef. reflexivity.
    - split; [exact NDe|]. intros i e x H. apply Hes in H. destruct H as (r & Hr & _ & _ & Er & Hx). split; [exact Hx|]. apply in_map_iff in Hr. destruct Hr as ([r' d] & <- & Hr). eapply Rhs; eauto.
    - intros i e x. rewrite Hes. split.
      + intros (r & Hr & _ & A & B & D). apply in_map_iff in Hr. destruct Hr as ([r' d] & <- & Hr). exists r', d. auto.
      + intros (r & d & Hr & A & B & D). exists r. assert (Hr' : In r (map fst rs)) by (apply in_map_iff; exists (r, d); auto). split; [exact Hr'|]. split; [|auto].
        destruct (Ok r Hr') as [(_ & _ & H)|(H & _)]; [rewrite B in H; contradiction|congruence].
    - intros d. rewrite In_product, (Forall2_nth_iff _ _ _ [] []). rewrite Hp. split.
      + intros [HLd Hn]. split; [exact HLd|]. intros i x Hi. destruct (Hd i x Hi) as [H1 H2].
        assert (Hil : i < length d). { rewrite HLd, Lm. apply nth_error_Some. congruence. }
        specialize (Hn i Hil). split.
        * intros r Hr Ex Em. rewrite (H1 r Hr Ex Em) in Hn. exact Hn.
        * intros Hno. rewrite (H2 Hno) in Hn. destruct Hn as [Hn|[]]. congruence.
      + intros [HLd Hn]. split; [exact HLd|]. intros i Hil.
        destruct (nth_error (disc_vars lg) i) as [x|] eqn:Ex; [|apply nth_error_None in Ex; lia].
        destruct (Hn i x Ex) as [N1 N2]. destruct (Hd i x Ex) as [H1 H2]. destruct (is_mode_var x) eqn:Em.
        * destruct (in_dec (list_eq_dec ascii_dec) x (map rvar (map fst rs))) as [Hin|Hni].
          -- apply in_map_iff in Hin. destruct Hin as (r & Er & Hr). rewrite (H1 r Hr Er eq_refl). apply N1; auto.
          -- rewrite H2; [left; symmetry; apply N2|]; intros r Hr _ Er; apply Hni, in_map_iff; eauto.
        * rewrite H2 by discriminate. left. symmetry. apply N2. discriminate.
  Qed.

  Hypothesis Aff : forall r d e, In (r, d) rs -> rval r = RArith e -> affine_in names (fun env => aeval env e).

  Lemma stars_exact : exists dests s', apply_reset_stars show read lg mode s rs = Some (dests, s') /\ wf_star s' /\ dim s' = dim s /\
    (forall y, in_star s' y <-> exists x, in_star s x /\ after_resets names (map fst rs) x y) /\
    (forall d, In d dests <-> length d = length mode /\
       forall i x, nth_error (disc_vars lg) i = Some x ->
         (forall r, In r (map fst rs) -> rvar r = x -> is_mode_var x = true -> In (nth i d []) (choices (rval r))) /\
         ((forall r, In r (map fst rs) -> is_mode_var x = true -> rvar r <> x) -> nth i d [] = nth i mode [])).
  Proof.
    destruct stars_run as (es & dests & E & Ok & Hes & Hd). exists dests.
    destruct (@rows_exist (length names) (fun i r c => forall x, length x = length names ->
        (forall e v, In (i, (e, v)) es -> (aeval (env_at names x) e == inner r x + c)%Q) /\ (~ In i (map fst es) -> (nth i x 0 == inner r x + c)%Q))) as (M & b & LM & RM & Lb & HP).
    { intros i Hi. destruct (in_dec Nat.eq_dec i (map fst es)) as [Hin|Hni].
      - apply in_map_iff in Hin. destruct Hin as ([j [e v]] & Ej & Hin). cbn in Ej. subst j. pose proof Hin as Hin'. apply Hes in Hin'. destruct Hin' as (r & d & Hr & _ & Er & _).
        destruct (Aff r d Hr Er) as (a & c & La & Ha). exists a, c. split; [exact La|]. intros x Lx. split.
        + intros e' v' Hin'. assert (e' = e) as ->; [|apply Ha; exact Lx]. destruct Ok as [ND _]. clear - ND Hin Hin'.
          induction es as [|[k p] es IH]; [destruct Hin|]. cbn in ND. inversion ND; subst. destruct Hin as [[= -> ->]|Hin], Hin' as [[= -> ->]|Hin']; try reflexivity; auto; exfalso; apply H1; apply in_map_iff; eexists; (split; [|eassumption]); reflexivity.
        + intros Hni. exfalso. apply Hni, in_map_iff. eexists. split; [|exact Hin]. reflexivity.
      - exists (unit_vec (length names) i), 0%Q. split; [unfold unit_vec; rewrite map_length, seq_length; reflexivity|]. intros x Lx. split.
        + intros e v Hin. exfalso. apply Hni, in_map_iff. eexists. split; [|exact Hin]. reflexivity.
        + intros _. rewrite inner_unit_vec by auto. lra. }
    destruct (@image_at (length names) (reset_func show read es (map ego_name names)) s M b Ws Ds LM RM Lb) as (s' & Es' & W' & D' & H').
    { intros x Hx. destruct (@reset_func_ok show read F names NDc Wr NA es x Ok (@corner_len x Hx) (fun q => @Cs x q Hx)) as (y & Ey & Ly & Hy). exists y. split; [exact Ey|]. split; [exact Ly|].
      intros i Hi. destruct (Hy i Hi) as [Hy1 Hy2]. destruct (HP i Hi x (@corner_len x Hx)) as [P1 P2]. destruct (in_dec Nat.eq_dec i (map fst es)) as [Hin|Hni].
      - apply in_map_iff in Hin. destruct Hin as ([j [e v]] & Ej & Hin). cbn in Ej. subst j. rewrite (Hy1 _ _ Hin). apply (P1 _ _ Hin).
      - rewrite (Hy2 Hni). apply P2. exact Hni. }
    exists s'. rewrite E, Es'. cbn [obind]. split; [reflexivity|]. split; [exact W'|]. split; [congruence|]. split; [|exact Hd].
    intros y. rewrite H'. split; intros (x & Hx & A); exists x; (split; [exact Hx|]).
    - assert (Lx : length x = length names) by (destruct Hx as (al & _ & _ & Lx & _); congruence). destruct A as [Ly Hy]. split; [exact Ly|]. intros i v Ei. assert (Hi : i < length names) by (apply nth_error_Some; congruence).
      destruct (HP i Hi x Lx) as [P1 P2]. split.
      + intros r e Hr Ev Er. rewrite (Hy i Hi). symmetry. apply (P1 e v). apply Hes. apply in_map_iff in Hr. destruct Hr as ([r' d] & <- & Hr). exists r', d. auto.
      + intros Hno. rewrite (Hy i Hi). symmetry. apply P2. intros Hin. apply in_map_iff in Hin. destruct Hin as ([j [e v']] & Ej & Hin). cbn in Ej. subst j. apply Hes in Hin. destruct Hin as (r & d & Hr & Ev & Er & En).
        apply (Hno r e); [apply in_map_iff; exists (r, d); auto|exact Er|congruence].
    - assert (Lx : length x = length names) by (destruct Hx as (al & _ & _ & Lx & _); congruence). destruct A as [Ly Hy]. split; [exact Ly|]. intros i Hi. destruct (nth_error names i) as [v|] eqn:Ei; [|apply nth_error_None in Ei; lia].
      destruct (Hy i v Ei) as [Y1 Y2]. destruct (HP i Hi x Lx) as [P1 P2]. destruct (in_dec Nat.eq_dec i (map fst es)) as [Hin|Hni].
      + apply in_map_iff in Hin. destruct Hin as ([j [e v']] & Ej & Hin). cbn in Ej. subst j. rewrite <- (P1 _ _ Hin). apply Hes in Hin. destruct Hin as (r & d & Hr & Ev & Er & En).
        apply (Y1 r); [apply in_map_iff; exists (r, d); auto|congruence|exact Er].
      + rewrite <- (P2 Hni). apply Y2. intros r e Hr Er Ev. apply Hni. apply in_map_iff in Hr. destruct Hr as ([r' d] & <- & Hr). cbn in *.
        apply in_map_iff. exists (i, (e, v)). split; [reflexivity|]. apply Hes. exists r', d. auto.
  Qed.
End Whole.

(** ** Linear right-hand sides *)
Lemma inner_zip_add a b x : length a = length x -> length b = length x -> (inner (zipw Qplus a b) x == inner a x + inner b x)%Q.
Proof. revert b x. induction a as [|p a IH]; intros [|q b] [|r x] L1 L2; cbn in *; try lia; try lra. rewrite IH by lia. lra. Qed.
Lemma inner_scale k a x : (inner (map (Qmult k) a) x == k * inner a x)%Q.
Proof. revert x. induction a as [|p a IH]; intros [|q x]; cbn; try lra. rewrite IH. lra. Qed.
Lemma inner_zero n x : (inner (repeat 0%Q n) x == 0)%Q.
Proof. revert x. induction n as [|n IH]; intros [|q x]; cbn; try reflexivity. rewrite IH. lra. Qed.

Lemma linear_affine names e : NoDup names -> (forall x, In x (vars e) -> exists v, In v names /\ x = ego_name v) -> linear e -> affine_in names (fun env => aeval env e).
Proof.
  intros ND. assert (Const : forall e, vars e = [] -> exists k, forall env, aeval env e = k).
  { intros e' He. exists (aeval (fun _ => 0%Q) e'). intros env. apply aeval_agree. rewrite He. intros x []. }
  induction e as [q|x|a IH|o a IHa b IHb|a IH n]; intros Hv Hl.
  - exists (repeat 0%Q (length names)), q. rewrite repeat_length. split; [reflexivity|]. intros x _. cbn. rewrite inner_zero. lra.
  - destruct (Hv x (or_introl eq_refl)) as (v & Hin & ->). apply In_nth_error in Hin. destruct Hin as [i Ei]. assert (Hi : i < length names) by (apply nth_error_Some; congruence).
    exists (unit_vec (length names) i), 0%Q. split; [unfold unit_vec; rewrite map_length, seq_length; reflexivity|]. intros x Lx. cbn [aeval]. rewrite (env_at_nth _ _ ND Lx Ei), inner_unit_vec by auto. lra.
  - destruct (IH Hv Hl) as (k & c & Lk & Hk). exists (map (Qmult (-1)) k), (-1 * c)%Q. rewrite map_length. split; [exact Lk|]. intros x Lx. cbn [aeval]. rewrite (Hk x Lx), inner_scale. lra.
  - assert (Va : forall x, In x (vars a) -> exists v, In v names /\ x = ego_name v) by (intros; apply Hv; cbn; apply in_app_iff; auto).
    assert (Vb : forall x, In x (vars b) -> exists v, In v names /\ x = ego_name v) by (intros; apply Hv; cbn; apply in_app_iff; auto).
    assert (La : linear a) by (destruct o; apply Hl). assert (Lb : linear b) by (destruct o; apply Hl).
    destruct (IHa Va La) as (ka & ca & Lka & Ha), (IHb Vb Lb) as (kb & cb & Lkb & Hb). destruct o.
    + exists (zipw Qplus ka kb), (ca + cb)%Q. split; [rewrite zipw_length; lia|]. intros x Lx. cbn [aeval]. rewrite (Ha x Lx), (Hb x Lx), inner_zip_add by lia. lra.
    + exists (zipw Qplus ka (map (Qmult (-1)) kb)), (ca - cb)%Q. split; [rewrite zipw_length, map_length; lia|]. intros x Lx. cbn [aeval]. rewrite (Ha x Lx), (Hb x Lx), inner_zip_add by (rewrite ?map_length; lia). rewrite inner_scale. lra.
    + destruct Hl as (_ & _ & [E|E]); destruct (Const _ E) as [k Hk].
      * exists (map (Qmult k) kb), (k * cb)%Q. rewrite map_length. split; [exact Lkb|]. intros x Lx. cbn [aeval]. rewrite Hk, (Hb x Lx), inner_scale. lra.
      * exists (map (Qmult k) ka), (k * ca)%Q. rewrite map_length. split; [exact Lka|]. intros x Lx. cbn [aeval]. rewrite Hk, (Ha x Lx), inner_scale. lra.
  - cbn in Hl. destruct (Const (Pow a n) Hl) as [k Hk]. exists (repeat 0%Q (length names)), k. rewrite repeat_length. split; [reflexivity|]. intros x _. rewrite Hk, inner_zero. lra.
Qed.
