(** Proofs for StarLaneProps.v: the dictionary after the coordinates are replaced. *)
From Coq Require Import Ascii String.
From Verif Require Import Base BaseFacts Dict PyText ResetProofs Guard GuardSpec GuardProofs Sensor Star StarSpec StarProofs StarMain StarTube StarProps StarReset StarResetSpec StarResetProofs
  StarGuard StarGuardSpec StarGuardProofs StarGuardWorld StarLane StarLaneSpec.
From Coq Require Import Lqa.
Set Implicit Arguments.
Open Scope nat_scope.

Lemma Forall2_In_r {A B} (P : A -> B -> Prop) l m b : Forall2 P l m -> In b m -> exists a, In a l /\ P a b.
Proof. intros F. induction F as [|a b' l m H F IH]; [contradiction|]. intros [->|Hb]; [exists a; cbn; auto|]. destruct (IH Hb) as (a' & Ha & Hp). exists a'. cbn. auto. Qed.

(** ** Two dictionaries with the same names *)
Lemma dset_keys {V} k (v : V) d : map fst (dset word_eqb k v d) = if existsb (word_eqb k) (map fst d) then map fst d else map fst d ++ [k].
Proof.
  unfold dset. induction d as [|[k' v'] d IH]; [reflexivity|]. cbn. destruct (word_eqb k k') eqn:E; cbn; [apply word_eqb_eq in E; subst; reflexivity|].
  unfold dset in IH. rewrite IH. destruct (existsb (word_eqb k) (map fst d)); reflexivity.
Qed.
Lemma NoDup_snoc {A} (l : list A) x : NoDup l -> ~ In x l -> NoDup (l ++ [x]).
Proof.
  intros N H. induction l as [|y l IH]; [repeat constructor; auto|]. inversion N as [|? ? Ny N']; subst. cbn. constructor.
  - rewrite in_app_iff. intros [X|[X|[]]]; [contradiction|]. apply H. left. auto.
  - apply IH; [exact N'|]. intros X. apply H. right. exact X.
Qed.
Lemma NoDup_both {A} (l m : list A) : NoDup l -> NoDup m -> (forall x, In x l -> In x m -> False) -> NoDup (l ++ m).
Proof.
  induction l as [|y l IH]; intros N M H; [exact M|]. inversion N as [|? ? Ny N']; subst. cbn. constructor.
  - rewrite in_app_iff. intros [X|X]; [contradiction|exact (H y (or_introl eq_refl) X)].
  - apply IH; auto. intros x Hx. apply H. right. exact Hx.
Qed.
Section Rel.
  Variables V1 V2 : Type.
  Variable R : word -> V1 -> V2 -> Prop.
  Definition drel (c1 : dict word V1) (c2 : dict word V2) : Prop :=
    Forall2 (fun p q => fst p = fst q /\ R (fst p) (snd p) (snd q)) c1 c2 /\ NoDup (map fst c1).
  Lemma drel_len c1 c2 : drel c1 c2 -> length c1 = length c2.
  Proof. intros [H _]. induction H; cbn; congruence. Qed.
  Lemma drel_keys c1 c2 : drel c1 c2 -> map fst c1 = map fst c2.
  Proof. intros [H _]. induction H as [|p q c1 c2 [E _] H IH]; cbn; congruence. Qed.
  Lemma drel_get c1 c2 k v : drel c1 c2 -> dget word_eqb k c1 = Some v -> exists v', dget word_eqb k c2 = Some v' /\ R k v v'.
  Proof.
    intros [H _]. induction H as [|[k1 v1] [k2 v2] c1 c2 [E HR] H IH]; [discriminate|]. cbn in E, HR. subst k2. cbn. destruct (word_eqb k k1) eqn:Ek; [|exact IH].
    apply word_eqb_eq in Ek. subst k1. intros [= <-]. eauto.
  Qed.
  Lemma drel_set c1 c2 k v v' : drel c1 c2 -> R k v v' -> drel (dset word_eqb k v c1) (dset word_eqb k v' c2).
  Proof.
    intros [H N] HR. split.
    - clear N. unfold dset. induction H as [|[k1 v1] [k2 v2] c1 c2 [E HR'] H IH]; [repeat constructor; exact HR|]. cbn in E, HR'. subst k2. cbn.
      destruct (word_eqb k k1) eqn:Ek; constructor; cbn; auto. apply word_eqb_eq in Ek. subst k1. auto.
    - rewrite dset_keys. destruct (existsb (word_eqb k) (map fst c1)) eqn:E; [exact N|]. apply NoDup_snoc; [exact N|]. intros Hin. apply existsb_word in Hin. congruence.
  Qed.

  Variable dd : dict word word.
  Variable phys : word -> word.
  Variable f1 : bool -> word -> V1 -> V1 -> option V1.
  Variable f2 : bool -> word -> V2 -> V2 -> option V2.
  Hypothesis step : forall lat l x y a a' b b' v i, R x a a' -> R y b b' -> f1 lat l a b = Some v -> exists v', f2 lat l a' b' = Some v' /\ R (w "tmp_variable" ++ dec i) v v'.
  Notation h1 := (hyb dd phys f1).
  Notation h2 := (hyb dd phys f2).

  Definition same (r : hyb_res V1) (r' : hyb_res V2) : Prop := fst r = fst r' /\ drel (hr_cd r) (hr_cd r').
  Definition rel_ok (e : gex) : Prop := forall c1 c2 r, drel c1 c2 -> h1 c1 e = Some r -> exists r', h2 c2 e = Some r' /\ same r r'.
  Lemma same_parts r r' : same r r' -> hr_val r = hr_val r' /\ hr_old r = hr_old r' /\ hr_new r = hr_new r' /\ drel (hr_cd r) (hr_cd r').
  Proof. intros [E D]. unfold hr_val, hr_old, hr_new. rewrite E. auto. Qed.

  Lemma and_rel es : Forall rel_ok es -> forall c1 c2 v q, drel c1 c2 -> hyb_and h1 c1 v es = Some q ->
    exists q', hyb_and h2 c2 v es = Some q' /\ fst q = fst q' /\ drel (snd q) (snd q').
  Proof.
    intros H. induction H as [|e es He _ IH]; intros c1 c2 v q D Hq; [injection Hq as <-; exists (v, [], c2); auto|].
    cbn in Hq |- *. fold (hyb_and h1) in Hq. fold (hyb_and h2). destruct (h1 c1 e) as [p|] eqn:Ep; [|discriminate]. cbn [obind] in Hq.
    destruct (He _ _ _ D Ep) as (p' & -> & Sp). apply same_parts in Sp. destruct Sp as (S1 & S2 & S3 & S4). cbn [obind]. rewrite <- S1, <- S3.
    destruct (truthy (if truthy v then hr_val p else v)).
    - destruct (hyb_and h1 (hr_cd p) _ es) as [q0|] eqn:Eq; [|discriminate]. destruct (IH _ _ _ _ S4 Eq) as (q' & -> & E & Dq). cbn [obind] in Hq |- *. injection Hq as <-. eexists. split; [reflexivity|]. cbn [fst snd]. rewrite E. auto.
    - injection Hq as <-. eexists. split; [reflexivity|]. auto.
  Qed.
  Lemma or_rel es : Forall rel_ok es -> forall c1 c2 v q, drel c1 c2 -> hyb_or h1 c1 v es = Some q ->
    exists q', hyb_or h2 c2 v es = Some q' /\ fst q = fst q' /\ drel (snd q) (snd q').
  Proof.
    intros H. induction H as [|e es He _ IH]; intros c1 c2 v q D Hq; [injection Hq as <-; exists (v, [], c2); auto|].
    cbn in Hq |- *. fold (hyb_or h1) in Hq. fold (hyb_or h2). destruct (h1 c1 e) as [p|] eqn:Ep; [|discriminate]. cbn [obind] in Hq.
    destruct (He _ _ _ D Ep) as (p' & -> & Sp). apply same_parts in Sp. destruct Sp as (S1 & S2 & S3 & S4). cbn [obind]. rewrite <- S1, <- S2.
    destruct (hyb_or h1 (hr_cd p) _ es) as [q0|] eqn:Eq; [|discriminate]. destruct (IH _ _ _ _ S4 Eq) as (q' & -> & E & Dq). cbn [obind] in Hq |- *. injection Hq as <-. eexists. split; [reflexivity|]. cbn [fst snd]. rewrite E. auto.
  Qed.
  Lemma hyb_rel e : rel_ok e.
  Proof.
    induction e using gex_ind'; intros c1 c2 res D Hr; cbn [hyb] in Hr |- *; try discriminate; try (injection Hr as <-; eexists; split; [reflexivity|]; split; [reflexivity|exact D]).
    - destruct (h1 c1 e) as [p|] eqn:Ep; [|discriminate]. destruct (IHe _ _ _ D Ep) as (p' & -> & Sp). apply same_parts in Sp. destruct Sp as (S1 & S2 & S3 & S4).
      cbn [obind] in *. injection Hr as <-. eexists. split; [reflexivity|]. split; [cbn; rewrite S3; reflexivity|exact S4].
    - destruct (h1 c1 e) as [p|] eqn:Ep; [|discriminate]. destruct (IHe _ _ _ D Ep) as (p' & -> & Sp). apply same_parts in Sp. destruct Sp as (S1 & S2 & S3 & S4).
      cbn [obind] in *. rewrite <- S1. destruct (truthy (hr_val p)); injection Hr as <-; eexists; (split; [reflexivity|]); (split; [cbn; rewrite ?S3; reflexivity|exact S4]).
    - destruct (h1 c1 e1) as [p|] eqn:Ep; [|discriminate]. destruct (IHe1 _ _ _ D Ep) as (p' & -> & Sp). apply same_parts in Sp. destruct Sp as (S1 & S2 & S3 & S4). cbn [obind] in *.
      destruct (h1 (hr_cd p) e2) as [q|] eqn:Eq; [|discriminate]. destruct (IHe2 _ _ _ S4 Eq) as (q' & -> & Sq). apply same_parts in Sq. destruct Sq as (T1 & T2 & T3 & T4). cbn [obind] in *.
      injection Hr as <-. eexists. split; [reflexivity|]. split; [cbn; rewrite S3, T3; reflexivity|exact T4].
    - destruct (h1 c1 e1) as [p|] eqn:Ep; [|discriminate]. destruct (IHe1 _ _ _ D Ep) as (p' & -> & Sp). apply same_parts in Sp. destruct Sp as (S1 & S2 & S3 & S4). cbn [obind] in *.
      destruct (h1 (hr_cd p) e2) as [q|] eqn:Eq; [|discriminate]. destruct (IHe2 _ _ _ S4 Eq) as (q' & -> & Sq). apply same_parts in Sq. destruct Sq as (T1 & T2 & T3 & T4). cbn [obind] in *.
      injection Hr as <-. eexists. split; [reflexivity|]. split; [cbn; rewrite S3, T3; reflexivity|exact T4].
    - destruct b.
      + destruct (hyb_and h1 c1 (DB true) es) as [q|] eqn:Eq; [|discriminate]. destruct (and_rel H _ D Eq) as (q' & -> & E & Dq). cbn [obind] in *. injection Hr as <-.
        eexists. split; [reflexivity|]. split; [cbn; rewrite E; reflexivity|exact Dq].
      + destruct (hyb_or h1 c1 (DB false) es) as [q|] eqn:Eq; [|discriminate]. destruct (or_rel H _ D Eq) as (q' & -> & E & Dq). cbn [obind] in *. injection Hr as <-.
        eexists. split; [reflexivity|]. split; [cbn; rewrite E; reflexivity|exact Dq].
    - destruct (dget word_eqb (text p) c1) as [a|] eqn:Ea; [|discriminate]. destruct (drel_get _ D Ea) as (a' & -> & Ra). cbn [obind] in *.
      destruct (dget word_eqb (text q) c1) as [a2|] eqn:Eb; [|discriminate]. destruct (drel_get _ D Eb) as (b' & -> & Rb). cbn [obind] in *.
      destruct (f1 b (lane_key dd phys l) a a2) as [v|] eqn:Ef; [|discriminate]. destruct (@step _ _ _ _ _ _ _ _ _ (length c1 + 1) Ra Rb Ef) as (v' & -> & Rv). cbn [obind] in *. injection Hr as <-.
      eexists. split; [reflexivity|]. unfold tmp_name. rewrite <- (drel_len D). split; [reflexivity|]. apply drel_set; assumption.
  Qed.
End Rel.

(** ** Guards without coordinates *)
Section Free.
  Variable dd : dict word word.
  Variable phys : word -> word.
  Variables V1 V2 : Type.
  Variable f1 : bool -> word -> V1 -> V1 -> option V1.
  Variable f2 : bool -> word -> V2 -> V2 -> option V2.
  Notation to2 c2 := (option_map (fun r : hyb_res V1 => (fst r, c2) : hyb_res V2)).
  Definition free_ok (e : gex) : Prop := lane_free e = true -> forall c1 c2,
    hyb dd phys f2 c2 e = to2 c2 (hyb dd phys f1 c1 e) /\ forall r, hyb dd phys f1 c1 e = Some r -> hr_cd r = c1.
  Notation to2l c2 := (option_map (fun q : dval * list gex * dict word V1 => (fst q, c2) : dval * list gex * dict word V2)).
  Lemma free_and es : Forall free_ok es -> forallb lane_free es = true -> forall v c1 c2,
    hyb_and (hyb dd phys f2) c2 v es = to2l c2 (hyb_and (hyb dd phys f1) c1 v es) /\ forall q, hyb_and (hyb dd phys f1) c1 v es = Some q -> snd q = c1.
  Proof.
    induction 1 as [|e es He _ IH]; intros Hf v c1 c2; cbn [hyb_and]; [split; [reflexivity|intros q [= <-]; reflexivity]|].
    cbn in Hf. apply andb_true_iff in Hf. destruct Hf as [F1 F2]. destruct (He F1 c1 c2) as [E U]. rewrite E. destruct (hyb dd phys f1 c1 e) as [[[[v' o] n] c]|]; [|split; [reflexivity|discriminate]].
    specialize (U _ eq_refl). unfold hr_cd in U. cbn [snd] in U. subst c. cbn [option_map obind]. unfold hr_val, hr_new, hr_cd. cbn [fst snd].
    destruct (truthy (if truthy v then v' else v)); [|split; [reflexivity|intros q [= <-]; reflexivity]].
    destruct (IH F2 (if truthy v then v' else v) c1 c2) as [E2 U2]. rewrite E2. destruct (hyb_and (hyb dd phys f1) c1 _ es) as [q|]; [|split; [reflexivity|discriminate]].
    specialize (U2 _ eq_refl). cbn [option_map obind]. split; [reflexivity|]. intros q0 [= <-]. exact U2.
  Qed.
  Lemma free_or es : Forall free_ok es -> forallb lane_free es = true -> forall v c1 c2,
    hyb_or (hyb dd phys f2) c2 v es = to2l c2 (hyb_or (hyb dd phys f1) c1 v es) /\ forall q, hyb_or (hyb dd phys f1) c1 v es = Some q -> snd q = c1.
  Proof.
    induction 1 as [|e es He _ IH]; intros Hf v c1 c2; cbn [hyb_or]; [split; [reflexivity|intros q [= <-]; reflexivity]|].
    cbn in Hf. apply andb_true_iff in Hf. destruct Hf as [F1 F2]. destruct (He F1 c1 c2) as [E U]. rewrite E. destruct (hyb dd phys f1 c1 e) as [[[[v' o] n] c]|]; [|split; [reflexivity|discriminate]].
    specialize (U _ eq_refl). unfold hr_cd in U. cbn [snd] in U. subst c. cbn [option_map obind]. unfold hr_val, hr_old, hr_cd. cbn [fst snd].
    destruct (IH F2 (if truthy v then v else v') c1 c2) as [E2 U2]. rewrite E2. destruct (hyb_or (hyb dd phys f1) c1 _ es) as [q|]; [|split; [reflexivity|discriminate]].
    specialize (U2 _ eq_refl). cbn [option_map obind]. split; [reflexivity|]. intros q0 [= <-]. exact U2.
  Qed.
  Lemma hyb_free_sets e : free_ok e.
  Proof.
    induction e using gex_ind'; intros Hf c1 c2; cbn [hyb]; try (split; [reflexivity|intros ? [= <-]; reflexivity]); try (split; [reflexivity|discriminate]); cbn [lane_free] in Hf; try discriminate.
    - destruct (IHe Hf c1 c2) as [E U]. rewrite E. destruct (hyb dd phys f1 c1 e) as [p|]; [|split; [reflexivity|discriminate]]. specialize (U _ eq_refl).
      split; [reflexivity|]. intros r [= <-]. exact U.
    - destruct (IHe Hf c1 c2) as [E U]. rewrite E. destruct (hyb dd phys f1 c1 e) as [[[[v' o] n] c]|]; [|split; [reflexivity|discriminate]]. specialize (U _ eq_refl).
      unfold hr_cd in U. cbn [snd] in U. subst c. cbn [option_map obind]. unfold hr_val, hr_new, hr_cd. cbn [fst snd]. destruct (truthy v'); (split; [reflexivity|intros r [= <-]; reflexivity]).
    - apply andb_true_iff in Hf. destruct Hf as [F1 F2]. destruct (IHe1 F1 c1 c2) as [E U]. rewrite E. destruct (hyb dd phys f1 c1 e1) as [[[[v' o1] n] c]|]; [|split; [reflexivity|discriminate]]. specialize (U _ eq_refl).
      unfold hr_cd in U. cbn [snd] in U. subst c. cbn [option_map obind]. unfold hr_new, hr_cd. cbn [fst snd]. destruct (IHe2 F2 c1 c2) as [E2 U2]. rewrite E2.
      destruct (hyb dd phys f1 c1 e2) as [q|]; [|split; [reflexivity|discriminate]]. specialize (U2 _ eq_refl). split; [reflexivity|]. intros r [= <-]. exact U2.
    - apply andb_true_iff in Hf. destruct Hf as [F1 F2]. destruct (IHe1 F1 c1 c2) as [E U]. rewrite E. destruct (hyb dd phys f1 c1 e1) as [[[[v' o1] n] c]|]; [|split; [reflexivity|discriminate]]. specialize (U _ eq_refl).
      unfold hr_cd in U. cbn [snd] in U. subst c. cbn [option_map obind]. unfold hr_new, hr_cd. cbn [fst snd]. destruct (IHe2 F2 c1 c2) as [E2 U2]. rewrite E2.
      destruct (hyb dd phys f1 c1 e2) as [q|]; [|split; [reflexivity|discriminate]]. specialize (U2 _ eq_refl). split; [reflexivity|]. intros r [= <-]. exact U2.
    - destruct b.
      + destruct (free_and H Hf (DB true) c1 c2) as [E U]. rewrite E. destruct (hyb_and _ c1 _ es) as [q|]; [|split; [reflexivity|discriminate]]. specialize (U _ eq_refl). split; [reflexivity|]. intros r [= <-]. exact U.
      + destruct (free_or H Hf (DB false) c1 c2) as [E U]. rewrite E. destruct (hyb_or _ c1 _ es) as [q|]; [|split; [reflexivity|discriminate]]. specialize (U _ eq_refl). split; [reflexivity|]. intros r [= <-]. exact U.
  Qed.
End Free.

(** ** The position of a variable in a star *)
Lemma position_nth x l i : position x l = Some i -> nth_error l i = Some x.
Proof.
  revert i. induction l as [|y l IH]; intros i; [discriminate|]. cbn. destruct (word_eqb x y) eqn:E.
  - intros [= <-]. apply word_eqb_eq in E. subst. reflexivity.
  - destruct (position x l) as [j|]; [|discriminate]. intros [= <-]. apply IH. reflexivity.
Qed.
Lemma position_app x l m : In x l -> position x (l ++ m) = position x l.
Proof.
  induction l as [|y l IH]; [contradiction|]. cbn. intros H. destruct (word_eqb x y) eqn:E; [reflexivity|]. destruct H as [->|H]; [rewrite word_eqb_same in E; discriminate|].
  rewrite (IH H). reflexivity.
Qed.
Lemma index_from avs x : forall i0 i, fold_left (fun i l => match position x l with Some j => Some j | None => i end) avs i0 = Some i -> i0 = Some i \/ exists l, In l avs /\ position x l = Some i.
Proof.
  induction avs as [|l avs IH]; intros i0 i H; cbn in H; [auto|]. apply IH in H. destruct H as [H|(l' & Hl & H)]; [|right; exists l'; cbn; auto].
  destruct (position x l) as [j|] eqn:E; [right; exists l; split; [left; reflexivity|congruence]|auto].
Qed.

Lemma index_agents_in (cd : sdict) : forall ags a, In a (fold_left (fun ags kv => match snd kv with
                           | One _ => if existsb (word_eqb (before_dot (fst kv))) ags then ags else ags ++ [before_dot (fst kv)]
                           | Many _ => ags
                           end) cd ags) -> In a ags \/ exists k (S : star), In (k, One S) cd /\ before_dot k = a.
Proof.
  induction cd as [|[k [S|l]] cd IH]; intros ags a H; cbn in H; [auto|..]; apply IH in H; destruct H as [H|(k' & S' & H & E)];
    try (right; exists k', S'; cbn; auto; fail); auto.
  destruct (existsb (word_eqb (before_dot k)) ags); [auto|]. apply in_app_iff in H. destruct H as [H|[<-|[]]]; [auto|]. right. exists k, S. cbn. auto.
Qed.

(** The names collected for an agent of a list. *)
Definition collect (agent : word) (vs : list word) (k : word) : option (list word) :=
  do a <- after_dot k; let v := agent ++ w "." ++ before_dot a in Some (if existsb (word_eqb v) vs then vs else vs ++ [v]).
Lemma collect_ones agent (cd : sdict) : forall vs,
  fold_opt (fun vs kv => match snd kv with
                              | One _ => do a <- after_dot (fst kv);
                                         let v := agent ++ w "." ++ before_dot a in
                                         Some (if existsb (word_eqb v) vs then vs else vs ++ [v])
                              | Many _ => Some vs
                              end) cd vs = fold_opt (collect agent) (one_names cd) vs.
Proof.
  unfold one_names. induction cd as [|[k [S|l]] cd IH]; intros vs; [reflexivity|..].
  - cbn [fold_opt filter snd map fst]. unfold collect at 1. destruct (after_dot k) as [a|]; cbn [obind]; [apply IH|reflexivity].
  - cbn [fold_opt filter snd map fst obind]. apply IH.
Qed.
Lemma collect_grows agent ks : forall vs vs', fold_opt (collect agent) ks vs = Some vs' -> exists m, vs' = vs ++ m.
Proof.
  induction ks as [|k ks IH]; intros vs vs' H; cbn in H; [injection H as <-; exists []; rewrite app_nil_r; reflexivity|].
  destruct (collect agent vs k) as [v1|] eqn:E; [|discriminate]. cbn [obind] in H. destruct (IH _ _ H) as (m & ->). unfold collect in E. destruct (after_dot k) as [a|]; [|discriminate]. cbn [obind] in E.
  injection E as <-. destruct (existsb _ vs); [exists m; reflexivity|eexists; rewrite <- app_assoc; reflexivity].
Qed.
Lemma collect_form agent ks : forall vs vs', fold_opt (collect agent) ks vs = Some vs' -> (forall v, In v vs -> exists y, v = agent ++ w "." ++ y) -> forall v, In v vs' -> exists y, v = agent ++ w "." ++ y.
Proof.
  induction ks as [|k ks IH]; intros vs vs' H Hv; cbn in H; [injection H as <-; exact Hv|].
  destruct (collect agent vs k) as [v1|] eqn:E; [|discriminate]. cbn [obind] in H. apply (IH _ _ H). unfold collect in E. destruct (after_dot k) as [a|]; [|discriminate]. cbn [obind] in E.
  injection E as <-. intros v. destruct (existsb _ vs); [apply Hv|]. rewrite in_app_iff. intros [X|[<-|[]]]; [exact (Hv _ X)|eexists; reflexivity].
Qed.
Lemma collect_fresh agent xs : (forall x, In x xs -> ~ In "."%char x) -> forall ys, NoDup (ys ++ xs) ->
  fold_opt (collect agent) (map ego_name xs) (map (fun x => agent ++ w "." ++ x) ys) = Some (map (fun x => agent ++ w "." ++ x) (ys ++ xs)).
Proof.
  intros D. induction xs as [|x xs IH]; intros ys N; [rewrite app_nil_r; reflexivity|]. cbn [map fold_opt]. unfold collect at 1.
  assert (E : after_dot (ego_name x) = Some x). { unfold ego_name. apply (@after_dot_app (w "ego") x). cbn. intuition discriminate. }
  rewrite E. cbn [obind]. rewrite (before_dot_none _ (D x (or_introl eq_refl))).
  replace (existsb (word_eqb (agent ++ w "." ++ x)) (map (fun x => agent ++ w "." ++ x) ys)) with false.
  - change [agent ++ w "." ++ x] with (map (fun x => agent ++ w "." ++ x) [x]). rewrite <- map_app. cbn [obind]. rewrite IH; [rewrite <- app_assoc; reflexivity|intros; apply D; right; assumption|rewrite <- app_assoc; exact N].
  - symmetry. destruct (existsb _ _) eqn:Ex; [|reflexivity]. apply existsb_word in Ex. apply in_map_iff in Ex. destruct Ex as (y & Ey & Hy). apply app_inv_head in Ey. apply app_inv_head in Ey. subst y.
    apply NoDup_remove_2 in N. exfalso. apply N. apply in_app_iff. auto.
Qed.

Section Index.
  Variable W : world.
  Variable dd : dict word word.
  Variable cd : sdict.
  Hypothesis HS : sensed W cd.
  Hypothesis HN : names_fit W dd.
  Hypothesis HF : ego_first W cd.
  Hypothesis HA : alike W.
  Notation ks := (map fst cd).

  Lemma ego_keys : filter (occurs (w "ego")) ks = map ego_name (ego_vars W).
  Proof.
    rewrite <- (se_ego HS). apply filter_ext_in. intros k Hk. destruct (existsb (word_eqb k) (map ego_name (ego_vars W))) eqn:E.
    - apply existsb_word in E. apply in_map_iff in E. destruct E as (x & <- & _). reflexivity.
    - assert (N : occurs (w "ego") (under k) = false).
      { apply (nf_ego HN). apply in_map. rewrite in_app_iff. destruct (key_cases HS _ Hk) as [H|H]; [|right; exact H]. left.
        unfold names_of, parts in H. cbn [flat_map p_names] in H. apply in_app_iff in H. destruct H as [H|H]; [|exact H]. apply existsb_word in H. congruence. }
      destruct (occurs (w "ego") k) eqn:Eo; [|reflexivity]. exfalso. clear - N Eo. induction k as [|c k IH]; [discriminate|].
      cbn [occurs under map] in N, Eo. apply orb_false_iff in N. destruct N as [N1 N2]. apply orb_true_iff in Eo. destruct Eo as [Eo|Eo]; [|exact (IH N2 Eo)].
      assert (P : forall p t, (forall c, In c p -> c <> "."%char) -> prefix_of p t = true -> prefix_of p (under t) = true).
      { clear. induction p as [|c p IH]; intros [|d t] Hp H; cbn in H |- *; auto; try discriminate. destruct (Ascii.eqb c d) eqn:E; [|discriminate]. apply Ascii.eqb_eq in E. subst d.
        assert (Hc := Hp c (or_introl eq_refl)). rewrite <- Ascii.eqb_neq in Hc. rewrite Hc, Ascii.eqb_refl. apply IH; [intros; apply Hp; right; assumption|exact H]. }
      change (prefix_of (w "ego") (under (c :: k)) = false) in N1. rewrite P in N1; [discriminate| |exact Eo]. cbn. intuition; subst; discriminate.
  Qed.

  Lemma ego_nodup : NoDup (ego_vars W).
  Proof.
    pose proof (nf_nodup HN) as N. unfold names_of, parts in N. cbn [flat_map p_names] in N. rewrite <- app_assoc, map_app in N. 
    assert (N' : NoDup (map under (map ego_name (ego_vars W)))). { revert N. generalize (map under (map ego_name (ego_vars W))) as l. intros l. induction l as [|a l IH]; cbn; intros N; constructor; inversion N; subst; [intros X; apply H1, in_app_iff; auto|auto]. }
    rewrite map_map in N'. revert N'. generalize (ego_vars W) as l. induction l as [|a l IH]; intros N'; constructor; cbn in N'; inversion N' as [|? ? Na N2]; subst; [|auto].
    intros H. apply Na. apply in_map_iff. eauto.
  Qed.

  Lemma index_right avs k S i : variable_indices cd = Some avs -> In (k, One S) cd -> index_of avs k = Some i ->
    exists p, In p (parts W) /\ S = p_star p /\ nth_error (p_names p) i = Some k.
  Proof.
    intros Ev Hk Hi. destruct (se_one HS _ _ Hk) as (p & Hp & Hn & ES). exists p. split; [exact Hp|]. split; [exact ES|].
    pose proof (@w_agent W dd HN _ _ Hp Hn) as Ek. apply index_from in Hi. destruct Hi as [Hi|(l & Hl & Hi)]; [discriminate|].
    unfold variable_indices in Ev. apply mapM_Forall2 in Ev. destruct (Forall2_In_r _ Ev Hl) as (a & Ha & Ea).
    apply index_agents_in in Ha. destruct Ha as [[]|(k' & S' & Hk' & Ek')]. destruct (se_one HS _ _ Hk') as (p' & Hp' & Hn' & _).
    pose proof (@w_agent W dd HN _ _ Hp' Hn') as Ea'. rewrite Ek' in Ea'. rewrite Ea' in Ea. unfold agent_variables in Ea.
    destruct (parts_in Hp') as [Q'|(j & S2 & Hj & Q')]; rewrite Q' in Ea; cbn [p_agent p_names] in Ea.
    - change (negb (existsb (Ascii.eqb "_"%char) (w "ego"))) with true in Ea. cbv iota in Ea. rewrite ego_keys in Ea. injection Ea as <-.
      pose proof (position_nth _ _ Hi) as Hx. pose proof (nth_error_In _ _ Hx) as Hin. 
      assert (E : p = p'). { apply (@same_agent (parts W) (@w_agents W)); auto. rewrite <- Ek. rewrite Q'. cbn [p_agent]. apply in_map_iff in Hin. destruct Hin as (x & <- & _). reflexivity. }
      rewrite E, Q'. exact Hx.
    - assert (E : existsb (Ascii.eqb "_"%char) (other_agent W j) = true).
      { apply existsb_exists. exists "_"%char. split; [|apply Ascii.eqb_refl]. unfold other_agent. rewrite !in_app_iff. right. left. left. reflexivity. }
      rewrite E in Ea. cbn [negb] in Ea. rewrite collect_ones in Ea. destruct HF as (rest & Er). rewrite Er in Ea.
      assert (Fa : forall l1 l2 v, fold_opt (collect (other_agent W j)) (l1 ++ l2) v = do u <- fold_opt (collect (other_agent W j)) l1 v; fold_opt (collect (other_agent W j)) l2 u).
      { clear. induction l1 as [|x l1 IH]; intros l2 v; [reflexivity|]. cbn. destruct (collect (other_agent W j) v x); cbn; [apply IH|reflexivity]. }
      rewrite Fa in Ea. pose proof (@collect_fresh (other_agent W j) (ego_vars W) (fun x Hx => @nf_dots W dd HN x (or_intror (proj2 (in_app_iff _ _ _) (or_introl Hx)))) [] ego_nodup) as Ec.
      cbn [map app] in Ec. rewrite Ec in Ea. cbn [obind] in Ea. pose proof (@collect_form _ _ _ _ Ea) as Form. destruct (collect_grows _ _ _ Ea) as (m & ->). destruct HA as (more & Em). rewrite Em, map_app, <- app_assoc in Hi.
      pose proof (position_nth _ _ Hi) as Hx. pose proof (nth_error_In _ _ Hx) as Hin.
      assert (Fv : forall v, In v (map (fun x => other_agent W j ++ w "." ++ x) (oth_vars W ++ more)) -> exists y, v = other_agent W j ++ w "." ++ y).
      { intros v Hv. apply in_map_iff in Hv. destruct Hv as (y & <- & _). exists y. reflexivity. }
      rewrite map_app in Fv.
      assert (Ep : p = p').
      { apply (@same_agent (parts W) (@w_agents W)); auto. rewrite <- Ek, Q'. cbn [p_agent].
        rewrite Em, map_app, <- app_assoc in Form. destruct (Form (fun v Hv => Fv v Hv) _ Hin) as (y & ->). apply before_dot_app, (@other_nodot W dd HN). }
      rewrite Ep, Q' in Hn |- *. cbn [p_names] in Hn |- *.
      assert (Ei : map (item_name (oth W) j) (oth_vars W) = map (fun x => other_agent W j ++ w "." ++ x) (oth_vars W)). { apply map_ext. intros x. apply item_split. }
      rewrite Ei in Hn |- *. rewrite (position_app _ _ _ Hn) in Hi. exact (position_nth _ _ Hi).
  Qed.
End Index.

(** ** Made-up names *)
Lemma occurs_chars p t c : occurs p t = true -> In c p -> In c t.
Proof.
  intros H Hc. induction t as [|d t IH].
  - cbn in H. destruct p; [contradiction|discriminate].
  - cbn in H. apply orb_true_iff in H. destruct H as [H|H]; [|right; exact (IH H)].
    clear IH. revert H Hc. generalize (d :: t) as u. clear. induction p as [|a p IH]; intros [|b u] H Hc; try contradiction; try discriminate. cbn in H. destruct (Ascii.eqb a b) eqn:E; [|discriminate].
    apply Ascii.eqb_eq in E. subst b. destruct Hc as [->|Hc]; [left; reflexivity|right; exact (IH _ H Hc)].
Qed.
Lemma dec_no_g n : ~ In "g"%char (dec n).
Proof. unfold dec. induction (Nat.to_uint n); cbn; try tauto; intros [H|H]; try discriminate; auto. Qed.
Definition made_up (k : word) : Prop := exists i, k = w "tmp_variable" ++ dec i.
Lemma made_nodot k : made_up k -> ~ In "."%char k.
Proof. intros (i & ->). apply tmp_nodot. Qed.
Lemma made_under k : made_up k -> under k = k.
Proof. intros H. apply under_nodot. exact (made_nodot H). Qed.
Lemma made_prefix k : made_up k -> prefix_of (w "tmp_variable") k = true.
Proof. intros (i & ->). apply prefix_self. Qed.
Lemma made_occurs k : made_up k -> occurs (w "tmp_variable") k = true.
Proof. intros H. apply made_prefix in H. destruct k; [discriminate|]. cbn [occurs]. rewrite H. reflexivity. Qed.
Lemma made_not_ego k : made_up k -> occurs (w "ego") k = false.
Proof.
  intros (i & ->). destruct (occurs (w "ego") (w "tmp_variable" ++ dec i)) eqn:E; [|reflexivity]. exfalso. apply (@occurs_chars _ _ "g"%char) in E; [|cbn; auto].
  apply in_app_iff in E. destruct E as [E|E]; [cbn in E; intuition discriminate|exact (dec_no_g _ E)].
Qed.
Lemma made_not_alpha k a j : made_up k -> alpha_name a j <> k.
Proof.
  intros (i & ->) E. rewrite alpha_split in E. change (w "tmp_variable" ++ dec i) with (w "tmp" ++ "_"%char :: (w "variable" ++ dec i)) in E.
  apply last_split in E; [|apply dec_nounder|].
  - destruct E as [E _]. apply (f_equal (@length _)) in E. rewrite app_length in E. cbn in E. lia.
  - rewrite in_app_iff. intros [H|H]; [cbn in H; intuition discriminate|exact (dec_nounder _ H)].
Qed.

(** ** A dictionary with made-up variables *)
Section Extended.
  Variable W : world.
  Variable dd : dict word word.
  Variable cd : sdict.
  Hypothesis HS : sensed W cd.
  Hypothesis HN : names_fit W dd.
  Hypothesis HW : shapes W.
  Hypothesis HT : no_made_up W dd.
  (** Made-up variables and their stars. *)
  Variable tl : list (word * star).
  Hypothesis T1 : NoDup (map fst tl).
  Hypothesis T2 : forall t S, In (t, S) tl -> made_up t /\ wf_star S /\ dim S = 1.
  Definition cd2 : sdict := cd ++ map (fun ts => (fst ts, One (snd ts))) tl.
  Definition parts2 : list part := parts W ++ map (fun ts => mk_part (fst ts) (snd ts) [fst ts]) tl.
  Notation ks := (map fst cd).
  Notation ks2 := (map fst cd2).

  Lemma keys2 : ks2 = ks ++ map fst tl.
  Proof. unfold cd2. rewrite map_app, map_map. reflexivity. Qed.
  Lemma tl_made t : In t (map fst tl) -> made_up t.
  Proof. intros H. apply in_map_iff in H. destruct H as ([t' S] & <- & H). exact (proj1 (T2 _ _ H)). Qed.
  Lemma names2 : flat_map p_names parts2 = names_of W ++ map fst tl.
  Proof.
    unfold parts2, names_of. rewrite flat_map_app. f_equal. clear. induction tl as [|ts l IH]; [reflexivity|]. cbn. rewrite IH. reflexivity.
  Qed.
  Lemma not_made k t : In k (names_of W ++ list_names W ++ map fst dd) -> made_up t -> under k <> t.
  Proof. intros Hk Ht E. apply HT in Hk. rewrite E in Hk. rewrite (made_prefix Ht) in Hk. discriminate. Qed.
  Lemma parts2_in p : In p parts2 -> In p (parts W) \/ exists t S, In (t, S) tl /\ p = mk_part t S [t].
  Proof.
    intros H. apply in_app_iff in H. destruct H as [H|H]; [auto|]. apply in_map_iff in H. destruct H as ([t S] & <- & H). right. exists t, S. auto.
  Qed.

  Lemma x_one k S : In (k, One S) cd2 -> exists p, In p parts2 /\ In k (p_names p) /\ S = p_star p.
  Proof.
    unfold cd2, parts2. rewrite in_app_iff. intros [H|H].
    - destruct (se_one HS _ _ H) as (p & Hp & H1 & H2). exists p. rewrite in_app_iff. auto.
    - apply in_map_iff in H. destruct H as ([t S'] & [= <- <-] & H). exists (mk_part t S' [t]). rewrite in_app_iff. split; [right; apply in_map_iff; exists (t, S'); auto|]. cbn. auto.
  Qed.
  Lemma x_many k l : In (k, Many l) cd2 -> ~ In (before_dot k) (map p_agent parts2).
  Proof.
    unfold cd2, parts2. rewrite in_app_iff. intros [H|H]; [|apply in_map_iff in H; destruct H as (? & [=] & _)].
    pose proof (@w_many W dd cd HS HN k l H) as Hm. pose proof (many_list HS _ _ H) as Hl. rewrite map_app, in_app_iff, map_map. cbn [p_agent]. intros [X|X]; [exact (Hm X)|].
    change (In (before_dot k) (map fst tl)) in X. apply tl_made in X. rewrite (proj2 (@list_dotted W dd HN k Hl)) in X.
    assert (In k (names_of W ++ list_names W ++ map fst dd)) as Hk by (rewrite !in_app_iff; auto). apply HT in Hk. apply in_map_iff in Hl. destruct Hl as (x & <- & _).
    rewrite under_app, (made_under X) in Hk. destruct X as (i & E). rewrite E, <- app_assoc in Hk. rewrite prefix_self in Hk. discriminate.
  Qed.
  Lemma x_agent p k : In p parts2 -> In k (p_names p) -> before_dot k = p_agent p.
  Proof.
    intros Hp Hk. destruct (parts2_in Hp) as [H|(t & S & Ht & ->)]; [exact (@w_agent W dd HN p k H Hk)|]. cbn in Hk |- *. destruct Hk as [<-|[]].
    apply before_dot_none, made_nodot. exact (proj1 (T2 _ _ Ht)).
  Qed.
  Lemma x_keys_nodup : NoDup (map under ks2).
  Proof.
    assert (E : forall l, (forall t, In t l -> made_up t) -> map under l = l).
    { clear. induction l as [|t l IH]; intros H; [reflexivity|]. cbn. rewrite (made_under (H t (or_introl eq_refl))), IH; [reflexivity|]. intros; apply H; right; assumption. }
    rewrite keys2, map_app, (E _ tl_made). apply NoDup_both; [exact (@keys_nodup W dd cd HS HN)|exact T1|].
    intros x Hx Ht. apply tl_made in Ht. apply in_map_iff in Hx. destruct Hx as (k & Ek & Hk). exact (@not_made k x (key_all dd HS _ Hk) Ht Ek).
  Qed.
  Lemma x_agents : NoDup (map p_agent parts2).
  Proof.
    unfold parts2. rewrite map_app, map_map. cbn [p_agent]. apply NoDup_both; [exact (@w_agents W)|exact T1|].
    intros x Hx Ht. apply tl_made in Ht. apply in_map_iff in Hx. destruct Hx as (p & <- & Hp). pose proof (@nf_tmp _ _ HN p Hp) as E. rewrite (made_occurs Ht) in E. discriminate.
  Qed.
  Lemma x_state p : In p parts2 -> state_names cd2 (p_agent p) = Some (map under (p_names p)).
  Proof.
    intros Hp. destruct (parts2_in Hp) as [H|(t & S & Ht & ->)].
    - rewrite <- (@w_state W dd cd HS HN p H). unfold state_names. rewrite (@nf_tmp _ _ HN p H). destruct (negb _) eqn:En.
      + f_equal. rewrite (var_names_under _ x_keys_nodup), (var_names_under _ (@keys_nodup W dd cd HS HN)). rewrite keys2, map_app, filter_app.
        replace (filter (occurs (p_agent p)) (map under (map fst tl))) with (@nil word); [apply app_nil_r|].
        destruct (parts_in H) as [->|(i & S & _ & ->)]; cbn [p_agent] in *.
        * symmetry. assert (F : forall l, (forall t, In t l -> made_up t) -> filter (occurs (w "ego")) (map under l) = []).
          { clear. induction l as [|t l IH]; intros H; [reflexivity|]. cbn [map filter]. rewrite (made_under (H t (or_introl eq_refl))), (made_not_ego (H t (or_introl eq_refl))). apply IH. intros; apply H; right; assumption. }
          apply F. exact tl_made.
        * exfalso. assert (E : existsb (Ascii.eqb "_"%char) (other_agent W i) = true).
          { apply existsb_exists. exists "_"%char. split; [|apply Ascii.eqb_refl]. unfold other_agent. rewrite !in_app_iff. right. left. left. reflexivity. }
          rewrite E in En. discriminate.
      + unfold cd2. rewrite filter_app. replace (filter _ (map _ tl)) with (@nil (word * entry star)); [rewrite app_nil_r; reflexivity|].
        symmetry. clear. induction tl as [|ts l IH]; [reflexivity|]. cbn. exact IH.
    - cbn [p_agent p_names map]. destruct (T2 _ _ Ht) as [Hm _]. unfold state_names. rewrite (made_occurs Hm), (made_under Hm). reflexivity.
  Qed.
  Lemma x_shapes p : In p parts2 -> wf_star (p_star p) /\ dim (p_star p) = length (p_names p).
  Proof. intros Hp. destruct (parts2_in Hp) as [H|(t & S & Ht & ->)]; [exact (HW H)|]. exact (proj2 (T2 _ _ Ht)). Qed.
  Lemma x_k6 a b : In a (flat_map p_names parts2) -> In b (flat_map p_names parts2) -> under a = under b -> a = b.
  Proof.
    rewrite names2, !in_app_iff. intros [Ha|Ha] [Hb|Hb] E.
    - apply (@w_inj2 W dd HN); auto; apply in_app_iff; auto.
    - apply tl_made in Hb. exfalso. rewrite (made_under Hb) in E. apply (@not_made a b); auto. apply in_app_iff. auto.
    - apply tl_made in Ha. exfalso. rewrite (made_under Ha) in E. apply (@not_made b a); auto. apply in_app_iff. auto.
    - rewrite (made_under (tl_made _ Ha)), (made_under (tl_made _ Hb)) in E. exact E.
  Qed.
  Lemma x_k6f k : In k ks2 -> few_dots k /\ k <> [].
  Proof.
    rewrite keys2, in_app_iff. intros [H|H]; [exact (@w_k6f W dd cd HS HN k H)|]. apply tl_made in H. split; [right; exact (made_nodot H)|]. destruct H as (i & ->). discriminate.
  Qed.
  Lemma x_k6x k t : In k ks2 -> In t (map fst dd) -> under k <> under t.
  Proof.
    rewrite keys2, in_app_iff. intros [H|H] Ht; [exact (@w_k6x W dd cd HS HN k t H Ht)|]. apply tl_made in H. rewrite (made_under H). intros E. apply (@not_made t k); auto. rewrite !in_app_iff. auto.
  Qed.
  Lemma x_k7 p j : In p parts2 -> ~ In (alpha_name (p_agent p) j) (map under (flat_map p_names parts2)).
  Proof.
    intros Hp. rewrite names2, map_app, in_app_iff. intros [H|H].
    - destruct (parts2_in Hp) as [Hp'|(t & S & Ht & ->)]; [exact (@nf_alpha _ _ HN p j Hp' H)|]. cbn [p_agent] in H. apply in_map_iff in H. destruct H as (k & E & Hk).
      assert (In k (names_of W ++ list_names W ++ map fst dd)) as Hk' by (apply in_app_iff; auto). apply HT in Hk'. rewrite E in Hk'. destruct (T2 _ _ Ht) as [(i & ->) _]. unfold alpha_name in Hk'. rewrite <- app_assoc, prefix_self in Hk'. discriminate.
    - apply in_map_iff in H. destruct H as (t & E & Ht). apply tl_made in Ht. rewrite (made_under Ht) in E. exact (@made_not_alpha t _ j Ht (eq_sym E)).
  Qed.

  Section Check.
    Variable of_q : Q -> Q.
    Variable n_neg : Q -> Q.
    Variable n_bin : binop -> Q -> Q -> Q.
    Variable n_cmp : cmpop -> Q -> Q -> bool.
    Variable call : word -> list dval -> option dval.
    Variable coord : bool -> word -> Q -> Q -> option Q.
    Variable phys : word -> word.
    Variable solve : list word -> form -> list lin -> verdict.
    Hypothesis right : star_solver_right of_q n_neg n_bin n_cmp solve.
    Notation value E g := (geval of_q n_neg n_bin n_cmp call coord phys E g).
    Lemma extended_over e s b sat con : in_world W s -> (forall t S, In (t, S) tl -> in_star S [s t]) -> value (flat dd ks2 s) e = Some (VB Q b) -> star_cont solve cd2 e = Some (sat, con) ->
      ((forall k f l, solve k f l <> Unknown) -> b = true -> sat = true) /\ (con = true -> b = true).
    Proof.
      intros Hs Ht. apply (@cont_over of_q n_neg n_bin n_cmp call coord phys dd cd2 solve parts2 x_one x_many x_agent x_state x_agents x_shapes x_k6 x_k6f (nf_dd HN) x_k6x x_k7 right).
      intros p Hp. destruct (parts2_in Hp) as [H|(t & S & H & ->)]; [exact (Hs p H)|exact (Ht _ _ H)].
    Qed.
  End Check.
End Extended.

(** ** The whole check *)
Section Whole.
  Variable W : world.
  Variable dd : dict word word.
  Variable cd : sdict.
  Hypothesis HS : sensed W cd.
  Hypothesis HN : names_fit W dd.
  Hypothesis HW : shapes W.
  Hypothesis HT : no_made_up W dd.
  Hypothesis HF : ego_first W cd.
  Hypothesis HA : alike W.
  Notation ks := (map fst cd).
  Variable of_q : Q -> Q.
  Variable n_neg : Q -> Q.
  Variable n_bin : binop -> Q -> Q -> Q.
  Variable n_cmp : cmpop -> Q -> Q -> bool.
  Hypothesis agree : numbers_agree of_q n_neg n_cmp.
  Hypothesis order : forall a b, n_cmp OLe a b = true <-> (a <= b)%Q.
  Variable linprog : bool -> vec -> list vec -> vec -> lp.
  Hypothesis HL : forall p, In p (parts W) -> solves linprog (p_star p).
  Variable call : word -> list dval -> option dval.
  Variable coord : bool -> word -> Q -> Q -> option Q.
  Variable phys : word -> word.
  Variable coord_set : bool -> word -> Q * Q -> Q * Q -> option (Q * Q).
  Hypothesis csound : coord_sound n_cmp coord coord_set.
  Variable solve : list word -> form -> list lin -> verdict.
  Hypothesis right : star_solver_right of_q n_neg n_bin n_cmp solve.
  Notation value E g := (geval of_q n_neg n_bin n_cmp call coord phys E g).

  Section State.
    Variable s : word -> Q.
    Hypothesis Hs : in_world W s.
    Variable avs : list (list word).
    Hypothesis Ev : variable_indices cd = Some avs.
    Notation named := (option word * entry star)%type.
    (** The bounds of a variable, or its value where no bounds are computed. *)
    Definition iv (k : word) (e : entry star) : Q * Q := match bounds_in linprog avs (Some k, e) with Some b => b | None => (s k, s k) end.
    Definition boxes : dict word (Q * Q) := map (fun kv => (fst kv, iv (fst kv) (snd kv))) cd.
    Definition R (k : word) (v : named) (b : Q * Q) : Prop :=
      (exists e, v = (Some k, e) /\ In (k, e) cd /\ b = iv k e) \/
      (made_up k /\ exists st, v = (None, One st) /\ rect_to_star [fst b] [snd b] = Some st).

    Lemma boxes_keys : map fst boxes = ks.
    Proof. unfold boxes. rewrite map_map. reflexivity. Qed.
    Lemma boxes_in : inside n_cmp boxes s.
    Proof.
      intros k lo hi H. unfold boxes in H. apply in_map_iff in H. destruct H as ([k' e] & [= <- E] & H). unfold iv in E. destruct (bounds_in linprog avs (Some k', e)) as [b|] eqn:Eb.
      - subst b. unfold bounds_in in Eb. destruct e as [S|l]; [|discriminate]. destruct (index_of avs k') as [i|] eqn:Ei; [|discriminate]. cbn [obind] in Eb.
        destruct (@index_right W dd cd HS HN HF HA avs k' S i Ev H Ei) as (p & Hp & -> & Hx). destruct (HW Hp) as [Ws Ds].
        assert (Hi : i < dim (p_star p)) by (rewrite Ds; apply nth_error_Some; rewrite Hx; discriminate).
        destruct (@max_min_ok linprog (p_star p) i lo hi Ws (HL Hp) Hi Eb) as [B _]. specialize (B _ (Hs Hp)).
        replace (nth i (map s (p_names p)) 0%Q) with (s k') in B. { rewrite !order. exact B. }
        symmetry. apply nth_error_nth. rewrite nth_error_map, Hx. reflexivity.
      - injection E as <- <-. split; apply agree.
    Qed.
    Lemma start_rel : drel R (with_names cd) boxes.
    Proof.
      split; [|unfold with_names; rewrite map_map; exact (se_nodup HS)]. unfold with_names, boxes.
      assert (F : forall l, incl l cd -> Forall2 (fun (p : word * named) (q : word * (Q * Q)) => fst p = fst q /\ R (fst p) (snd p) (snd q))
        (map (fun kv => (fst kv, (Some (fst kv), snd kv))) l) (map (fun kv => (fst kv, iv (fst kv) (snd kv))) l)).
      { induction l as [|[k e] l IH]; intros I; cbn; constructor; [|apply IH; intros x Hx; apply I; right; exact Hx].
        cbn. split; [reflexivity|]. left. exists e. split; [reflexivity|]. split; [apply I; left; reflexivity|reflexivity]. }
      apply F. apply incl_refl.
    Qed.
    Lemma lane_step lat l x y a a' b b' v i : R x a a' -> R y b b' -> lane_star linprog coord_set avs lat l a b = Some v ->
      exists v', coord_set lat l a' b' = Some v' /\ R (w "tmp_variable" ++ dec i) v v'.
    Proof.
      intros Ra Rb H. unfold lane_star in H. destruct (bounds_in linprog avs a) as [bx|] eqn:Ea; [|discriminate]. cbn [obind] in H.
      destruct (bounds_in linprog avs b) as [by_|] eqn:Eb; [|discriminate]. cbn [obind] in H. destruct (coord_set lat l bx by_) as [c|] eqn:Ec; [|discriminate]. cbn [obind] in H.
      destruct (rect_to_star [fst c] [snd c]) as [st|] eqn:Es; [|discriminate]. injection H as <-.
      assert (A : a' = bx). { destruct Ra as [(e & -> & _ & ->)|(_ & st' & -> & _)]; [unfold iv; rewrite Ea; reflexivity|discriminate]. }
      assert (B : b' = by_). { destruct Rb as [(e & -> & _ & ->)|(_ & st' & -> & _)]; [unfold iv; rewrite Eb; reflexivity|discriminate]. }
      subst. exists c. split; [exact Ec|]. right. split; [exists i; reflexivity|]. exists st. auto.
    Qed.

    (** The dictionary afterwards: made-up variables are added. *)
    Lemma after_rel c c' tb : c' = boxes ++ tb -> drel R c c' -> exists tl, without_names c = cd2 cd tl /\ NoDup (map fst tl) /\
      (forall t S, In (t, S) tl -> made_up t /\ wf_star S /\ dim S = 1) /\ map fst c' = ks ++ map fst tl /\
      forall s', inside n_cmp c' s' -> forall t S, In (t, S) tl -> in_star S [s' t].
    Proof.
      intros -> [F N]. pose proof (drel_keys (conj F N)) as Ek. apply Forall2_app_inv_r in F. destruct F as (c1 & c2 & F1 & F2 & ->).
      assert (E1 : without_names c1 = cd).
      { clear - F1 HS HN. assert (G : forall l c1, incl l cd -> Forall2 (fun (p : word * named) (q : word * (Q * Q)) => fst p = fst q /\ R (fst p) (snd p) (snd q)) c1 (map (fun kv => (fst kv, iv (fst kv) (snd kv))) l) -> without_names c1 = l).
        - clear c1 F1. induction l as [|[k e] l IH]; intros c1 I F; inversion F as [|[k' v] ? c1' ? [Ek HR] F']; subst; [reflexivity|]. cbn in Ek. subst k'. cbn. f_equal.
          + cbn in HR. destruct HR as [(e' & -> & H' & _)|(Hm & _)]; cbn.
            * assert (Hin := I (k, e) (or_introl eq_refl)). f_equal. pose proof (se_nodup HS) as Nk. 
              assert (X : (k, e') = (k, e)) by (apply (@NoDup_inj _ _ fst cd); auto). congruence.
            * exfalso. assert (Hk : In k ks) by (apply in_map_iff; exists (k, e); split; [reflexivity|apply I; left; reflexivity]). apply (@w_k6k W dd cd HS HN) in Hk. apply dotted_dot in Hk. exact (made_nodot Hm Hk).
          + apply IH; [intros x Hx; apply I; right; exact Hx|exact F'].
        - exact (G cd c1 (incl_refl _) F1). }
      assert (K1 : map fst c1 = ks). { rewrite <- E1. unfold without_names. rewrite map_map. reflexivity. }
      rewrite map_app, K1 in N, Ek.
      assert (G : forall c2 tb, (forall k, In k (map fst c2) -> ~ In k ks) -> NoDup (map fst c2) -> Forall2 (fun (p : word * named) (q : word * (Q * Q)) => fst p = fst q /\ R (fst p) (snd p) (snd q)) c2 tb ->
        exists tl, without_names c2 = map (fun ts => (fst ts, One (snd ts))) tl /\ map fst tl = map fst c2 /\
          forall t S, In (t, S) tl -> made_up t /\ exists b, In (t, b) tb /\ rect_to_star [fst b] [snd b] = Some S).
      { clear. induction c2 as [|[k v] c2 IH]; intros tb D N F; inversion F as [|? [k' b] ? tb' [Ek HR] F']; subst; [exists []; cbn; split; [reflexivity|]; split; [reflexivity|]; intros ? ? []|].
        cbn in Ek, HR, D. subst k'. inversion N as [|? ? Nk N']; subst. destruct (IH tb' (fun k Hk => D k (or_intror Hk)) N' F') as (tl & E1 & E2 & E3).
        destruct HR as [(e & _ & H & _)|(Hm & st & -> & Es)]; [exfalso; apply (D k (or_introl eq_refl)); apply in_map_iff; exists (k, e); auto|].
        exists ((k, st) :: tl). cbn. split; [f_equal; exact E1|]. split; [f_equal; exact E2|]. intros t S [[= <- <-]|H]; [split; [exact Hm|]; exists b; auto|].
        destruct (E3 _ _ H) as (Hm' & b' & Hb & Er). split; [exact Hm'|]. exists b'. auto. }
      assert (D2 : NoDup (map fst c2) /\ forall k, In k (map fst c2) -> ~ In k ks).
      { clear - N. revert N. generalize ks as l. induction l as [|a l IH]; cbn; intros N; [split; [exact N|auto]|]. inversion N as [|? ? Na N']; subst. destruct (IH N') as [X Y]. split; [exact X|].
        intros k Hk [->|H]; [apply Na, in_app_iff; auto|exact (Y k Hk H)]. }
      destruct D2 as [D2 D3]. destruct (G c2 tb D3 D2 F2) as (tl & E2 & E3 & E4). exists tl. 
      assert (Box : forall t S b, In (t, S) tl -> rect_to_star [fst b] [snd b] = Some S -> wf_star S /\ dim S = 1 /\ forall x, in_star S x <-> in_box [fst b] [snd b] x).
      { intros t S b _ Er. destruct (@C48_box [fst b] [snd b]) as (S' & X1 & X2 & X3 & X4); [discriminate|reflexivity|]. rewrite Er in X1. injection X1 as <-. auto. }
      split; [unfold cd2, without_names; rewrite map_app; f_equal; [exact E1|exact E2]|]. split; [rewrite E3; exact D2|]. split; [|split].
      - intros t S H. destruct (E4 _ _ H) as (Hm & b & Hb & Er). destruct (Box _ _ _ H Er) as (X & Y & _). auto.
      - rewrite <- Ek, E3. reflexivity.
      - intros s' Hi t S H. destruct (E4 _ _ H) as (Hm & b & Hb & Er). destruct (Box _ _ _ H Er) as (_ & _ & X). apply X. destruct b as [lo hi]. cbn [fst snd].
        destruct (Hi t lo hi (proj2 (in_app_iff _ _ _) (or_intror Hb))) as [Y1 Y2]. apply order in Y1. apply order in Y2. repeat constructor; assumption.
    Qed.
  End State.

  Lemma lane_over g s b sat con : in_world W s -> value (flat dd ks s) g = Some (VB Q b) -> lane_check linprog call dd phys coord_set solve cd g = Some (sat, con) ->
    ((forall k f l, solve k f l <> Unknown) -> b = true -> sat = true) /\ (con = true -> b = true).
  Proof.
    intros Hs He H. unfold lane_check in H. destruct (disc call dd g) as [p|] eqn:Ep; [|discriminate]. cbn [obind] in H.
    assert (A : value (flat dd ks s) (snd p) = Some (VB Q b) /\ (truthy (fst p) = false -> b = false)).
    { assert (D1 : forall r v, dlook dd r = Some v -> look (flat dd ks s) r = Some (VS Q v)) by (intros r0 v; rewrite flat_look; unfold dlook, value_of; intros ->; reflexivity).
      assert (D2 : forall r u, dlook dd r = None -> look (flat dd ks s) r = Some u -> exists x, u = VN x).
      { intros r0 u. rewrite flat_look. unfold dlook, value_of. intros ->. destruct (existsb _ _); [|discriminate]. intros [= <-]. eauto. }
      pose proof (@disc_sound Q of_q n_neg n_bin n_cmp call coord phys agree dd _ D1 D2 g p _ Ep He) as Hp. apply dsound_bool in Hp. destruct Hp as (Hp & c & Ec & Hc).
      split; [exact Hp|]. rewrite Ec. exact Hc. }
    destruct A as [Hp Hb]. destruct (truthy (fst p)); [|injection H as <- <-; rewrite (Hb eq_refl); split; [intros _|]; discriminate]. clear Hb.
    destruct (variable_indices cd) as [avs|] eqn:Ev; [|discriminate]. cbn [obind] in H.
    destruct (hyb dd phys (lane_star linprog coord_set avs) (with_names cd) (snd p)) as [r|] eqn:Er; [|discriminate]. cbn [obind] in H.
    destruct (@hyb_rel _ _ (R s avs) dd phys _ coord_set (fun lat l x y a a' b b' v i => @lane_step s avs lat l x y a a' b b' v i) (snd p) _ _ r (start_rel s avs) Er) as (r' & Er' & Sr).
    apply same_parts in Sr. destruct Sr as (S1 & _ & S3 & S4).
    destruct (@hyb_sound Q of_q n_neg n_bin n_cmp call coord phys dd coord_set csound (nf_dd HN) ks (@w_k6k W dd cd HS HN) (snd p) (boxes s avs) s (VB Q b) r') as (s' & (X1 & (tb & X2) & X3 & X4) & G & _ & V).
    - intros k Hk. left. rewrite <- (boxes_keys s avs). exact Hk.
    - apply boxes_in; assumption.
    - rewrite boxes_keys. exact Hp.
    - exact Er'.
    - destruct (@after_rel s avs _ _ _ X2 S4) as (tl & E1 & T1 & T2 & E2 & T3). rewrite S1, S3, E1 in H. destruct (truthy (hr_val r')) eqn:Et.
      + rewrite E2 in G. rewrite <- (keys2 cd tl) in G.
        set (s2 := fun k => if existsb (word_eqb k) (map fst (cd2 cd tl)) then s' k else s k).
        assert (A2 : forall k, In k (map fst (cd2 cd tl)) -> s2 k = s' k). { intros k Hk. unfold s2. apply existsb_word in Hk. rewrite Hk. reflexivity. }
        apply (@extended_over W dd cd HS HN HW HT tl T1 T2 of_q n_neg n_bin n_cmp call coord phys solve right (hr_new r') s2 b sat con); [..|exact H].
        * intros q Hq. replace (map s2 (p_names q)) with (map s (p_names q)); [exact (Hs q Hq)|]. apply map_ext_in. intros k Hk. unfold s2.
          destruct (existsb (word_eqb k) (map fst (cd2 cd tl))) eqn:Ek; [|reflexivity]. apply existsb_word in Ek. rewrite keys2, in_app_iff in Ek. destruct Ek as [Ek|Ek]; [symmetry; apply X1; rewrite boxes_keys; exact Ek|].
          exfalso. apply in_map_iff in Ek. destruct Ek as ([t S] & <- & Ht). cbn [fst] in Hk. destruct (T2 _ _ Ht) as [Hm _].
          apply (@not_made W dd HT t t); [apply in_app_iff; left; apply in_flat_map; eauto|exact Hm|exact (made_under Hm)].
        * intros t S Ht. rewrite A2; [exact (T3 s' X4 _ _ Ht)|]. rewrite keys2. apply in_app_iff. right. apply in_map_iff. exists (t, S). auto.
        * revert G. apply geval_mono; [..|reflexivity]; intros r0 v; rewrite !flat_look; unfold value_of; destruct (dget word_eqb (text r0) dd); auto; destruct (existsb (word_eqb (text r0)) (map fst (cd2 cd tl))) eqn:Ek; try discriminate.
          intros [= <-]. apply existsb_word in Ek. rewrite (A2 _ Ek). reflexivity.
      + injection H as <- <-. unfold vsound in V. destruct (hr_val r') as [q|q|t]; [|destruct V; discriminate|destruct V; discriminate]. cbn in Et. specialize (V Et). injection V as ->. split; [intros _|]; discriminate.
  Qed.
End Whole.
