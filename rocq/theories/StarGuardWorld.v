(** Proofs for StarGuardProps.v: the dictionary of an agent among others. *)
From Coq Require Import Ascii String.
From Verif Require Import Base BaseFacts Dict PyText ResetProofs Guard GuardSpec GuardProofs Sensor Star StarSpec StarProofs StarReset StarResetSpec StarResetProofs StarGuard StarGuardSpec StarGuardProofs.
Set Implicit Arguments.
Open Scope nat_scope.

Lemma before_dot_app a b : ~ In "."%char a -> before_dot (a ++ "."%char :: b) = a.
Proof.
  induction a as [|c a IH]; intros H; [reflexivity|]. cbn. destruct (Ascii.eqb c ".") eqn:E; [apply Ascii.eqb_eq in E; exfalso; apply H; left; exact E|].
  rewrite IH; [reflexivity|]. intros X. apply H. right. exact X.
Qed.
Lemma before_dot_none a : ~ In "."%char a -> before_dot a = a.
Proof.
  induction a as [|c a IH]; intros H; [reflexivity|]. cbn. destruct (Ascii.eqb c ".") eqn:E; [apply Ascii.eqb_eq in E; exfalso; apply H; left; exact E|].
  rewrite IH; [reflexivity|]. intros X. apply H. right. exact X.
Qed.
Lemma after_dot_app a b : ~ In "."%char a -> after_dot (a ++ "."%char :: b) = Some b.
Proof.
  induction a as [|c a IH]; intros H; [reflexivity|]. cbn. destruct (Ascii.eqb c ".") eqn:E; [apply Ascii.eqb_eq in E; exfalso; apply H; left; exact E|].
  apply IH. intros X. apply H. right. exact X.
Qed.
Lemma NoDup_inj {A B} (f : A -> B) l a b : NoDup (map f l) -> In a l -> In b l -> f a = f b -> a = b.
Proof.
  induction l as [|x l IH]; [contradiction|]. cbn. intros N Ha Hb E. inversion N as [|? ? Nx N']; subst.
  destruct Ha as [->|Ha], Hb as [->|Hb]; auto; exfalso; apply Nx; apply in_map_iff; eauto.
Qed.
Lemma NoDup_map_inj {A B} (f : A -> B) l : NoDup l -> (forall a b, In a l -> In b l -> f a = f b -> a = b) -> NoDup (map f l).
Proof.
  induction l as [|x l IH]; intros N H; [constructor|]. inversion N as [|? ? Nx N']; subst. cbn. constructor.
  - intros Hx. apply in_map_iff in Hx. destruct Hx as (y & E & Hy). apply Nx. rewrite <- (H y x); [exact Hy|right; exact Hy|left; reflexivity|exact E].
  - apply IH; [exact N'|]. intros a b Ha Hb. apply H; right; assumption.
Qed.
Lemma dset_all {V} (v : V) ks : forall d, NoDup (map fst d ++ ks) -> fold_left (fun d k => dset word_eqb k v d) ks d = d ++ map (fun k => (k, v)) ks.
Proof.
  induction ks as [|k ks IH]; intros d N; cbn [fold_left map]; [rewrite app_nil_r; reflexivity|].
  pose proof (NoDup_remove_2 _ _ _ N) as Nk. rewrite (@dset_new _ _ v _ (fun H => Nk (proj2 (in_app_iff _ _ _) (or_introl H)))).
  rewrite IH; [rewrite <- app_assoc; reflexivity|]. rewrite map_app. cbn [map fst]. rewrite <- app_assoc. exact N.
Qed.
Lemma var_names_under (cd : sdict) : NoDup (map under (map fst cd)) -> var_names cd = map under (map fst cd).
Proof.
  intros N. unfold var_names.
  assert (E : forall (l : list word) (d : dict word unit), fold_left (fun d k => dset word_eqb (under k) tt d) l d = fold_left (fun d k => dset word_eqb k tt d) (map under l) d).
  { induction l as [|k l IH]; intros d; [reflexivity|]. cbn. apply IH. }
  rewrite E, dset_all by exact N. rewrite map_app, map_map. cbn. apply map_id.
Qed.
Lemma filter_map_comm {A B} (f : A -> B) (p : B -> bool) l : filter p (map f l) = map f (filter (fun a => p (f a)) l).
Proof. induction l as [|a l IH]; [reflexivity|]. cbn. destruct (p (f a)); cbn; rewrite IH; reflexivity. Qed.
Lemma prefix_self p s : prefix_of p (p ++ s) = true.
Proof. induction p as [|c p IH]; [reflexivity|]. cbn. rewrite Ascii.eqb_refl. exact IH. Qed.

Lemma map_fst_combine {A B} (l : list A) : forall (m : list B), length l = length m -> map fst (combine l m) = l.
Proof. induction l as [|a l IH]; intros [|b m] H; try discriminate; [reflexivity|]. cbn. rewrite IH by (injection H; auto). reflexivity. Qed.

Section World.
  Variable W : world.
  Variable dd : dict word word.
  Variable cd : sdict.
  Hypothesis HS : sensed W cd.
  Hypothesis HN : names_fit W dd.
  Hypothesis HW : shapes W.
  Notation ks := (map fst cd).

  Lemma oth_nodot : ~ In "."%char (oth W).
  Proof. apply (nf_dots HN). left. reflexivity. Qed.
  Lemma other_nodot i : ~ In "."%char (other_agent W i).
  Proof. unfold other_agent. rewrite !in_app_iff. intros [H|[H|H]]; [exact (oth_nodot H)|cbn in H; intuition discriminate|exact (dec_nodot i H)]. Qed.
  Lemma ego_nodot : ~ In "."%char (w "ego").
  Proof. cbn. intuition discriminate. Qed.
  Lemma item_split i x : item_name (oth W) i x = other_agent W i ++ "."%char :: x.
  Proof. unfold item_name, other_agent. rewrite <- !app_assoc. reflexivity. Qed.
  Lemma parts_in p : In p (parts W) -> p = mk_part (w "ego") (ego_star W) (map ego_name (ego_vars W)) \/
    exists i S, In (i, S) (combine (seq 0 (length (oth_stars W))) (oth_stars W)) /\ p = mk_part (other_agent W i) S (map (item_name (oth W) i) (oth_vars W)).
  Proof.
    intros [<-|H]; [left; reflexivity|]. right. apply in_map_iff in H. destruct H as ([i S] & <- & H). exists i, S. auto.
  Qed.
  Lemma other_stars i S : In (i, S) (combine (seq 0 (length (oth_stars W))) (oth_stars W)) -> oth_stars W <> [].
  Proof. intros H E. rewrite E in H. destruct H. Qed.

  Lemma w_agent p k : In p (parts W) -> In k (p_names p) -> before_dot k = p_agent p.
  Proof.
    intros Hp Hk. destruct (parts_in Hp) as [->|(i & S & _ & ->)]; cbn [p_names p_agent] in *; apply in_map_iff in Hk; destruct Hk as (x & <- & Hx).
    - exact (before_dot_app _ _ ego_nodot).
    - rewrite item_split. apply before_dot_app. apply other_nodot.
  Qed.
  Lemma w_dotted p k : In p (parts W) -> In k (p_names p) -> dotted k.
  Proof.
    intros Hp Hk. destruct (parts_in Hp) as [->|(i & S & _ & ->)]; cbn [p_names p_agent] in *; apply in_map_iff in Hk; destruct Hk as (x & <- & Hx).
    - exists (w "ego"), x. split; [reflexivity|]. split; [exact ego_nodot|]. apply (nf_dots HN). right. apply in_app_iff. auto.
    - exists (other_agent W i), x. split; [apply item_split|]. split; [apply other_nodot|]. apply (nf_dots HN). right. apply in_app_iff. auto.
  Qed.
  Lemma list_dotted k : In k (list_names W) -> dotted k /\ before_dot k = oth W.
  Proof.
    intros H. apply in_map_iff in H. destruct H as (x & <- & Hx). split.
    - exists (oth W), x. split; [reflexivity|]. split; [exact oth_nodot|]. apply (nf_dots HN). right. apply in_app_iff. auto.
    - exact (before_dot_app _ _ oth_nodot).
  Qed.
  Lemma many_list k l : In (k, Many l) cd -> In k (list_names W).
  Proof.
    intros H. assert (A : In k (map fst (filter (fun kv => match snd kv with Many _ => true | One _ => false end) cd))).
    { apply in_map_iff. exists (k, Many l). split; [reflexivity|]. apply filter_In. auto. }
    rewrite (se_list HS) in A. destruct (oth_stars W); [destruct A|exact A].
  Qed.
  Lemma key_cases k : In k ks -> In k (names_of W) \/ In k (list_names W).
  Proof.
    intros H. apply in_map_iff in H. destruct H as ((k' & [S|l]) & E & H); cbn in E; subst k'.
    - left. destruct (se_one HS _ _ H) as (p & Hp & Hk & _). apply in_flat_map. eauto.
    - right. exact (many_list _ _ H).
  Qed.
  Lemma w_inj2 a b : In a (names_of W ++ list_names W ++ map fst dd) -> In b (names_of W ++ list_names W ++ map fst dd) -> under a = under b -> a = b.
  Proof. apply NoDup_inj. exact (nf_nodup HN). Qed.
  Lemma key_all k : In k ks -> In k (names_of W ++ list_names W ++ map fst dd).
  Proof. intros H. rewrite !in_app_iff. destruct (key_cases _ H); auto. Qed.

  Lemma other_not_ego i : other_agent W i <> w "ego".
  Proof.
    intros E. assert (H : In "_"%char (w "ego")). { rewrite <- E. unfold other_agent. rewrite !in_app_iff. right. left. left. reflexivity. }
    cbn in H. intuition discriminate.
  Qed.
  Lemma other_inj i j : other_agent W i = other_agent W j -> i = j.
  Proof. unfold other_agent. intros E. apply app_inv_head in E. apply app_inv_head in E. exact (dec_inj _ _ E). Qed.
  Lemma w_agents : NoDup (map p_agent (parts W)).
  Proof.
    unfold parts. cbn [map p_agent]. rewrite map_map. cbn [p_agent]. constructor.
    - intros H. apply in_map_iff in H. destruct H as ([i S] & E & _). exact (other_not_ego i E).
    - rewrite <- (map_map fst (other_agent W)). apply NoDup_map_inj; [|intros a b _ _; apply other_inj].
      rewrite map_fst_combine by (rewrite seq_length; reflexivity). apply seq_NoDup.
  Qed.

  Lemma w_many k l : In (k, Many l) cd -> ~ In (before_dot k) (map p_agent (parts W)).
  Proof.
    intros H Hin. pose proof (many_list _ _ H) as Hl. rewrite (proj2 (list_dotted _ Hl)) in Hin. apply in_map_iff in Hin. destruct Hin as (p & E & Hp).
    destruct (parts_in Hp) as [->|(i & S & _ & ->)]; cbn [p_agent] in E.
    - pose proof (nf_ego HN (under k)) as N. rewrite map_app, in_app_iff in N. specialize (N (or_intror (in_map under _ _ Hl))).
      apply in_map_iff in Hl. destruct Hl as (x & <- & _). rewrite <- E in N. discriminate.
    - unfold other_agent in E. apply (f_equal (@length _)) in E. rewrite !app_length in E. cbn in E. lia.
  Qed.

  Lemma keys_nodup : NoDup (map under ks).
  Proof. apply NoDup_map_inj; [exact (se_nodup HS)|]. intros a b Ha Hb. apply w_inj2; apply key_all; assumption. Qed.

  Lemma ego_names_state : state_names cd (w "ego") = Some (map under (map ego_name (ego_vars W))).
  Proof.
    unfold state_names. pose proof (@nf_tmp _ _ HN (mk_part (w "ego") (ego_star W) (map ego_name (ego_vars W))) (or_introl eq_refl)) as T. cbn [p_agent] in T. rewrite T.
    change (negb (existsb (Ascii.eqb "_"%char) (w "ego"))) with true. cbv iota. f_equal. rewrite (var_names_under _ keys_nodup), filter_map_comm. f_equal.
    rewrite <- (se_ego HS). apply filter_ext_in. intros k Hk. destruct (existsb (word_eqb k) (map ego_name (ego_vars W))) eqn:E.
    - apply existsb_word in E. apply in_map_iff in E. destruct E as (x & <- & _). reflexivity.
    - apply (nf_ego HN). apply in_map. rewrite in_app_iff. destruct (key_cases _ Hk) as [H|H]; [|right; exact H]. left.
      unfold names_of, parts in H. cbn [flat_map p_names] in H. apply in_app_iff in H. destruct H as [H|H]; [|exact H]. apply existsb_word in H. congruence.
  Qed.
  Lemma other_names_state i : oth_stars W <> [] -> occurs (w "tmp_variable") (other_agent W i) = false ->
    state_names cd (other_agent W i) = Some (map under (map (item_name (oth W) i) (oth_vars W))).
  Proof.
    intros Hne T. unfold state_names. rewrite T.
    assert (E : existsb (Ascii.eqb "_"%char) (other_agent W i) = true).
    { apply existsb_exists. exists "_"%char. split; [|apply Ascii.eqb_refl]. unfold other_agent. rewrite !in_app_iff. right. left. left. reflexivity. }
    rewrite E. cbn [negb]. pose proof (se_list HS) as L. destruct (oth_stars W) as [|S0 SS]; [congruence|]. clear Hne. revert L. unfold list_names.
    assert (D : forall x, In x (oth_vars W) -> ~ In "."%char x) by (intros x Hx; apply (nf_dots HN); right; apply in_app_iff; auto).
    revert D. generalize (oth_vars W) as xs. generalize (filter (fun kv : word * entry star => match snd kv with Many _ => true | One _ => false end) cd) as kvs.
    induction kvs as [|[k v] kvs IH]; intros [|x xs] D L; try discriminate; [reflexivity|]. cbn [map fst] in L. injection L as -> L. cbn [mapM fst].
    change (oth W ++ w "." ++ x) with (oth W ++ "."%char :: x). rewrite (after_dot_app _ _ oth_nodot). cbn [obind]. rewrite (before_dot_none _ (D x (or_introl eq_refl))).
    rewrite (IH xs (fun y Hy => D y (or_intror Hy)) L). cbn [obind map]. repeat f_equal. rewrite item_split, under_app. rewrite (@under_nodot _ (@other_nodot i)).
    change (under ("."%char :: x)) with ("_"%char :: under x). rewrite (@under_nodot _ (D x (or_introl eq_refl))). reflexivity.
  Qed.
  Lemma w_state p : In p (parts W) -> state_names cd (p_agent p) = Some (map under (p_names p)).
  Proof.
    intros Hp. pose proof (@nf_tmp _ _ HN p Hp) as T. destruct (parts_in Hp) as [->|(i & S & Hi & ->)]; cbn [p_names p_agent] in *; [exact ego_names_state|].
    exact (@other_names_state i (other_stars _ _ Hi) T).
  Qed.

  (** The facts above, for the checks. *)
  Section Check.
    Variable of_q : Q -> Q.
    Variable n_neg : Q -> Q.
    Variable n_bin : binop -> Q -> Q -> Q.
    Variable n_cmp : cmpop -> Q -> Q -> bool.
    Hypothesis agree : numbers_agree of_q n_neg n_cmp.
    Variable call : word -> list dval -> option dval.
    Variable coord : bool -> word -> Q -> Q -> option Q.
    Variable phys : word -> word.
    Variable solve : list word -> form -> list lin -> verdict.
    Hypothesis right : star_solver_right of_q n_neg n_bin n_cmp solve.
    Notation value E g := (geval of_q n_neg n_bin n_cmp call coord phys E g).

    Lemma w_k6 a b : In a (flat_map p_names (parts W)) -> In b (flat_map p_names (parts W)) -> under a = under b -> a = b.
    Proof. intros Ha Hb. apply w_inj2; apply in_app_iff; left; assumption. Qed.
    Lemma w_k6k k : In k ks -> dotted k.
    Proof.
      intros H. destruct (key_cases _ H) as [H1|H1]; [|apply (list_dotted _ H1)]. apply in_flat_map in H1. destruct H1 as (p & Hp & Hk). exact (@w_dotted p k Hp Hk).
    Qed.
    Lemma w_k6f k : In k ks -> few_dots k /\ k <> [].
    Proof. intros H. apply w_k6k in H. split; [left; exact H|]. intros ->. apply dotted_dot in H. destruct H. Qed.
    Lemma w_k6x k t : In k ks -> In t (map fst dd) -> under k <> under t.
    Proof.
      intros Hk Ht E. assert (k = t) as ->. { apply w_inj2; [apply key_all; exact Hk|rewrite !in_app_iff; auto|exact E]. }
      pose proof (nf_nodup HN) as N. rewrite app_assoc, map_app in N. assert (H1 : In (under t) (map under (names_of W ++ list_names W))). { apply in_map, in_app_iff, key_cases. exact Hk. }
      pose proof (in_map under _ _ Ht) as H2. revert N H1 H2. generalize (map under (names_of W ++ list_names W)) as l1. generalize (map under (map fst dd)) as l2. generalize (under t) as x. clear.
      intros x l2 l1. induction l1 as [|y l1 IH]; cbn; intros N H1 H2; [contradiction|]. inversion N as [|? ? Ny N']; subst. destruct H1 as [->|H1]; [apply Ny, in_app_iff; auto|auto].
    Qed.
    Lemma w_k7 p j : In p (parts W) -> ~ In (alpha_name (p_agent p) j) (map under (flat_map p_names (parts W))).
    Proof. apply (nf_alpha HN). Qed.

    Lemma world_over g s b sat con : lane_free g = true -> in_world W s -> value (flat dd ks s) g = Some (VB Q b) -> star_check call dd phys solve cd g = Some (sat, con) ->
      ((forall k f l, solve k f l <> Unknown) -> b = true -> sat = true) /\ (con = true -> b = true).
    Proof.
      exact (@star_over of_q n_neg n_bin n_cmp agree call coord phys dd cd solve (parts W) (se_one HS) w_many w_agent w_state w_agents HW w_k6 w_k6f (nf_dd HN) w_k6x w_k7 right g s b sat con w_k6k).
    Qed.
    Lemma world_witness g sat con : lane_free g = true -> (exists s, in_world W s) -> (forall s, in_world W s -> exists b, value (flat dd ks s) g = Some (VB Q b)) ->
      star_check call dd phys solve cd g = Some (sat, con) ->
      (sat = true -> exists s, in_world W s /\ value (flat dd ks s) g = Some (VB Q true)) /\
      ((forall k f l, solve k f l <> Unknown) -> con = false -> exists s, in_world W s /\ value (flat dd ks s) g = Some (VB Q false)).
    Proof.
      exact (@star_witness of_q n_neg n_bin n_cmp agree call coord phys dd cd solve (parts W) (se_one HS) w_many w_agent w_state w_agents HW w_k6 w_k6f (nf_dd HN) w_k6x w_k7 right g sat con w_k6k).
    Qed.

    (** The state as the decision logic sees it. *)
    Variable len : word -> option nat.
    Notation state s := (agents dd (one_names cd) len s).
    Lemma to_keys g g' s b : unroll len g = Some g' -> value (state s) g = Some (VB Q b) -> value (flat dd ks s) g' = Some (VB Q b).
    Proof.
      intros Eu Hb. destruct (unroll_shape _ _ Eu) as [Hn _].
      pose proof (unroll_sound of_q n_neg n_bin n_cmp call coord phys (agents_named dd (one_names cd) len s) _ Eu Hb) as H.
      rewrite geval_flat in H by exact Hn. revert H. apply geval_mono; [..|reflexivity]; intros r v; rewrite !flat_look; unfold value_of; destruct (dget word_eqb (text r) dd); auto.
      - destruct (existsb (word_eqb (text r)) (one_names cd)) eqn:Ek; [|discriminate]. intros [= <-]. apply existsb_word in Ek.
        replace (existsb (word_eqb (text r)) ks) with true; [reflexivity|]. symmetry. apply existsb_word. unfold one_names in Ek. apply in_map_iff in Ek. destruct Ek as (kv & E & H).
        apply filter_In in H. apply in_map_iff. exists kv. tauto.
      - destruct (existsb (word_eqb (text r)) ks); discriminate.
    Qed.
  End Check.
End World.
