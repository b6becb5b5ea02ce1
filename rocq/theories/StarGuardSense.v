(** Proofs for StarGuardProps.v: sensing stars. *)
From Coq Require Import Ascii String.
From Verif Require Import Base BaseFacts Dict PyText ResetProofs Guard GuardSpec GuardProofs Sensor SensorSpec SensorProofs SensorProps SimpleEnv SimpleEnvSpec SimpleEnvProofs
  Star StarSpec StarReset StarResetSpec StarGuard StarGuardSpec StarGuardProofs StarGuardWorld.
Set Implicit Arguments.
Open Scope nat_scope.

Lemma filter_self {A} (p : A -> bool) l : (forall x, In x l -> p x = true) -> filter p l = l.
Proof. induction l as [|x l IH]; intros H; [reflexivity|]. cbn. rewrite (H x (or_introl eq_refl)). f_equal. apply IH. intros y Hy. apply H. right. exact Hy. Qed.

Lemma fkeys_filter {V} t l (d : dict word V) : ~ In "."%char t -> SimpleEnvProofs.dotted d ->
  filter (fun k => existsb (word_eqb k) (map (key t) l)) (map fst d) = map (key t) (filter (fun x => existsb (word_eqb x) l) (fkeys t d)).
Proof.
  intros Ht Hd. unfold fkeys. induction d as [|[k v] d IH]; [reflexivity|]. cbn [map fst flat_map filter].
  assert (Hd' : SimpleEnvProofs.dotted d) by (intros k' Hk'; apply Hd; right; exact Hk'). specialize (IH Hd').
  destruct (Hd k (or_introl eq_refl)) as (t' & x' & A & B & ->). rewrite (split_key _ _ A B).
  destruct (word_eqb t' t) eqn:Et.
  - apply word_eqb_eq in Et. subst t'. cbn [app filter].
    replace (existsb (word_eqb (key t x')) (map (key t) l)) with (existsb (word_eqb x') l).
    { destruct (existsb (word_eqb x') l); cbn [map]; rewrite IH; reflexivity. }
    destruct (existsb (word_eqb x') l) eqn:E.
    + apply existsb_word in E. symmetry. apply existsb_word. apply in_map. exact E.
    + symmetry. apply not_true_is_false. intros H. apply existsb_word in H. apply in_map_iff in H. destruct H as (y & Ey & Hy). apply key_inj_attr in Ey. subst y. apply existsb_word in Hy. congruence.
  - cbn [app]. replace (existsb (word_eqb (key t' x')) (map (key t) l)) with false; [exact IH|]. symmetry. apply not_true_is_false. intros H. apply existsb_word in H.
    apply in_map_iff in H. destruct H as (y & Ey & Hy). apply key_inj in Ey; [|exact Ht|exact A]. destruct Ey as [-> _]. rewrite word_eqb_same in Et. discriminate.
Qed.
Lemma fkeys_many {V} t (d : dict word (entry V)) : ~ In "."%char t -> SimpleEnvProofs.dotted d ->
  (forall t' x e, ~ In "."%char t' -> In (key t' x, e) d -> match e with Many _ => t' = t | One _ => t' <> t end) ->
  map fst (filter (fun kv => match snd kv with Many _ => true | One _ => false end) d) = map (key t) (fkeys t d).
Proof.
  intros Ht Hd H. unfold fkeys. induction d as [|[k e] d IH]; [reflexivity|]. cbn [map fst snd flat_map filter].
  assert (Hd' : SimpleEnvProofs.dotted d) by (intros k' Hk'; apply Hd; right; exact Hk').
  specialize (IH Hd' (fun t' x e' Nt Hin => H t' x e' Nt (or_intror Hin))).
  destruct (Hd k (or_introl eq_refl)) as (t' & x' & A & B & ->). rewrite (split_key _ _ A B). pose proof (H t' x' e A (or_introl eq_refl)) as He.
  destruct e as [v|l].
  - replace (word_eqb t' t) with false; [exact IH|]. symmetry. apply not_true_is_false. intros E. apply word_eqb_eq in E. contradiction.
  - subst t'. rewrite word_eqb_same. cbn [app map fst]. rewrite IH. reflexivity.
Qed.

(** ** The updater *)
Section Update.
  Variable W : world.
  Hypothesis oth_nd : ~ In "."%char (oth W).
  Hypothesis oth_ne : oth W <> w "ego".
  Hypothesis ovars_nd : forall x, In x (oth_vars W) -> ~ In "."%char x.

  Definition J (cd : sdict) : Prop :=
    sensed W cd /\ (oth_stars W <> [] -> forall x, In x (oth_vars W) -> dget word_eqb (key (oth W) x) cd = Some (Many (oth_stars W))).
  Definition upd_ok (upd : list (word * list (word * nat))) : Prop :=
    forall v us, In (v, us) upd -> exists x, In x (oth_vars W) /\ v = key (oth W) x /\
      forall u i, In (u, i) us -> u = item_name (oth W) i x /\ i < length (oth_stars W).

  Lemma oth_i_nd i : ~ In "."%char (other_agent W i).
  Proof. unfold other_agent. rewrite !in_app_iff. intros [H|[H|H]]; [exact (oth_nd H)|cbn in H; intuition discriminate|exact (dec_nodot i H)]. Qed.
  Lemma item_key i x : item_name (oth W) i x = key (other_agent W i) x.
  Proof. unfold item_name, other_agent, key. rewrite <- !app_assoc. reflexivity. Qed.
  Lemma item_not_ego i x y : item_name (oth W) i x <> ego_name y.
  Proof.
    rewrite item_key. change (ego_name y) with (key (w "ego") y). intros E. apply key_inj in E; [|apply oth_i_nd|cbn; intuition discriminate]. exact (other_not_ego W i (proj1 E)).
  Qed.
  Lemma item_not_list i x y : item_name (oth W) i x <> key (oth W) y.
  Proof.
    rewrite item_key. intros E. apply key_inj in E; [|apply oth_i_nd|exact oth_nd]. destruct E as [E _]. apply (f_equal (@length _)) in E. unfold other_agent in E. rewrite !app_length in E. cbn in E. lia.
  Qed.
  Lemma dset_filter {V} (p : word -> bool) k (v : V) d : p k = false -> filter p (map fst (dset word_eqb k v d)) = filter p (map fst d).
  Proof.
    intros H. rewrite dset_keys. unfold add_name. destruct (memb k (map fst d)); [reflexivity|]. rewrite filter_app. cbn. rewrite H. apply app_nil_r.
  Qed.
  Lemma dset_many k S (d : sdict) : (forall l, ~ In (k, Many l) d) ->
    map fst (filter (fun kv => match snd kv with Many _ => true | One _ => false end) (dset word_eqb k (One S) d)) =
    map fst (filter (fun kv => match snd kv with Many _ => true | One _ => false end) d).
  Proof.
    intros H. unfold dset. induction d as [|[k' e] d IH]; [reflexivity|]. cbn [dalter]. destruct (word_eqb k k') eqn:E.
    - apply word_eqb_eq in E. subst k'. cbn [filter snd]. destruct e as [s0|l]; [reflexivity|]. exfalso. exact (H l (or_introl eq_refl)).
    - cbn [filter snd]. specialize (IH (fun l Hl => H l (or_intror Hl))). destruct e; cbn [map fst]; [exact IH|f_equal; exact IH].
  Qed.
  Lemma dset_In {V} k (v : V) d k' v' : In (k', v') (dset word_eqb k v d) -> (k' = k /\ v' = v) \/ In (k', v') d.
  Proof.
    unfold dset. induction d as [|[k0 v0] d IH]; cbn [dalter]; [intros [[= <- <-]|[]]; auto|]. destruct (word_eqb k k0) eqn:E.
    - apply word_eqb_eq in E. subst k0. intros [[= <- <-]|H]; [auto|right; right; exact H].
    - intros [[= <- <-]|H]; [right; left; reflexivity|]. destruct (IH H) as [X|X]; [auto|right; right; exact X].
  Qed.

  Lemma J_step cd x i S : J cd -> In x (oth_vars W) -> nth_error (oth_stars W) i = Some S -> J (dset word_eqb (item_name (oth W) i x) (One S) cd).
  Proof.
    intros [HS HL] Hx Hi. assert (Hm : forall l, ~ In (item_name (oth W) i x, Many l) cd).
    { intros l H. assert (A : In (item_name (oth W) i x) (map fst (filter (fun kv => match snd kv with Many _ => true | One _ => false end) cd))).
      { apply in_map_iff. exists (item_name (oth W) i x, Many l). split; [reflexivity|]. apply filter_In. auto. }
      rewrite (se_list HS) in A. destruct (oth_stars W); [destruct A|]. apply in_map_iff in A. destruct A as (y & E & _). exact (@item_not_list i x y (eq_sym E)). }
    split.
    - constructor.
      + apply dalter_nodup; [exact word_eqb_eq|exact (se_nodup HS)].
      + rewrite dset_filter; [exact (se_ego HS)|]. apply not_true_is_false. intros E. apply existsb_word in E. apply in_map_iff in E. destruct E as (y & E & _). exact (@item_not_ego i x y (eq_sym E)).
      + rewrite dset_many by exact Hm. exact (se_list HS).
      + intros k S' H. apply dset_In in H. destruct H as [[-> [= ->]]|H]; [|exact (se_one HS _ _ H)].
        exists (mk_part (other_agent W i) S (map (item_name (oth W) i) (oth_vars W))). split; [|split; [apply in_map; exact Hx|reflexivity]].
        right. apply in_map_iff. exists (i, S). split; [reflexivity|]. clear -Hi.
        assert (G : forall l k j, nth_error l j = Some S -> In (k + j, S) (combine (seq k (length l)) l)); [|exact (G _ 0 i Hi)].
        induction l as [|s l IH]; intros k [|j] H; try discriminate; cbn in *; [left; injection H as ->; f_equal; lia|right]. replace (k + Datatypes.S j) with (Datatypes.S k + j) by lia. apply IH. exact H.
    - intros Hne y Hy. unfold dset. rewrite dget_alter_other; [exact (HL Hne y Hy)|exact word_eqb_eq|]. apply item_not_list.
  Qed.
  Lemma one_step cd k S k' : (forall l, ~ In (k, Many l) cd) -> In k' (one_names (dset word_eqb k (One S) cd)) <-> k' = k \/ In k' (one_names cd).
  Proof.
    intros Hm. unfold one_names. rewrite !in_map_iff. split.
    - intros ([k0 e] & <- & H). apply filter_In in H. destruct H as [H He]. cbn [fst snd] in *. apply dset_In in H. destruct H as [[-> _]|H]; [auto|]. right. exists (k0, e). split; [reflexivity|]. apply filter_In. auto.
    - intros [->|([k0 e] & <- & H)].
      + exists (k, One S). split; [reflexivity|]. apply filter_In. split; [|reflexivity]. apply dget_In with (eqb := word_eqb); [exact word_eqb_eq|]. unfold dset. rewrite dget_alter_same by exact word_eqb_eq. reflexivity.
      + apply filter_In in H. destruct H as [H He]. cbn [fst snd] in *. destruct e as [s|]; [|discriminate]. destruct (word_eqb k k0) eqn:E.
        * apply word_eqb_eq in E. subst k0. exists (k, One S). split; [reflexivity|]. apply filter_In. split; [|reflexivity]. apply dget_In with (eqb := word_eqb); [exact word_eqb_eq|]. unfold dset. rewrite dget_alter_same by exact word_eqb_eq. reflexivity.
        * exists (k0, One s). split; [reflexivity|]. apply filter_In. split; [|reflexivity]. clear -H E. unfold dset. induction cd as [|[k1 e1] cd IH]; [destruct H|]. cbn [dalter]. destruct (word_eqb k k1) eqn:E1.
          -- destruct H as [[= -> ->]|H]; [congruence|right; exact H].
          -- destruct H as [[= -> ->]|H]; [left; reflexivity|right; exact (IH H)].
  Qed.

  Lemma update_ok upd : upd_ok upd -> forall cd, J cd -> exists cd', update_stars cd upd = Some cd' /\ J cd' /\
    (forall k, In k (one_names cd) -> In k (one_names cd')) /\ forall v us u i, In (v, us) upd -> In (u, i) us -> In u (one_names cd').
  Proof.
    unfold update_stars. induction upd as [|[v us] upd IH]; intros Hu cd HJ; [exists cd; cbn; split; [reflexivity|]; split; [exact HJ|]; split; [auto|contradiction]|].
    cbn [fold_opt fst snd]. destruct (Hu v us (or_introl eq_refl)) as (x & Hx & -> & Hus).
    assert (A : exists cd1, fold_opt (fun cd ui => match dget word_eqb (key (oth W) x) cd with Some (Many l) => do s <- nth_error l (snd ui); Some (dset word_eqb (fst ui) (One s) cd) | _ => None end) us cd = Some cd1 /\
               J cd1 /\ (forall k, In k (one_names cd) -> In k (one_names cd1)) /\ forall u i, In (u, i) us -> In u (one_names cd1)).
    { clear IH Hu. revert cd HJ Hus. induction us as [|[u i] us IHu]; intros cd HJ Hus; [exists cd; cbn; split; [reflexivity|]; split; [exact HJ|]; split; [auto|contradiction]|].
      destruct (Hus u i (or_introl eq_refl)) as [-> Hi]. cbn [fold_opt fst snd].
      assert (Hne : oth_stars W <> []) by (destruct (oth_stars W); [cbn in Hi; lia|discriminate]).
      rewrite (proj2 HJ Hne x Hx). destruct (nth_error (oth_stars W) i) as [S|] eqn:ES; [|apply nth_error_None in ES; lia]. cbn [obind].
      assert (Hm : forall l, ~ In (item_name (oth W) i x, Many l) cd).
      { intros l H. assert (B : In (item_name (oth W) i x) (map fst (filter (fun kv => match snd kv with Many _ => true | One _ => false end) cd))).
        { apply in_map_iff. exists (item_name (oth W) i x, Many l). split; [reflexivity|]. apply filter_In. auto. }
        rewrite (se_list (proj1 HJ)) in B. destruct (oth_stars W); [destruct B|]. apply in_map_iff in B. destruct B as (y & E & _). exact (@item_not_list i x y (eq_sym E)). }
      destruct (IHu _ (@J_step cd x i S HJ Hx ES)) as (cd1 & E1 & J1 & I1 & I2); [intros u' i' H'; apply Hus; right; exact H'|].
      exists cd1. split; [exact E1|]. split; [exact J1|]. split.
      - intros k Hk. apply I1. apply one_step; [exact Hm|auto].
      - intros u' i' [[= <- <-]|H']; [|exact (I2 _ _ H')]. apply I1. apply one_step; [exact Hm|auto]. }
    destruct A as (cd1 & E1 & J1 & I1 & I2). rewrite E1. cbn [obind].
    destruct (IH (fun v' us' H' => Hu v' us' (or_intror H')) cd1 J1) as (cd2 & E2 & J2 & I3 & I4). exists cd2. split; [exact E2|]. split; [exact J2|]. split; [auto|].
    intros v' us' u i [[= <- <-]|H'] Hin; [apply I3; exact (I2 _ _ Hin)|exact (I4 _ _ _ _ H' Hin)].
  Qed.

  (** New names come last. *)
  Lemma one_set cd k S : (forall l, ~ In (k, Many l) cd) -> exists rest, one_names (dset word_eqb k (One S) cd) = one_names cd ++ rest.
  Proof.
    intros Hm. unfold dset, one_names. induction cd as [|[k' e] cd IH]; [exists [k]; reflexivity|]. cbn [dalter]. destruct (word_eqb k k') eqn:E.
    - apply word_eqb_eq in E. subst k'. destruct e as [S'|l]; [|exfalso; exact (Hm l (or_introl eq_refl))]. exists []. cbn. rewrite app_nil_r. reflexivity.
    - destruct IH as (rest & IH); [intros l H; exact (Hm l (or_intror H))|]. exists rest. destruct e; cbn [filter snd map fst app]; [f_equal|]; exact IH.
  Qed.
  Lemma update_grows upd : upd_ok upd -> forall cd cd', J cd -> update_stars cd upd = Some cd' -> exists rest, one_names cd' = one_names cd ++ rest.
  Proof.
    unfold update_stars. induction upd as [|[v us] upd IH]; intros Hu cd cd' HJ H; [injection H as <-; exists []; rewrite app_nil_r; reflexivity|].
    cbn [fold_opt fst snd] in H. destruct (Hu v us (or_introl eq_refl)) as (x & Hx & -> & Hus).
    destruct (fold_opt _ us cd) as [cd1|] eqn:E1; [|discriminate]. cbn [obind] in H.
    assert (A : J cd1 /\ exists rest, one_names cd1 = one_names cd ++ rest).
    { clear IH Hu H. revert cd HJ Hus E1. induction us as [|[u i] us IHu]; intros cd HJ Hus E1; [injection E1 as <-; split; [exact HJ|]; exists []; rewrite app_nil_r; reflexivity|].
      destruct (Hus u i (or_introl eq_refl)) as [-> Hi]. cbn [fold_opt fst snd] in E1.
      assert (Hne : oth_stars W <> []) by (destruct (oth_stars W); [cbn in Hi; lia|discriminate]).
      rewrite (proj2 HJ Hne x Hx) in E1. destruct (nth_error (oth_stars W) i) as [S|] eqn:ES; [|apply nth_error_None in ES; lia]. cbn [obind] in E1.
      assert (Hm : forall l, ~ In (item_name (oth W) i x, Many l) cd).
      { intros l H. assert (B : In (item_name (oth W) i x) (map fst (filter (fun kv => match snd kv with Many _ => true | One _ => false end) cd))).
        { apply in_map_iff. exists (item_name (oth W) i x, Many l). split; [reflexivity|]. apply filter_In. auto. }
        rewrite (se_list (proj1 HJ)) in B. destruct (oth_stars W); [destruct B|]. apply in_map_iff in B. destruct B as (y & E & _). exact (@item_not_list i x y (eq_sym E)). }
      destruct (IHu _ (@J_step cd x i S HJ Hx ES)) as (J1 & rest & I1); [intros u' i' H'; apply Hus; right; exact H'|exact E1|]. split; [exact J1|].
      destruct (@one_set cd _ S Hm) as (r2 & E2). exists (r2 ++ rest). rewrite I1, E2, app_assoc. reflexivity. }
    destruct A as (J1 & rest & I1). destruct (IH (fun v' us' H' => Hu v' us' (or_intror H')) cd1 cd' J1 H) as (r2 & E2). exists (rest ++ r2). rewrite E2, I1, app_assoc. reflexivity.
  Qed.

  (** What unrolling a guard over the list writes. *)
  Variable cd : sdict.
  Hypothesis HJ : J cd.
  Variable len : word -> option nat.
  Hypothesis len_ok : forall iter n, len iter = Some n -> iter = oth W /\ n = length (oth_stars W).

  Lemma events_len e iter a i : In (iter, a, i) (events len e) -> iter = oth W /\ i < length (oth_stars W).
  Proof.
    induction e using gex_ind'; cbn [events]; try contradiction; auto.
    - rewrite in_app_iff. intros [X|X]; auto.
    - rewrite in_app_iff. intros [X|X]; auto.
    - intros X. apply in_flat_map in X. destruct X as (e & He & X). rewrite Forall_forall in H. exact (H e He X).
    - destruct (len i0) as [n|] eqn:El; [|contradiction]. intros X. apply in_flat_map in X. destruct X as (j & Hj & X). apply in_flat_map in X. destruct X as ([o b'|o] & _ & X); [|destruct X].
      destruct (word_eqb o x); [|destruct X]. destruct X as [[= <- <- <-]|[]]. destruct (@len_ok _ _ El) as [-> ->]. split; [reflexivity|]. apply in_seq in Hj. lia.
  Qed.
  Lemma events_read e a i : reads_item e (oth W) a -> len (oth W) <> None -> i < length (oth_stars W) -> In (oth W, a, i) (events len e).
  Proof.
    intros H Hl Hi. induction e using gex_ind'; cbn [reads_item events] in *; try contradiction; auto.
    - apply in_app_iff. destruct H; auto.
    - apply in_app_iff. destruct H; auto.
    - apply in_flat_map. induction es as [|e es IH]; [destruct H|]. inversion H0 as [|? ? He Hes]; subst. destruct H as [H|H]; [exists e; split; [left; reflexivity|exact (He H)]|].
      destruct (IH H Hes) as (e' & Hin & X). exists e'. split; [right; exact Hin|exact X].
    - destruct H as [-> H]. destruct (len (oth W)) as [n|] eqn:El; [|congruence]. destruct (@len_ok _ _ El) as [_ ->].
      apply in_flat_map. exists i. split; [apply in_seq; lia|]. apply in_flat_map. exists (RAttr x a). split; [exact H|]. cbn beta iota. rewrite word_eqb_same. left. reflexivity.
  Qed.

  Definition ev_ok (ev : word * word * nat) : Prop := fst (fst ev) = oth W /\ snd ev < length (oth_stars W).
  Lemma list_key a : dmem word_eqb (key (oth W) a) cd = true -> In a (oth_vars W).
  Proof.
    intros H. apply dmem_key in H. apply in_map_iff in H. destruct H as ([k e] & E & H). cbn in E. subst k. destruct e as [S|l].
    - exfalso. destruct (se_one (proj1 HJ) _ _ H) as (p & Hp & Hk & _). destruct (@parts_in W _ Hp) as [->|(i & S' & _ & ->)]; cbn [p_names] in Hk; apply in_map_iff in Hk; destruct Hk as (y & E & _).
      + change (key (w "ego") y = key (oth W) a) in E. apply key_inj in E; [|cbn; intuition discriminate|exact oth_nd]. apply oth_ne. symmetry. exact (proj1 E).
      + exact (@item_not_list i y a E).
    - assert (B : In (key (oth W) a) (map fst (filter (fun kv => match snd kv with Many _ => true | One _ => false end) cd))).
      { apply in_map_iff. exists (key (oth W) a, Many l). split; [reflexivity|]. apply filter_In. auto. }
      rewrite (se_list (proj1 HJ)) in B. destruct (oth_stars W); [destruct B|]. apply in_map_iff in B. destruct B as (y & E & Hy). change (key (oth W) y = key (oth W) a) in E. apply key_inj_attr in E. subst y. exact Hy.
  Qed.

  Definition upd_step (d : dict word (list (word * nat))) (ev : word * word * nat) : dict word (list (word * nat)) :=
    let '(iter, a, i) := ev in
    if dmem word_eqb (key iter a) cd then
      let p := (iter ++ w "_" ++ dec i ++ w "." ++ a, i) in
      dalter word_eqb (fun o => match o with
                                | None => [p]
                                | Some l => if existsb (fun q => word_eqb (fst p) (fst q) && (snd p =? snd q)) l then l else l ++ [p]
                                end) (key iter a) d
    else d.
  Lemma dalter_In {V} f k (d : dict word V) k' v' : In (k', v') (dalter word_eqb f k d) -> (k' = k /\ v' = f (dget word_eqb k d)) \/ In (k', v') d.
  Proof.
    induction d as [|[k0 v0] d IH]; cbn [dalter dget]; [intros [[= <- <-]|[]]; auto|]. destruct (word_eqb k k0) eqn:E.
    - apply word_eqb_eq in E. subst k0. intros [[= <- <-]|H]; [auto|right; right; exact H].
    - intros [[= <- <-]|H]; [right; left; reflexivity|]. destruct (IH H) as [X|X]; [auto|right; right; exact X].
  Qed.
  Lemma upd_step_ok d ev : ev_ok ev -> upd_ok d -> upd_ok (upd_step d ev).
  Proof.
    destruct ev as [[iter a] i]. intros [E Hi] Hd. cbn in E, Hi. subst iter. unfold upd_step. destruct (dmem word_eqb (key (oth W) a) cd) eqn:Em; [|exact Hd]. apply list_key in Em.
    intros v us H. apply dalter_In in H. destruct H as [[-> ->]|H]; [|exact (Hd v us H)]. exists a. split; [exact Em|]. split; [reflexivity|]. intros u j Hu.
    destruct (dget word_eqb (key (oth W) a) d) as [l|] eqn:Ed.
    - apply dget_In in Ed; [|exact word_eqb_eq]. destruct (Hd _ _ Ed) as (x & Hx & Ex & Hl). apply key_inj_attr in Ex. subst x.
      destruct (existsb _ l); [exact (Hl _ _ Hu)|]. apply in_app_iff in Hu. destruct Hu as [Hu|[[= <- <-]|[]]]; [exact (Hl _ _ Hu)|split; [reflexivity|exact Hi]].
    - destruct Hu as [[= <- <-]|[]]. split; [reflexivity|exact Hi].
  Qed.
  Definition has (d : dict word (list (word * nat))) (u : word) : Prop := exists v us i, In (v, us) d /\ In (u, i) us.
  Lemma has_dget (d : dict word (list (word * nat))) v us u i : dget word_eqb v d = Some us -> In (u, i) us -> has d u.
  Proof. intros H1 H2. apply dget_In in H1; [|exact word_eqb_eq]. exists v, us, i. auto. Qed.
  Lemma upd_step_new d a i : dmem word_eqb (key (oth W) a) cd = true -> has (upd_step d (oth W, a, i)) (item_name (oth W) i a).
  Proof.
    intros Em. unfold upd_step. rewrite Em.
    set (p := (oth W ++ w "_" ++ dec i ++ w "." ++ a, i)).
    set (f := fun o : option (list (word * nat)) => match o with None => [p] | Some l => if existsb (fun q => word_eqb (fst p) (fst q) && (snd p =? snd q)) l then l else l ++ [p] end).
    apply has_dget with (v := key (oth W) a) (us := f (dget word_eqb (key (oth W) a) d)) (i := i); [apply dget_alter_same; exact word_eqb_eq|].
    unfold f. destruct (dget word_eqb (key (oth W) a) d) as [l|]; [|left; reflexivity]. destruct (existsb _ l) eqn:Ex; [|apply in_app_iff; right; left; reflexivity].
    apply existsb_exists in Ex. destruct Ex as ([u j] & Hq & E). apply andb_true_iff in E. destruct E as [E1 E2]. apply word_eqb_eq in E1. apply Nat.eqb_eq in E2. cbn [fst snd] in *. unfold p in *. cbn [fst snd] in *. subst. exact Hq.
  Qed.
  Lemma upd_step_old (d : dict word (list (word * nat))) ev u : has d u -> NoDup (map fst d) -> has (upd_step d ev) u.
  Proof.
    destruct ev as [[iter a] i]. intros (v & us & j & H1 & H2) N. unfold upd_step. destruct (dmem word_eqb (key iter a) cd); [|exists v, us, j; auto].
    destruct (word_eqb (key iter a) v) eqn:E.
    - apply word_eqb_eq in E. subst v. pose proof (In_dget _ word_eqb_eq _ _ _ N H1) as Eg.
      set (p := (iter ++ w "_" ++ dec i ++ w "." ++ a, i)).
      set (f := fun o : option (list (word * nat)) => match o with None => [p] | Some l => if existsb (fun q => word_eqb (fst p) (fst q) && (snd p =? snd q)) l then l else l ++ [p] end).
      apply has_dget with (v := key iter a) (us := f (Some us)) (i := j); [rewrite <- Eg; apply dget_alter_same; exact word_eqb_eq|].
      unfold f. destruct (existsb _ us); [exact H2|apply in_app_iff; auto].
    - apply has_dget with (v := v) (us := us) (i := j); [|exact H2]. rewrite dget_alter_other; [exact (In_dget _ word_eqb_eq _ _ _ N H1)|exact word_eqb_eq|].
      intros E'. rewrite E', word_eqb_same in E. discriminate.
  Qed.
  Lemma upd_step_nodup d ev : NoDup (map fst d) -> NoDup (map fst (upd_step d ev)).
  Proof. destruct ev as [[iter a] i]. intros N. unfold upd_step. destruct (dmem word_eqb (key iter a) cd); [|exact N]. apply dalter_nodup; [exact word_eqb_eq|exact N]. Qed.

  Lemma upd_fold evs : (forall ev, In ev evs -> ev_ok ev) -> forall d, upd_ok d -> NoDup (map fst d) ->
    upd_ok (fold_left upd_step evs d) /\ (forall u, has d u -> has (fold_left upd_step evs d) u) /\
    forall a i, In (oth W, a, i) evs -> dmem word_eqb (key (oth W) a) cd = true -> has (fold_left upd_step evs d) (item_name (oth W) i a).
  Proof.
    induction evs as [|ev evs IH]; intros He d Hd N; [split; [exact Hd|]; split; [auto|contradiction]|]. cbn [fold_left].
    destruct (IH (fun e H => He e (or_intror H)) (upd_step d ev) (@upd_step_ok d ev (He ev (or_introl eq_refl)) Hd) (@upd_step_nodup d ev N)) as (A & B & Cc).
    split; [exact A|]. split; [intros u Hu; apply B, upd_step_old; assumption|].
    intros a i [->|H] Hm; [apply B, upd_step_new; exact Hm|exact (Cc a i H Hm)].
  Qed.

  Lemma updater_ok e : exists cd', update_stars cd (updater len cd e) = Some cd' /\ J cd' /\ (forall k, In k (one_names cd) -> In k (one_names cd')) /\
    forall a i, reads_item e (oth W) a -> len (oth W) <> None -> In a (oth_vars W) -> i < length (oth_stars W) -> In (item_name (oth W) i a) (one_names cd').
  Proof.
    change (updater len cd e) with (fold_left upd_step (events len e) []).
    destruct (@upd_fold (events len e)) with (d := @nil (word * list (word * nat))) as (A & _ & B).
    - intros [[iter a] i] H. exact (events_len _ _ _ _ H).
    - intros v us [].
    - constructor.
    - destruct (update_ok A HJ) as (cd' & E & J' & I1 & I2). exists cd'. split; [exact E|]. split; [exact J'|]. split; [exact I1|].
      intros a i Hr Hl Ha Hi. assert (Hne : oth_stars W <> []) by (destruct (oth_stars W); [cbn in Hi; lia|discriminate]).
      destruct (B a i) as (v & us & j & H1 & H2).
      + apply events_read; assumption.
      + apply dmem_key. pose proof (proj2 HJ Hne a Ha) as Hd. apply dget_In in Hd; [|exact word_eqb_eq]. apply in_map_iff. eexists. split; [|exact Hd]. reflexivity.
      + exact (I2 _ _ _ _ H1 H2).
  Qed.
  Lemma updater_grows e cd' : update_stars cd (updater len cd e) = Some cd' -> exists rest, one_names cd' = one_names cd ++ rest.
  Proof.
    change (updater len cd e) with (fold_left upd_step (events len e) []). intros H.
    destruct (@upd_fold (events len e)) with (d := @nil (word * list (word * nat))) as (A & _ & _).
    - intros [[iter a] i] Hi. exact (events_len _ _ _ _ Hi).
    - intros v us [].
    - constructor.
    - exact (update_grows A HJ H).
  Qed.
End Update.

(** ** Sensing *)
Section Sensing.
  Variable D : Type.
  Variables (args : list arg) (defs : dict word sdef) (me : nat) (states : dict nat (astate (Q * star) D)).
  Variables (own : astate (Q * star) D) (te to name : word) (de od : sdef).
  Hypothesis Ns : NoDup (map fst states).
  Hypothesis Hown : dget Nat.eqb me states = Some own.
  Hypothesis He : ego_type args = Some te.
  Hypothesis Hde : dget word_eqb te defs = Some de.
  Hypothesis Ho : other_arg args = Some (name, to).
  Hypothesis Hdo : dget word_eqb to defs = Some od.
  Hypothesis Nname : ~ In "."%char name.
  Hypothesis NDe : NoDup (s_cont de ++ s_disc de ++ s_stat de).
  Hypothesis NDo : NoDup (s_cont od ++ s_disc od ++ s_stat od).
  Hypothesis Dote : nodots (s_cont de ++ s_disc de ++ s_stat de).
  Hypothesis Doto : nodots (s_cont od ++ s_disc od ++ s_stat od).
  Hypothesis Fown : enough de own.
  Hypothesis Foth : forall a, In a (others me states) -> enough od a.
  Notation star_of a := (snd (fst (fst a))).
  Notation W := (mk_world (s_cont de) (star_of own) name (s_cont od) (map (fun a : astate (Q * star) D => star_of a) (others me states))).

  Lemma defs_max t sd : dget word_eqb t defs = Some sd -> length (s_cont sd) <= list_max (map (fun p => length (s_cont (snd p))) defs).
  Proof.
    intros H. apply dget_In in H; [|exact word_eqb_eq]. assert (F : Forall (fun k => k <= list_max (map (fun p => length (s_cont (snd p))) defs)) (map (fun p => length (s_cont (snd p))) defs)) by (apply list_max_le; lia).
    rewrite Forall_forall in F. apply F. apply in_map_iff. exists (t, sd). auto.
  Qed.
  Lemma star_fits t sd (a : astate (Q * star) D) : dget word_eqb t defs = Some sd -> enough sd a -> fits (star_values defs) sd a.
  Proof.
    intros H [H1 H2]. unfold fits, cont_of, star_values. split; [discriminate|]. split; [rewrite repeat_length; exact (defs_max _ H)|]. auto.
  Qed.
  Lemma star_nth (a : astate (Q * star) D) j v : nth_error (cont_of (star_values defs) a) j = Some v -> v = star_of a.
  Proof. unfold cont_of, star_values. intros H. apply nth_error_In in H. apply repeat_spec in H. exact H. Qed.

  Lemma sense_J : exists cd0 disc, star_sense args defs me states = Some (cd0, disc, [(w "others", length (others me states))]) /\ J W cd0 /\
    (forall x, In x (s_cont de) -> In (ego_name x) (one_names cd0)) /\ one_names cd0 = map ego_name (s_cont de).
  Proof.
    destruct (nodup_parts _ _ _ NDe) as (Ne1 & Ne2 & Ne3 & Ne4). destruct (nodup_parts _ _ _ NDo) as (No1 & No2 & No3 & No4).
    assert (F1 : fits (star_values defs) de own) by (eapply star_fits; eassumption).
    assert (F2 : forall a, In a (others me states) -> fits (star_values defs) od a) by (intros a Ha; eapply star_fits; eauto).
    destruct (@C14_view_partial _ _ _ (star_values defs) args defs me states own te to name de od Ns Hown He Hde Ho Hdo Nname Ne1 Ne4 No1 No4 F1 F2)
      as (cd0 & disc & len & E & B1 & _ & _ & B2 & B3 & _ & ->).
    assert (Nne : name <> w "ego") by (eapply name_not_ego; eassumption). assert (Ego : ~ In "."%char (w "ego")) by (cbn; intuition discriminate).
    exists cd0, disc. split; [exact E|]. unfold sense in E. destruct states as [|p0 r0] eqn:Est; [discriminate|]. rewrite <- Est in *.
    destruct (fold_opt (sense1 (star_values defs) args defs me) states ([], [])) as [vw|] eqn:Ef; [|discriminate]. cbn [obind] in E. injection E as <- <- _.
    destruct (@keys_fold _ _ _ (star_values defs) args defs me te to name de od He Hde Ho Hdo Nname NDe NDo Dote Doto states ([], []) vw) as [[(K1 & K2 & K3 & K4) _] K5].
    - unfold keys_ok, whole, SimpleEnvProofs.dotted. cbn. repeat split; try constructor; try (intros k []); reflexivity.
    - exact Ef.
    - intros a Ha. rewrite (In_dget Nat.eqb Nat.eqb_eq me a states Ns Ha) in Hown. injection Hown as <-. exact F1.
    - intros i a Ha Hi. apply F2. unfold others. apply in_map_iff. exists (i, a). split; [reflexivity|]. apply filter_In. split; [exact Ha|]. cbn. apply negb_true_iff. apply Nat.eqb_neq. exact Hi.
    - (* what is bound *)
      assert (V1 : forall x, In x (s_cont de) -> dget word_eqb (key (w "ego") x) (fst vw) = Some (One (star_of own))).
      { intros x Hx. apply In_nth_error in Hx. destruct Hx as (j & Hj). destruct (B1 j x Hj) as (e & Ee & v & -> & Hv). unfold key. rewrite Ee. rewrite (star_nth _ _ Hv). reflexivity. }
      assert (V2 : others me states <> [] -> forall x, In x (s_cont od) -> dget word_eqb (key name x) (fst vw) = Some (Many (map (fun a => star_of a) (others me states)))).
      { intros Hne x Hx. apply In_nth_error in Hx. destruct Hx as (j & Hj). destruct (proj1 (B2 Hne) j x Hj) as (e & Ee & vs & -> & Hv). unfold key. rewrite Ee. do 2 f_equal.
        clear -Hv. induction Hv as [|a v l vs H Hv IH]; [reflexivity|]. cbn. rewrite (star_nth _ _ H), IH. reflexivity. }
      assert (V3 : others me states = [] -> fkeys name (fst vw) = []).
      { intros Hn. apply K5. intros i a Ha. destruct (Nat.eq_dec i me) as [->|Hi]; [reflexivity|]. exfalso. assert (In a (others me states)); [|rewrite Hn in *; contradiction].
        unfold others. apply in_map_iff. exists (i, a). split; [reflexivity|]. apply filter_In. split; [exact Ha|]. cbn. apply negb_true_iff. apply Nat.eqb_neq. exact Hi. }
      assert (V4 : forall t x e, ~ In "."%char t -> In (key t x, e) (fst vw) -> (t = w "ego" /\ In x (s_cont de) /\ e = One (star_of own)) \/
                   (t = name /\ In x (s_cont od) /\ e = Many (map (fun a => star_of a) (others me states)) /\ others me states <> [])).
      { intros t x e Nt H. pose proof (In_dget _ word_eqb_eq _ _ _ K2 H) as Eg. destruct (B3 (key t x)) as (t' & names & x' & [[= <- <-]|[[= <- <-]|[]]] & Hx & Ek).
        - rewrite Eg. discriminate.
        - change (key t x = key (w "ego") x') in Ek. pose proof Ek as Ek'. apply key_inj in Ek'; [|exact Nt|exact Ego]. destruct Ek' as [-> ->]. left. rewrite (V1 x' Hx) in Eg. injection Eg as <-. auto.
        - change (key t x = key name x') in Ek. pose proof Ek as Ek'. apply key_inj in Ek'; [|exact Nt|exact Nname]. destruct Ek' as [-> ->]. right.
          assert (Hne : others me states <> []).
          { intros Hn. assert (In x' (fkeys name (fst vw))); [|rewrite (V3 Hn) in *; contradiction]. apply fkeys_In; [exact Nname| |exact K1|].
            - apply Doto. apply in_app_iff. auto.
            - apply in_map_iff. exists (key name x', e). auto. }
          rewrite (V2 Hne x' Hx) in Eg. injection Eg as <-. auto. }
      assert (FE : filter (fun k => existsb (word_eqb k) (map ego_name (s_cont de))) (map fst (fst vw)) = map ego_name (s_cont de)).
      { change (map ego_name (s_cont de)) with (map (key (w "ego")) (s_cont de)). rewrite fkeys_filter by assumption. f_equal.
        destruct K3 as [K3|K3].
        * rewrite K3. cbn [filter]. destruct (s_cont de) as [|x xs] eqn:Ed; [reflexivity|]. exfalso. pose proof (V1 x (or_introl eq_refl)) as Hx. apply dget_In in Hx; [|exact word_eqb_eq].
          assert (In x (fkeys (w "ego") (fst vw))); [|rewrite K3 in *; contradiction]. apply fkeys_In; [exact Ego| |exact K1|apply in_map_iff; eexists; split; [|exact Hx]; reflexivity].
          apply Dote. apply in_app_iff. left. left. reflexivity.
        * rewrite K3. apply filter_self. intros x Hx. apply existsb_word. exact Hx. }
      split; [split; [constructor|]|split].
      + exact K2.
      + exact FE.
      + cbn [oth_stars]. rewrite (@fkeys_many _ name (fst vw) Nname K1).
        * destruct (others me states) as [|a l] eqn:Eo; [rewrite (V3 eq_refl); reflexivity|]. cbn [map]. unfold list_names. cbn [oth oth_vars]. change (map (fun x => name ++ w "." ++ x) (s_cont od)) with (map (key name) (s_cont od)). f_equal.
          destruct K4 as [K4|K4]; [|exact K4]. destruct (s_cont od) as [|x xs] eqn:Ed; [exact K4|]. exfalso. assert (Hne : a :: l <> []) by discriminate. pose proof (V2 Hne x (or_introl eq_refl)) as Hx. apply dget_In in Hx; [|exact word_eqb_eq].
          assert (In x (fkeys name (fst vw))); [|rewrite K4 in *; contradiction]. apply fkeys_In; [exact Nname| |exact K1|apply in_map_iff; eexists; split; [|exact Hx]; reflexivity].
          apply Doto. apply in_app_iff. left. left. reflexivity.
        * intros t x e Nt H. destruct (V4 t x e Nt H) as [(-> & _ & ->)|(-> & _ & -> & _)]; [apply not_eq_sym; exact Nne|reflexivity].
      + intros k S H. destruct (K1 k) as (t & x & Nt & Nx & ->); [apply in_map_iff; exists (k, One S); auto|]. destruct (V4 t x _ Nt H) as [(-> & Hx & [= ->])|(_ & _ & E & _)]; [|discriminate].
        eexists. split; [left; reflexivity|]. cbn [p_names p_star]. split; [|reflexivity]. change (key (w "ego") x) with (ego_name x). apply in_map. exact Hx.
      + cbn [oth_stars oth_vars oth]. intros Hne x Hx. apply V2; [|exact Hx]. intros Hn. apply Hne. rewrite Hn. reflexivity.
      + intros x Hx. pose proof (V1 x Hx) as Eg. apply dget_In in Eg; [|exact word_eqb_eq]. unfold one_names. apply in_map_iff. exists (key (w "ego") x, One (star_of own)). split; [reflexivity|]. apply filter_In. auto.
      + rewrite <- FE at 1. unfold one_names. clear - K1 V4 Nname Nne Ego.
        assert (G : forall l, (forall k e, In (k, e) l -> In (k, e) (fst vw)) -> map fst (filter (fun kv => match snd kv with One _ => true | Many _ => false end) l) = filter (fun k => existsb (word_eqb k) (map ego_name (s_cont de))) (map fst l)); [|exact (G (fst vw) (fun _ _ H => H))].
        induction l as [|[k e] l IH]; intros Hl; [reflexivity|]. specialize (IH (fun k' e' H => Hl k' e' (or_intror H))). pose proof (Hl k e (or_introl eq_refl)) as Hk.
        destruct (K1 k) as (t & x & Nt & Nx & ->); [apply in_map_iff; exists (k, e); auto|]. cbn [filter map fst snd]. destruct (V4 t x e Nt Hk) as [(-> & Hx & ->)|(-> & Hx & -> & _)].
        * assert (X : existsb (word_eqb (key (w "ego") x)) (map ego_name (s_cont de)) = true) by (apply existsb_word; apply in_map with (f := ego_name); exact Hx). rewrite X. cbn [map fst]. f_equal. exact IH.
        * assert (X : existsb (word_eqb (key name x)) (map ego_name (s_cont de)) = false).
          { apply not_true_is_false. intros X. apply existsb_word in X. apply in_map_iff in X. destruct X as (y & E & _). change (key (w "ego") y = key name x) in E. apply key_inj in E; [|exact Ego|exact Nname]. apply Nne. symmetry. exact (proj1 E). }
          rewrite X. exact IH.
  Qed.
End Sensing.

Lemma one_in cd k : In k (one_names cd) -> exists S, In (k, One S) cd.
Proof. unfold one_names. intros H. apply in_map_iff in H. destruct H as ([k' [S|l]] & <- & H); apply filter_In in H; destruct H as [H E]; [eauto|discriminate]. Qed.
Lemma one_ego W cd x : ~ In "."%char (oth W) -> sensed W cd -> In (ego_name x) (one_names cd) -> dget word_eqb (ego_name x) cd = Some (One (ego_star W)).
Proof.
  intros Nd HS H. apply one_in in H. destruct H as (S & H). rewrite (In_dget _ word_eqb_eq _ _ _ (se_nodup HS) H). do 2 f_equal.
  destruct (se_one HS _ _ H) as (p & Hp & Hk & ->). destruct (@parts_in W _ Hp) as [->|(i & S' & _ & ->)]; [reflexivity|]. cbn [p_names] in Hk. apply in_map_iff in Hk. destruct Hk as (y & E & _).
  exfalso. exact (@item_not_ego W Nd i y x E).
Qed.
Lemma one_item W cd i x S : ~ In "."%char (oth W) -> sensed W cd -> nth_error (oth_stars W) i = Some S -> In (item_name (oth W) i x) (one_names cd) ->
  dget word_eqb (item_name (oth W) i x) cd = Some (One S).
Proof.
  intros Nd HS Hi H. apply one_in in H. destruct H as (S1 & H). rewrite (In_dget _ word_eqb_eq _ _ _ (se_nodup HS) H). do 2 f_equal.
  destruct (se_one HS _ _ H) as (p & Hp & Hk & ->). destruct (@parts_in W _ Hp) as [->|(j & S' & Hj & ->)]; cbn [p_names p_star] in *; apply in_map_iff in Hk; destruct Hk as (y & E & _).
  - exfalso. exact (@item_not_ego W Nd i x y (eq_sym E)).
  - rewrite !item_key in E. apply key_inj in E; [|apply oth_i_nd; exact Nd|apply oth_i_nd; exact Nd]. destruct E as [E _]. apply other_inj in E. subst j.
    assert (G : forall l k, In (i, S') (combine (seq k (length l)) l) -> nth_error l (i - k) = Some S' /\ k <= i).
    { induction l as [|s l IH]; intros k Hin; [destruct Hin|]. cbn in Hin. destruct Hin as [[= -> ->]|Hin]; [rewrite Nat.sub_diag; auto|]. destruct (IH _ Hin) as [X Y]. split; [|lia].
      replace (i - k) with (Datatypes.S (i - Datatypes.S k)) by lia. exact X. }
    destruct (G _ 0 Hj) as [X _]. rewrite Nat.sub_0_r in X. congruence.
Qed.
