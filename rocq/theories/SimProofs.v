(** Proofs about a simulation step. *)
From Coq Require Import Ascii String.
From Verif Require Import Base BaseFacts Dict PyText Utils UtilsSpec UtilsProofs Reset ResetSpec ResetProofs Scan ScanSpec ScanProofs TransProofs Step Round Sim SimSpec.
From Coq Require Import Permutation.
Set Implicit Arguments.
Open Scope nat_scope.

(** [dedup] keeps members, and one for each key. *)
Lemma dedup_In {T K} (keqb : K -> K -> bool) (f : T -> K) (Hk : forall a b, keqb a b = true <-> a = b) l :
  (forall x, In x (dedup keqb f l) -> In x l) /\ (forall x, In x l -> exists y, In y (dedup keqb f l) /\ f y = f x).
Proof.
  destruct (@run_spec T K keqb f Hk l) as (ps & _ & _ & Hm & Hs & Hkeys). unfold dedup. split.
  - intros x H. apply in_map_iff in H as (p & <- & Hp).
    assert (H : In (Some (fst p)) (map (nth_error l) ps)) by (rewrite <- Hm; apply in_map_iff; eauto).
    apply in_map_iff in H as (i & E & _). eapply nth_error_In; eassumption.
  - intros x H. assert (In (f x) (map snd (run keqb f l))) as Hi by (apply Hkeys; now apply in_map).
    apply in_map_iff in Hi as (p & E & Hp). exists (fst p). split; [apply in_map_iff; eauto|]. rewrite <- (Hs p Hp). exact E.
Qed.

Lemma dedup_nodup {T K} (keqb : K -> K -> bool) (f : T -> K) (Hk : forall a b, keqb a b = true <-> a = b) l :
  NoDup (map f (dedup keqb f l)).
Proof.
  unfold dedup.
  assert (G : forall l acc, NoDup (map f (map fst acc)) -> (forall p, In p acc -> snd p = f (fst p)) ->
    NoDup (map f (map fst (fold_left (dedup_step keqb) (map (fun i => (i, f i)) l) acc)))).
  { induction l0 as [|x l0 IH]; intros acc N S; cbn [map fold_left]; [exact N|]. apply IH.
    - unfold dedup_step. cbn [fst snd]. destruct (existsb _ acc) eqn:E; [exact N|].
      rewrite !map_app. cbn [map fst]. apply Permutation_NoDup with (f x :: map f (map fst acc)).
      + apply Permutation_cons_append.
      + constructor; [|exact N]. intros H. apply in_map_iff in H as (y & Ey & Hy). apply in_map_iff in Hy as (p & <- & Hp).
        assert (existsb (fun p => keqb (f x) (snd p)) acc = true).
        { apply existsb_exists. exists p. split; [exact Hp|]. apply Hk. rewrite (S p Hp). auto. }
        congruence.
    - intros p Hp. unfold dedup_step in Hp. cbn [fst snd] in Hp. destruct (existsb _ acc); [now apply S|].
      apply in_app_iff in Hp as [Hp|[<-|[]]]; [now apply S|reflexivity]. }
  apply (G l []); [constructor|intros ? []].
Qed.

Lemma mode_eqb_iff a b : mode_eqb a b = true <-> a = b.
Proof. apply list_eqb_eq. apply word_eqb_iff. Qed.

Lemma fold_obind_none {A B} (f : A -> B -> option A) l : fold_left (fun acc x => do y <- acc; f y x) l None = None.
Proof. induction l; [reflexivity|exact IHl]. Qed.

Lemma index_of_word_spec l x k : index_of_word l x = Some k -> nth_error l k = Some x.
Proof.
  revert k. induction l as [|y l IH]; intros k E; cbn in E; [discriminate|].
  destruct (word_eqb y x) eqn:Ey.
  - injection E as <-. apply word_eqb_iff in Ey. now subst.
  - destruct (index_of_word l x) as [j|]; [|discriminate]. injection E as <-. cbn. auto.
Qed.

Lemma nth_error_ext {A} (l m : list A) : (forall k, nth_error l k = nth_error m k) -> l = m.
Proof.
  revert m. induction l as [|x l IH]; intros [|y m] H; [reflexivity|specialize (H 0); discriminate|specialize (H 0); discriminate|].
  pose proof (H 0) as H0. cbn in H0. injection H0 as ->. f_equal. apply IH. intros k. apply (H (S k)).
Qed.

Lemma combine_at {A B} (l : list A) (m : list B) k a b : nth_error l k = Some a -> nth_error m k = Some b ->
  nth_error (combine l m) k = Some (a, b).
Proof. revert m k; induction l as [|x l IH]; intros [|y m] [|k]; simpl; try discriminate; [intros [= <-] [= <-]; reflexivity|apply IH]. Qed.

Section Proofs.
  Variables path cond : Type.
  Variable pvar : path -> word.
  Variable agents : list (sagent path cond).
  Variable e_cond : list mode -> list vec -> nat -> cond -> option bool.
  Variable e_path : list mode -> list vec -> nat -> path -> option bool.
  Variable e_val : list mode -> list vec -> nat -> path -> option value.
  Variable maph : option word -> option mode -> option mode -> option word.
  Variable trace_of : nat -> mode -> vec -> Q -> option strace.
  Variable digits : nat.
  Variable trs : list strace.
  Variable ms : list mode.

  Hypothesis named : forall a ag, nth_error agents a = Some ag -> NoDup (sa_disc ag) /\ NoDup (sa_cont ag).
  Hypothesis all_traced : length trs = length agents.

  Notation at_row := (at_row trs).
  Notation all_at_row := (all_at_row trs).
  Notation fails := (fails agents e_cond trs ms).
  Notation looked_at := (looked_at agents).
  Notation enabled := (enabled agents e_path trs ms).
  Notation quiet := (quiet agents e_cond e_path trs ms).
  Notation pick := (pick pvar agents e_path trs ms).
  Notation new_mode := (new_mode pvar e_val ms).
  Notation new_state := (new_state pvar e_val ms).
  Notation can_move := (can_move pvar agents e_path e_val maph trs ms).

  Lemma joint_all i js : joint trs i = Some js <-> all_at_row i js.
  Proof.
    unfold joint, SimSpec.all_at_row, SimSpec.at_row. rewrite mapM_Forall2. split.
    - intros F. split; [symmetry; eapply Forall2_len; exact F|]. intros a La.
      destruct (nth_error trs a) as [tr|] eqn:Et; [|apply nth_error_None in Et; lia].
      destruct (@Forall2_nth_l _ _ _ _ _ a _ F Et) as (s & Es & H). destruct (nth_error tr i) as [r|] eqn:Er; [|discriminate].
      injection H as <-. exists (tl r). split; [exact Es|]. exists tr, r. auto.
    - intros [L H]. clear named all_traced. revert js L H. induction trs as [|tr l IH]; intros [|s js] L H; cbn in L; try discriminate; constructor.
      + destruct (H 0) as (s0 & E & tr0 & r & E1 & E2 & E3); [cbn; lia|]. cbn in E, E1. injection E as ->. injection E1 as ->.
        rewrite E2. cbn. now subst.
      + apply IH; [lia|]. intros a La. destruct (H (S a)) as (s0 & E & tr0 & r & E1 & E2 & E3); [cbn; lia|].
        cbn in E, E1. exists s0. split; [exact E|]. exists tr0, r. auto.
  Qed.

  Lemma all_at_row_fun i js js' : all_at_row i js -> all_at_row i js' -> js = js'.
  Proof. rewrite <- !joint_all. congruence. Qed.

  (** ** One agent *)
  Lemma failing_In js a (lg : dlogic path cond) fs : failing e_cond ms js a lg = Some fs ->
    forall l, In l fs <-> exists x, In x (d_asserts lg) /\ fst (fst x) = l /\ e_cond ms js a (snd (fst x)) = Some true /\ e_cond ms js a (snd x) = Some false.
  Proof.
    unfold failing. destruct (filterM _ (d_asserts lg)) as [l0|] eqn:E; [|discriminate]. cbn [obind]. intros [= <-] l.
    rewrite in_map_iff. pose proof (filterM_In _ _ E) as H. split.
    - intros (x & <- & Hx). apply H in Hx as [Hx1 Hx2]. exists x. split; [exact Hx1|]. split; [reflexivity|].
      destruct (e_cond ms js a (snd (fst x))) as [[|]|]; cbn in Hx2; try discriminate.
      split; [reflexivity|]. destruct (e_cond ms js a (snd x)) as [[|]|]; cbn in Hx2; congruence.
    - intros (x & H1 & <- & H2 & H3). exists x. split; [reflexivity|]. apply H. split; [exact H1|]. now rewrite H2, H3.
  Qed.

  Definition is_on (js : list vec) (a : nat) (p : path) : bool := match e_path ms js a p with Some b => b | None => false end.

  Lemma resets_at_eq js a ps d : resets_at pvar e_path ms js a ps = Some d ->
    d = fired pvar (fun a p _ => is_on js a p) (fun _ _ _ => (true, true)) a 0 ps.
  Proof.
    unfold resets_at, fired. generalize (@nil (word * list path)) as d0. revert d.
    induction ps as [|p ps IH]; intros d d0 E; cbn [fold_left] in E |- *; [now injection E as <-|].
    cbn [obind] in E. unfold is_on. destruct (e_path ms js a p) as [b|] eqn:Ep; cbn [obind] in E.
    - cbn [fst]. rewrite andb_true_r. apply IH in E. rewrite E. unfold is_on. reflexivity.
    - rewrite fold_obind_none with (f := fun d p => do b <- e_path ms js a p; Some (if b : bool then dappend word_eqb (pvar p) p d else d)) in E. discriminate.
  Qed.

  (** ** Applying a combination *)
  Definition partly (js : list vec) (a : nat) (ag : sagent path cond) (c : list path) (m : mode) (s : vec) (acc : list (word * option path) * vec) : Prop :=
    new_mode js a (sa_disc ag) c m (map fst (fst acc)) /\ new_state js a (sa_cont ag) c s (snd acc).

  Lemma assign_spec js a ag c m s acc p acc' : NoDup (sa_disc ag) -> NoDup (sa_cont ag) ->
    ~ In (pvar p) (map pvar c) -> partly js a ag c m s acc ->
    assign pvar e_val ms js a ag acc p = Some acc' -> partly js a ag (c ++ [p]) m s acc'.
  Proof.
    intros ND NC Nv [[Lm Hm] [Ls Hs]] E. unfold assign in E.
    destruct (e_val ms js a p) as [v|] eqn:Ev; [|discriminate]. cbn [obind] in E.
    assert (Hold : forall q, In q (c ++ [p]) -> q = p \/ (In q c /\ q <> p)).
    { intros q H. apply in_app_iff in H as [H|[<-|[]]]; [|now left]. right. split; [exact H|]. intros ->. apply Nv. now apply in_map. }
    destruct (occurs (w "mode") (pvar p)) eqn:Eo.
    - destruct (index_of_word (sa_disc ag) (pvar p)) as [k0|] eqn:Ek; [|discriminate]. cbn [obind] in E.
      destruct v as [|n]; [discriminate|]. destruct (k0 <? length (fst acc)) eqn:El; [|discriminate]. injection E as <-.
      apply index_of_word_spec in Ek. apply Nat.ltb_lt in El. split; cbn [fst snd].
      + split; [now rewrite map_length, set_nth_length, <- Lm, map_length|]. intros k.
        destruct (Nat.eq_dec k k0) as [->|Hk].
        * left. exists p, n. split; [apply in_app_iff; right; now left|]. repeat (split; [assumption|]).
          rewrite nth_error_map, nth_error_set_nth_same by exact El. reflexivity.
        * assert (Hne : nth_error (map fst (set_nth k0 (n, Some p) (fst acc))) k = nth_error (map fst (fst acc)) k).
          { rewrite !nth_error_map. now rewrite nth_error_set_nth_other by auto. }
          destruct (Hm k) as [(q & n' & H1 & H2 & H3 & H4 & H5)|[H1 H2]].
          -- left. exists q, n'. split; [apply in_app_iff; now left|]. repeat (split; [assumption|]). now rewrite Hne.
          -- right. split; [|now rewrite Hne]. intros q Hq Hmv. destruct (Hold q Hq) as [->|[Hq' _]]; [|now apply H1].
             intros E. apply Hk. eapply NoDup_nth_error; [exact ND| |congruence]. apply nth_error_Some. congruence.
      + split; [exact Ls|]. intros k. destruct (Hs k) as [(q & n' & H1 & H2)|[H1 H2]].
        * left. exists q, n'. split; [apply in_app_iff; now left|exact H2].
        * right. split; [|exact H2]. intros q Hq Hmv. destruct (Hold q Hq) as [->|[Hq' _]]; [|now apply H1].
          unfold is_mode_var in Hmv. congruence.
    - destruct (index_of_word (sa_cont ag) (pvar p)) as [k0|] eqn:Ek; [|discriminate]. cbn [obind] in E.
      destruct v as [n|]; [|discriminate]. destruct (k0 <? length (snd acc)) eqn:El; [|discriminate]. injection E as <-.
      apply index_of_word_spec in Ek. apply Nat.ltb_lt in El. split; cbn [fst snd].
      + split; [exact Lm|]. intros k. destruct (Hm k) as [(q & n' & H1 & H2)|[H1 H2]].
        * left. exists q, n'. split; [apply in_app_iff; now left|exact H2].
        * right. split; [|exact H2]. intros q Hq Hmv. destruct (Hold q Hq) as [->|[Hq' _]]; [|now apply H1].
          unfold is_mode_var in Hmv. congruence.
      + split; [now rewrite set_nth_length|]. intros k.
        destruct (Nat.eq_dec k k0) as [->|Hk].
        * left. exists p, n. split; [apply in_app_iff; right; now left|]. repeat (split; [assumption|]).
          now rewrite nth_error_set_nth_same by exact El.
        * assert (Hne : nth_error (set_nth k0 n (snd acc)) k = nth_error (snd acc) k) by now rewrite nth_error_set_nth_other by auto.
          destruct (Hs k) as [(q & n' & H1 & H2 & H3 & H4 & H5)|[H1 H2]].
          -- left. exists q, n'. split; [apply in_app_iff; now left|]. repeat (split; [assumption|]). now rewrite Hne.
          -- right. split; [|now rewrite Hne]. intros q Hq Hmv. destruct (Hold q Hq) as [->|[Hq' _]]; [|now apply H1].
             intros E. apply Hk. eapply NoDup_nth_error; [exact NC| |congruence]. apply nth_error_Some. congruence.
  Qed.

  Lemma assigns_spec js a ag m s : NoDup (sa_disc ag) -> NoDup (sa_cont ag) -> forall rest c acc acc',
    NoDup (map pvar (c ++ rest)) -> partly js a ag c m s acc ->
    fold_left (fun acc p => do x <- acc; assign pvar e_val ms js a ag x p) rest (Some acc) = Some acc' ->
    partly js a ag (c ++ rest) m s acc'.
  Proof.
    intros ND NC. induction rest as [|p rest IH]; intros c acc acc' N P E; cbn [fold_left] in E.
    - injection E as <-. now rewrite app_nil_r.
    - cbn [obind] in E. destruct (assign pvar e_val ms js a ag acc p) as [acc1|] eqn:E1.
      + replace (c ++ p :: rest) with ((c ++ [p]) ++ rest) in * by now rewrite <- app_assoc. eapply IH; [exact N| |exact E].
        eapply assign_spec; eauto. rewrite !map_app in N. cbn [map] in N. rewrite <- app_assoc in N. apply NoDup_remove_2 in N.
        intros H. apply N. apply in_app_iff. now left.
      + rewrite fold_obind_none with (f := fun x p => assign pvar e_val ms js a ag x p) in E. discriminate.
  Qed.

  Lemma trans_of_spec js a (ag : sagent path cond) m s c t : NoDup (sa_disc ag) -> NoDup (sa_cont ag) -> NoDup (map pvar c) ->
    trans_of pvar e_val ms js a ag m s c = Some t ->
    st_agent t = a /\ new_mode js a (sa_disc ag) c m (st_dest t) /\ new_state js a (sa_cont ag) c s (st_init t).
  Proof.
    intros ND NC N E. unfold trans_of in E.
    destruct (fold_left _ c _) as [acc|] eqn:Ef; [|discriminate]. cbn [obind] in E. injection E as <-. cbn.
    split; [reflexivity|]. apply (@assigns_spec js a ag m s ND NC c []) in Ef; [exact Ef|exact N|].
    split; cbn [fst snd].
    - split; [now rewrite map_map, map_id|]. intros k. right. split; [intros ? []|]. now rewrite map_map, map_id.
    - split; [reflexivity|]. intros k. right. split; [intros ? []|reflexivity].
  Qed.

  Lemma same_pvar (c : list path) p q : NoDup (map pvar c) -> In p c -> In q c -> pvar p = pvar q -> p = q.
  Proof.
    intros N Hp Hq E. apply In_nth_error in Hp as (i & Hi). apply In_nth_error in Hq as (j & Hj).
    assert (i = j).
    { eapply NoDup_nth_error; [exact N| |rewrite !nth_error_map, Hi, Hj; cbn; congruence].
      rewrite map_length. apply nth_error_Some. congruence. }
    subst. congruence.
  Qed.

  Lemma new_mode_fun js a names c c' m d d' : NoDup (map pvar c) -> Permutation c c' ->
    new_mode js a names c m d -> new_mode js a names c' m d' -> d = d'.
  Proof.
    intros N P [L1 H1] [L2 H2]. apply nth_error_ext. intros k.
    assert (In_eq : forall p, In p c <-> In p c') by (intros p; split; apply Permutation_in; [exact P|symmetry; exact P]).
    destruct (H1 k) as [(p & n & A1 & A2 & A3 & A4 & A5)|[A1 A2]]; destruct (H2 k) as [(p' & n' & B1 & B2 & B3 & B4 & B5)|[B1 B2]].
    - apply In_eq in B1. assert (p = p') by (apply (@same_pvar c p p' N); congruence). subst. congruence.
    - exfalso. now apply (B1 p); [apply In_eq| |].
    - exfalso. now apply (A1 p'); [apply In_eq| |].
    - congruence.
  Qed.

  Lemma new_state_fun js a names c c' m d d' : NoDup (map pvar c) -> Permutation c c' ->
    new_state js a names c m d -> new_state js a names c' m d' -> d = d'.
  Proof.
    intros N P [L1 H1] [L2 H2]. apply nth_error_ext. intros k.
    assert (In_eq : forall p, In p c <-> In p c') by (intros p; split; apply Permutation_in; [exact P|symmetry; exact P]).
    destruct (H1 k) as [(p & n & A1 & A2 & A3 & A4 & A5)|[A1 A2]]; destruct (H2 k) as [(p' & n' & B1 & B2 & B3 & B4 & B5)|[B1 B2]].
    - apply In_eq in B1. assert (p = p') by (apply (@same_pvar c p p' N); congruence). subst. congruence.
    - exfalso. now apply (B1 p); [apply In_eq| |].
    - exfalso. now apply (A1 p'); [apply In_eq| |].
    - congruence.
  Qed.

  (** ** All agents at a row *)
  Definition contribution (i a : nat) : option (dict nat (list word) * list (strans path)) :=
    do ag <- nth_error agents a;
    if guarded ag then
      do js <- joint trs i;
      do r <- check_transitions pvar e_cond e_path e_val ms js a ag;
      match r with inl ls => Some ([(a, ls)], []) | inr ts => Some ([], ts) end
    else Some ([], []).

  Lemma look_contributions i r : look pvar agents e_cond e_path e_val trs ms i = Some r ->
    exists cs, mapM (contribution i) (seq 0 (length agents)) = Some cs /\
      fst r = concat (map fst cs) /\ snd r = concat (map snd cs).
  Proof.
    unfold look.
    assert (G : forall l acc r, fold_left (fun acc a => do x <- acc; look_agent pvar agents e_cond e_path e_val trs ms i x a) l (Some acc) = Some r ->
      exists cs, mapM (contribution i) l = Some cs /\ fst r = fst acc ++ concat (map fst cs) /\ snd r = snd acc ++ concat (map snd cs)).
    { induction l as [|a l IH]; intros acc r0 E; cbn [fold_left] in E.
      - injection E as <-. exists []. cbn. now rewrite !app_nil_r.
      - cbn [obind] in E. destruct (look_agent pvar agents e_cond e_path e_val trs ms i acc a) as [acc1|] eqn:E1.
        + destruct (IH _ _ E) as (cs & C1 & C2 & C3).
          assert (K : exists k, contribution i a = Some k /\ fst acc1 = fst acc ++ fst k /\ snd acc1 = snd acc ++ snd k).
          { unfold look_agent in E1. unfold contribution. destruct (nth_error agents a) as [ag|]; [|discriminate]. cbn [obind] in *.
            destruct (guarded ag).
            - destruct (joint trs i) as [js|]; [|discriminate]. cbn [obind] in *.
              destruct (check_transitions pvar e_cond e_path e_val ms js a ag) as [[ls|ts]|]; [| |discriminate]; cbn [obind] in *;
              injection E1 as <-; eexists; (split; [reflexivity|]); cbn; now rewrite ?app_nil_r.
            - injection E1 as <-. eexists; split; [reflexivity|]. cbn. now rewrite !app_nil_r. }
          destruct K as (k & K1 & K2 & K3). exists (k :: cs). cbn [mapM]. rewrite K1. cbn [obind]. rewrite C1. cbn [obind].
          split; [reflexivity|]. cbn [map concat]. rewrite C2, C3, K2, K3. now rewrite !app_assoc.
        + rewrite fold_obind_none with (f := fun x a => look_agent pvar agents e_cond e_path e_val trs ms i x a) in E. discriminate. }
    intros E. destruct (G _ _ _ E) as (cs & C). exists cs. exact C.
  Qed.

  Lemma In_concat_mapM {A B C} (f : A -> option B) (g : B -> list C) l cs x : mapM f l = Some cs ->
    (In x (concat (map g cs)) <-> exists a b, In a l /\ f a = Some b /\ In x (g b)).
  Proof.
    rewrite mapM_Forall2. intros F. split.
    - intros H. apply in_concat in H as (ys & H1 & H2). apply in_map_iff in H1 as (b & <- & Hb).
      destruct (@Forall2_In_r _ _ _ _ _ _ F Hb) as (a & Ha & E). eauto.
    - intros (a & b & Ha & E & Hx). destruct (@Forall2_In_l _ _ _ _ _ _ F Ha) as (b' & Hb & E'). rewrite E in E'. injection E' as <-.
      apply in_concat. exists (g b). split; [now apply in_map|exact Hx].
  Qed.

  Lemma guarded_iff a ag : nth_error agents a = Some ag -> (guarded ag = true <-> looked_at a).
  Proof.
    intros Ea. unfold guarded, SimSpec.looked_at. rewrite andb_true_iff. split.
    - intros [H1 H2]. exists ag. split; [exact Ea|]. split; [exact H1|]. destruct (d_paths (sa_logic ag)); congruence.
    - intros (ag' & E & H1 & H2). rewrite Ea in E. injection E as <-. split; [exact H1|]. destruct (d_paths (sa_logic ag)); congruence.
  Qed.

  Lemma sat_enabled i a ag js p : nth_error agents a = Some ag -> has_args (sa_logic ag) = true -> all_at_row i js ->
    (sat (fun a p _ => is_on js a p) (fun _ _ _ => (true, true)) a 0 (d_paths (sa_logic ag)) p <-> enabled i a p).
  Proof.
    intros Ea Hg Hj. unfold sat, SimSpec.enabled, is_on. split.
    - intros (H1 & H2 & _). exists ag, js. repeat (split; [assumption|]). destruct (e_path ms js a p) as [b|]; congruence.
    - intros (ag' & js' & E & _ & Hin & Hj' & Hp). rewrite Ea in E. injection E as <-.
      rewrite (all_at_row_fun Hj' Hj) in Hp. now rewrite Hp.
  Qed.

  (** What [look] finds at a row. *)
  Lemma look_spec i asr ts : look pvar agents e_cond e_path e_val trs ms i = Some (asr, ts) ->
    (forall a ls, In (a, ls) asr -> looked_at a /\ ls <> [] /\ (forall l, In l ls <-> exists x, fails i a x /\ fst (fst x) = l)) /\
    (forall a x, looked_at a -> fails i a x -> exists ls, In (a, ls) asr) /\
    (forall t, In t ts -> (forall x, ~ fails i (st_agent t) x) /\
       exists ag js m s c, nth_error agents (st_agent t) = Some ag /\ all_at_row i js /\ nth_error ms (st_agent t) = Some m /\ at_row i (st_agent t) s /\
         pick i (st_agent t) c /\ new_mode js (st_agent t) (sa_disc ag) c m (st_dest t) /\ new_state js (st_agent t) (sa_cont ag) c s (st_init t)) /\
    (forall a c, (forall x, ~ fails i a x) -> pick i a c -> exists t, In t ts /\ st_agent t = a /\
       forall ag js m s d s', nth_error agents a = Some ag -> all_at_row i js -> nth_error ms a = Some m -> at_row i a s ->
         new_mode js a (sa_disc ag) c m d -> new_state js a (sa_cont ag) c s s' -> st_dest t = d /\ st_init t = s') /\
    (forall a p, enabled i a p -> (forall x, ~ fails i a x) -> ts <> []).
  Proof.
    intros E. apply look_contributions in E as (cs & C & E1 & E2). cbn [fst snd] in E1, E2. subst asr ts.
    (* the contribution of one agent that is looked at *)
    assert (K : forall a b, contribution i a = Some b ->
      (fst b = [] /\ snd b = [] /\ ~ looked_at a) \/
      (exists ag js m s fs, nth_error agents a = Some ag /\ has_args (sa_logic ag) = true /\ d_paths (sa_logic ag) <> [] /\ all_at_row i js /\ nth_error ms a = Some m /\ nth_error js a = Some s /\ at_row i a s /\
         failing e_cond ms js a (sa_logic ag) = Some fs /\
         ((fs <> [] /\ b = ([(a, fs)], [])) \/
          (fs = [] /\ fst b = [] /\ exists d, resets_at pvar e_path ms js a (d_paths (sa_logic ag)) = Some d /\ mapM (trans_of pvar e_val ms js a ag m s) (combos d) = Some (snd b))))).
    { intros a b Eb. unfold contribution in Eb. destruct (nth_error agents a) as [ag|] eqn:Ea; [|discriminate]. cbn [obind] in Eb.
      destruct (guarded ag) eqn:Eg.
      - right. destruct (joint trs i) as [js|] eqn:Ej; [|discriminate]. cbn [obind] in Eb. apply joint_all in Ej.
        unfold check_transitions in Eb. destruct (nth_error ms a) as [m|] eqn:Em; [|discriminate]. cbn [obind] in Eb.
        destruct (nth_error js a) as [s|] eqn:Es; [|discriminate]. cbn [obind] in Eb.
        destruct (failing e_cond ms js a (sa_logic ag)) as [fs|] eqn:Ef; [|discriminate]. cbn [obind] in Eb.
        exists ag, js, m, s, fs. split; [first [exact Ea|reflexivity]|].
        unfold guarded in Eg. apply andb_true_iff in Eg as [Eg1 Eg2]. split; [exact Eg1|].
        split; [destruct (d_paths (sa_logic ag)); congruence|]. split; [exact Ej|]. split; [reflexivity|]. split; [exact Es|].
        split. { destruct Ej as [Lj Hj]. destruct (Hj a) as (s0 & Es0 & Hs0); [rewrite <- Lj; apply nth_error_Some; congruence|]. congruence. }
        split; [exact Ef|]. destruct fs as [|f fs].
        + right. split; [reflexivity|]. destruct (resets_at pvar e_path ms js a (d_paths (sa_logic ag))) as [d|]; [|discriminate]. cbn [obind] in Eb.
          destruct (mapM (trans_of pvar e_val ms js a ag m s) (combos d)) as [ts|] eqn:Et; [|discriminate]. cbn [obind] in Eb.
          injection Eb as <-. cbn. split; [reflexivity|]. exists d. auto.
        + left. injection Eb as <-. split; [discriminate|reflexivity].
      - left. injection Eb as <-. cbn. split; [reflexivity|]. split; [reflexivity|]. intros H. apply (guarded_iff _ Ea) in H. congruence. }
    assert (Kall : forall a, looked_at a -> exists b, In a (seq 0 (length agents)) /\ contribution i a = Some b).
    { intros a (ag & Ea & _). assert (La : In a (seq 0 (length agents))) by (apply in_seq; assert (a < length agents) by (apply nth_error_Some; congruence); lia).
      apply mapM_Forall2 in C. destruct (@Forall2_In_l _ _ _ _ _ _ C La) as (b & _ & Eb). exists b. split; [|exact Eb]. apply in_seq. assert (a < length agents) by (apply nth_error_Some; congruence). lia. }
    split; [|split; [|split; [|split]]].
    - intros a ls H. apply (@In_concat_mapM _ _ _ (contribution i) fst _ cs _ C) in H as (a0 & b & Ha & Eb & Hx).
      destruct (K _ _ Eb) as [(F1 & _)|(ag & js & m & s & fs & Ea & Hg & Hp & Hj & Em & Es & Hs & Ef & [[Hf ->]|(_ & F1 & _)])]; try (rewrite F1 in Hx; easy).
      destruct Hx as [Hx|[]]. injection Hx as -> ->. split; [exists ag; auto|]. split; [exact Hf|].
      intros l. rewrite (@failing_In js a (sa_logic ag) _ Ef). split.
      + intros (x & H1 & H2 & H3 & H4). exists x. split; [|exact H2]. exists ag, js. auto.
      + intros (x & (ag' & js' & H1 & H2 & H3 & H4 & H5) & H6). rewrite Ea in H1. injection H1 as <-. rewrite (all_at_row_fun H3 Hj) in *. exists x. auto.
    - intros a x Hl Hx. destruct (Kall a Hl) as (b & Ha & Eb).
      destruct (K _ _ Eb) as [(_ & _ & N)|(ag & js & m & s & fs & Ea & Hg & Hp & Hj & Em & Es & Hs & Ef & Hc)]; [easy|].
      assert (Hfs : In (fst (fst x)) fs).
      { apply (@failing_In js a (sa_logic ag) _ Ef). destruct Hx as (ag' & js' & H1 & H2 & H3 & H4 & H5). rewrite Ea in H1. injection H1 as <-. rewrite (all_at_row_fun H3 Hj) in *. exists x. auto. }
      destruct Hc as [[Hf ->]|(-> & _)]; [|easy]. exists fs. apply (@In_concat_mapM _ _ _ (contribution i) fst _ cs _ C). exists a, ([(a, fs)], []). split; [exact Ha|]. split; [exact Eb|]. now left.
    - intros t H. apply (@In_concat_mapM _ _ _ (contribution i) snd _ cs _ C) in H as (a & b & Ha & Eb & Hx).
      destruct (K _ _ Eb) as [(_ & F1 & _)|(ag & js & m & s & fs & Ea & Hg & Hp & Hj & Em & Es & Hs & Ef & [[Hf ->]|(-> & _ & d & Ed & Et)])]; try (cbn in Hx; easy); try (rewrite F1 in Hx; easy).
      destruct (named _ Ea) as [ND NC]. rewrite mapM_Forall2 in Et. destruct (@Forall2_In_r _ _ _ _ _ _ Et Hx) as (c & Hc & Ec).
      rewrite (resets_at_eq _ _ _ Ed) in Hc. apply (@combos_sound path unit pvar (fun _ _ => true) _ _ (fun _ _ _ => true)) in Hc as (P1 & P2 & P3 & P4).
      destruct (@trans_of_spec js a ag m s c t ND NC P2 Ec) as (T1 & T2 & T3). rewrite T1. split.
      + intros x (ag' & js' & H1 & H2 & H3 & H4 & H5). rewrite Ea in H1. injection H1 as <-. rewrite (all_at_row_fun H3 Hj) in *.
        assert (In (fst (fst x)) []) as []. { apply (@failing_In js a (sa_logic ag) _ Ef). exists x. auto. }
      + exists ag, js, m, s, c. repeat (split; [assumption|]). split; [|split; assumption].
        split; [exact P1|]. split; [exact P2|]. split.
        * intros p Hin. apply (@sat_enabled i a ag js p Ea Hg Hj). now apply P3.
        * intros p Hin. apply P4. now apply (@sat_enabled i a ag js p Ea Hg Hj).
    - intros a c Nf (P1 & P2 & P3 & P4).
      assert (Hl : looked_at a).
      { destruct c as [|p c]; [easy|]. destruct (P3 p) as (ag & js & Ea & Hg & Hin & _); [now left|]. exists ag. split; [exact Ea|]. split; [exact Hg|]. intros E. now rewrite E in Hin. }
      destruct (Kall a Hl) as (b & Ha & Eb).
      destruct (K _ _ Eb) as [(_ & _ & N)|(ag & js & m & s & fs & Ea & Hg & Hp & Hj & Em & Es & Hs & Ef & Hc)]; [easy|].
      destruct Hc as [[Hf Hb]|(-> & _ & d & Ed & Et)].
      { exfalso. destruct fs as [|f fs]; [easy|]. destruct (proj1 (@failing_In js a (sa_logic ag) _ Ef f) (or_introl eq_refl)) as (x & H1 & _ & H2 & H3).
        apply (Nf x). exists ag, js. auto. }
      destruct (named _ Ea) as [ND NC].
      destruct (@combos_complete path unit pvar (fun _ _ => true) (fun a p _ => is_on js a p) (fun _ _ _ => (true, true)) (fun _ _ _ => true) a 0 (d_paths (sa_logic ag)) c) as (c' & Pc & Hc').
      { exact P1. } { exact P2. }
      { intros p Hin. apply (@sat_enabled i a ag js p Ea Hg Hj). now apply P3. }
      { intros p Hin. apply P4. now apply (@sat_enabled i a ag js p Ea Hg Hj) in Hin. }
      rewrite <- (resets_at_eq _ _ _ Ed) in Hc'. rewrite mapM_Forall2 in Et. destruct (@Forall2_In_l _ _ _ _ _ _ Et Hc') as (t & Ht & Et').
      assert (N' : NoDup (map pvar c')) by (eapply Permutation_NoDup; [apply Permutation_map; exact Pc|exact P2]).
      destruct (@trans_of_spec js a ag m s c' t ND NC N' Et') as (T1 & T2 & T3).
      exists t. split; [apply (@In_concat_mapM _ _ _ (contribution i) snd _ cs _ C); exists a, b; auto|]. split; [exact T1|].
      intros ag' js' m' s' dd ss E1 E2 E3 E4 E5 E6. rewrite Ea in E1. injection E1 as <-. rewrite (all_at_row_fun E2 Hj) in *.
      rewrite Em in E3. injection E3 as <-.
      assert (s' = s). { destruct E4 as (? & ? & A1 & A2 & ->), Hs as (? & ? & B1 & B2 & ->). congruence. } subst s'.
      split; symmetry; [eapply new_mode_fun; [exact P2|exact Pc|exact E5|exact T2]|eapply new_state_fun; [exact P2|exact Pc|exact E6|exact T3]].
    - intros a p Hen Nf.
      assert (Hl : looked_at a).
      { destruct Hen as (ag & js & Ea & Hg & Hin & _). exists ag. split; [exact Ea|]. split; [exact Hg|]. intros E. now rewrite E in Hin. }
      destruct (Kall a Hl) as (b & Ha & Eb).
      destruct (K _ _ Eb) as [(_ & _ & N)|(ag & js & m & s & fs & Ea & Hg & Hp & Hj & Em & Es & Hs & Ef & Hc)]; [easy|].
      destruct Hc as [[Hf Hb]|(-> & _ & d & Ed & Et)].
      { exfalso. destruct fs as [|f fs]; [easy|]. destruct (proj1 (@failing_In js a (sa_logic ag) _ Ef f) (or_introl eq_refl)) as (x & H1 & _ & H2 & H3).
        apply (Nf x). exists ag, js. auto. }
      assert (Hne : combos d <> []).
      { intros E. rewrite (resets_at_eq _ _ _ Ed) in E.
        apply (proj1 (@combos_nil path unit pvar (fun _ _ => true) _ _ (fun _ _ _ => true) _ _ _)) with (p := p) in E. apply E.
        now apply (@sat_enabled i a ag js p Ea Hg Hj). }
      destruct (combos d) as [|c l] eqn:Ec; [easy|]. rewrite mapM_Forall2 in Et. inversion Et as [|? t ? ? H1 H2 H3 H4]; subst.
      intros E. assert (In t []) as []. { rewrite <- E. apply (@In_concat_mapM _ _ _ (contribution i) snd _ cs _ C). exists a, b. split; [exact Ha|]. split; [exact Eb|]. rewrite <- H4. now left. }
  Qed.

  (** ** The rows *)
  Notation reports := (reports agents e_cond trs ms).

  Lemma quiet_S n : quiet n -> look pvar agents e_cond e_path e_val trs ms n = Some ([], []) -> quiet (S n).
  Proof.
    intros Hq E. destruct (look_spec _ E) as (L1 & L2 & _ & _ & L5). intros i Hi.
    destruct (Nat.eq_dec i n) as [->|Hn]; [|apply Hq; lia].
    assert (Nf : forall a x, looked_at a -> ~ fails n a x).
    { intros a x Hl Hx. destruct (L2 a x Hl Hx) as (ls & []). }
    split; [exact Nf|]. intros a p He. apply (L5 a p He); [|reflexivity]. intros x. apply Nf.
    destruct He as (ag & js & Ea & Hg & Hin & _). exists ag. split; [exact Ea|]. split; [exact Hg|]. intros E0. now rewrite E0 in Hin.
  Qed.

  Lemma rows_spec : forall m n r, quiet n -> rows pvar agents e_cond e_path e_val maph trs ms (seq n m) = Some r ->
    (exists asr ts i, r = inl (asr, i) /\ n <= i < n + m /\ quiet i /\ look pvar agents e_cond e_path e_val trs ms i = Some (asr, ts) /\ asr <> []) \/
    (exists ts d i, r = inr (d, i) /\ n <= i < n + m /\ quiet i /\ look pvar agents e_cond e_path e_val trs ms i = Some ([], ts) /\ ts <> [] /\ keep_allowed agents maph ms ts = Some d) \/
    (exists i, r = inr ([], i) /\ quiet (n + m)).
  Proof.
    induction m as [|m IH]; intros n r Hq E; cbn [seq rows] in E; [discriminate|].
    destruct (look pvar agents e_cond e_path e_val trs ms n) as [[asr ts]|] eqn:El; [|discriminate]. cbn [obind fst snd] in E.
    destruct asr as [|x asr].
    - destruct ts as [|t ts].
      + pose proof (quiet_S Hq El) as Hq'. destruct m as [|m]; cbn [seq] in E.
        * injection E as <-. right. right. exists n. split; [reflexivity|]. now rewrite Nat.add_1_r.
        * change (S n :: seq (S (S n)) m) with (seq (S n) (S m)) in E. destruct (IH _ _ Hq' E) as [H|[H|H]].
          -- left. destruct H as (asr & ts & i & H1 & H2 & H3). exists asr, ts, i. split; [exact H1|]. split; [lia|exact H3].
          -- right. left. destruct H as (ts & d & i & H1 & H2 & H3). exists ts, d, i. split; [exact H1|]. split; [lia|exact H3].
          -- right. right. destruct H as (i & H1 & H2). exists i. split; [exact H1|]. now rewrite Nat.add_succ_r.
      + destruct (keep_allowed agents maph ms (t :: ts)) as [d|] eqn:Ek; [|discriminate]. cbn [obind] in E. injection E as <-.
        right. left. exists (t :: ts), d, n. split; [reflexivity|]. split; [lia|]. split; [exact Hq|]. split; [exact El|]. split; [discriminate|exact Ek].
    - injection E as <-. left. exists (x :: asr), ts, n. split; [reflexivity|]. split; [lia|]. split; [exact Hq|]. split; [exact El|discriminate].
  Qed.

  Lemma allowed_iff t : allowed agents maph ms t = Some true <->
    exists ag m, nth_error agents (st_agent t) = Some ag /\ nth_error ms (st_agent t) = Some m /\ permitted (d_types (sa_logic ag)) maph m (st_dest t).
  Proof.
    unfold allowed. destruct (nth_error agents (st_agent t)) as [ag|]; cbn [obind].
    - destruct (nth_error ms (st_agent t)) as [m|]; cbn [obind].
      + split.
        * intros [= H]. exists ag, m. apply map_allows_iff in H. auto.
        * intros (ag' & m' & [= <-] & [= <-] & H). f_equal. now apply map_allows_iff.
      + split; [discriminate|intros (? & ? & _ & [=] & _)].
    - split; [discriminate|intros (? & ? & [=] & _)].
  Qed.

  Lemma keep_spec ts d : keep_allowed agents maph ms ts = Some d ->
    NoDup (map fst d) /\
    (forall a l, In (a, l) d -> l <> [] /\ NoDup (map (@st_dest path) l) /\ forall t, In t l -> In t ts /\ st_agent t = a /\ allowed agents maph ms t = Some true) /\
    (forall t, In t ts -> allowed agents maph ms t = Some true -> exists l t', In (st_agent t, l) d /\ In t' l /\ st_dest t' = st_dest t).
  Proof.
    unfold keep_allowed. destruct (filterM (allowed agents maph ms) ts) as [l0|] eqn:Ef; [|discriminate]. cbn [obind]. intros [= <-].
    pose proof (filterM_In _ _ Ef) as Hf.
    set (g := fold_left (fun d t => dappend Nat.eqb (st_agent t) t d) l0 []).
    assert (Eg : g = group Nat.eqb (@st_agent path) (fun _ => true) l0 []) by reflexivity.
    assert (Hg : forall k vs, In (k, vs) g <-> vs = filter (fun v => Nat.eqb k (st_agent v)) l0 /\ vs <> []).
    { intros k vs. rewrite Eg. apply (@group_spec _ _ Nat.eqb Nat.eqb_eq (@st_agent path) (fun _ => true)). }
    split; [|split].
    - rewrite map_map. cbn [fst]. rewrite Eg. apply (@group_nodup _ _ Nat.eqb Nat.eqb_eq). constructor.
    - intros a l H. apply in_map_iff in H as ([k vs] & E & Hin). cbn [fst snd] in E. injection E as <- <-. apply Hg in Hin as [-> Hne].
      destruct (dedup_In mode_eqb (@st_dest path) mode_eqb_iff (filter (fun v => k =? st_agent v) l0)) as [D1 D2].
      split.
      { destruct (filter (fun v => k =? st_agent v) l0) as [|x xs] eqn:E0; [easy|]. destruct (D2 x (or_introl eq_refl)) as (y & Hy & _). intros E. now rewrite E in Hy. }
      split; [apply dedup_nodup; exact mode_eqb_iff|]. intros t Ht. apply D1 in Ht. apply filter_In in Ht as [H1 H2]. apply Nat.eqb_eq in H2.
      apply Hf in H1 as [H1 H3]. auto.
    - intros t H1 H2. assert (Hin : In t (filter (fun v => st_agent t =? st_agent v) l0)).
      { apply filter_In. split; [now apply Hf|]. apply Nat.eqb_refl. }
      destruct (dedup_In mode_eqb (@st_dest path) mode_eqb_iff (filter (fun v => st_agent t =? st_agent v) l0)) as [D1 D2].
      destruct (D2 t Hin) as (t' & Ht' & Ed). exists (dedup mode_eqb (@st_dest path) (filter (fun v => st_agent t =? st_agent v) l0)), t'.
      split; [|split; [exact Ht'|exact Ed]]. apply in_map_iff. exists (st_agent t, filter (fun v => st_agent t =? st_agent v) l0). split; [reflexivity|].
      apply Hg. split; [reflexivity|]. intros E. now rewrite E in Hin.
  Qed.

  (** Transitions found at a row, after the map filter, are the possible moves. *)
  Lemma move_of_trans i ts t : look pvar agents e_cond e_path e_val trs ms i = Some ([], ts) -> In t ts ->
    allowed agents maph ms t = Some true -> can_move i (st_agent t) (st_dest t) (st_init t).
  Proof.
    intros El Ht Ha. destruct (look_spec _ El) as (_ & _ & L3 & _). destruct (L3 t Ht) as (_ & ag & js & m & s & c & H1 & H2 & H3 & H4 & H5 & H6 & H7).
    apply allowed_iff in Ha as (ag' & m' & E1 & E2 & Hp). rewrite H1 in E1. injection E1 as <-. rewrite H3 in E2. injection E2 as <-.
    exists ag, js, m, s, c. auto 10.
  Qed.

  Lemma trans_of_move i ts a d s : look pvar agents e_cond e_path e_val trs ms i = Some ([], ts) -> can_move i a d s ->
    exists t, In t ts /\ st_agent t = a /\ st_dest t = d /\ st_init t = s /\ allowed agents maph ms t = Some true.
  Proof.
    intros El (ag & js & m & s0 & c & H1 & H2 & H3 & H4 & H5 & H6 & H7 & H8). destruct (look_spec _ El) as (_ & L2 & _ & L4 & _).
    assert (Hl : looked_at a).
    { destruct H5 as (P1 & _ & P3 & _). destruct c as [|p c]; [easy|]. destruct (P3 p) as (ag' & js' & Ea & Hg & Hin & _); [now left|]. exists ag'. split; [exact Ea|]. split; [exact Hg|]. intros E. now rewrite E in Hin. }
    destruct (L4 a c) as (t & T1 & T2 & T3); [|exact H5|].
    - intros x Hx. destruct (L2 a x Hl Hx) as (ls & []).
    - destruct (T3 ag js m s0 d s H1 H2 H3 H4 H6 H7) as [E1 E2]. exists t. repeat (split; [assumption|]).
      apply allowed_iff. exists ag, m. rewrite T2, E1. auto.
  Qed.

  (** ** Children *)
  Definition mv_of (comb : list (strans path)) (a : nat) : option (mode * vec) :=
    option_map (fun t => (st_dest t, st_init t)) (find (fun t => st_agent t =? a) comb).

  Lemma fold_modes comb : forall ms0, NoDup (map (@st_agent path) comb) ->
    let r := fold_left (fun ms t => set_nth (st_agent t) (st_dest t) ms) comb ms0 in
    length r = length ms0 /\ forall a, nth_error r a = match find (fun t => st_agent t =? a) comb with
      | Some t => if a <? length ms0 then Some (st_dest t) else None
      | None => nth_error ms0 a end.
  Proof.
    induction comb as [|t comb IH]; intros ms0 N; cbn [fold_left find]; [auto|].
    cbn [map] in N. inversion N as [|? ? N1 N2]; subst. destruct (IH (set_nth (st_agent t) (st_dest t) ms0) N2) as [L H].
    rewrite set_nth_length in L. split; [exact L|]. intros a. rewrite H, set_nth_length.
    destruct (st_agent t =? a) eqn:Ea.
    - apply Nat.eqb_eq in Ea. subst a. assert (Hn : find (fun t0 => st_agent t0 =? st_agent t) comb = None).
      { destruct (find (fun t0 => st_agent t0 =? st_agent t) comb) as [t'|] eqn:Ef; [|reflexivity]. apply find_some in Ef as [F1 F2].
        apply Nat.eqb_eq in F2. exfalso. apply N1. rewrite <- F2. now apply in_map. }
      rewrite Hn. destruct (st_agent t <? length ms0) eqn:El.
      + apply Nat.ltb_lt in El. now rewrite nth_error_set_nth_same.
      + apply Nat.ltb_ge in El. apply nth_error_None. now rewrite set_nth_length.
    - apply Nat.eqb_neq in Ea. destruct (find _ comb); [reflexivity|]. apply nth_error_set_nth_other. exact Ea.
  Qed.

  Lemma schild_spec nd n comb ch : NoDup (map (@st_agent path) comb) ->
    schild digits nd (map (skipn n) trs) comb = Some ch -> child_for trs digits nd n (mv_of comb) ch.
  Proof.
    intros N E. unfold schild in E.
    destruct (nth_error (map (skipn n) trs) 0) as [t0|] eqn:E0; [|discriminate]. cbn [obind] in E.
    destruct (nth_error t0 0) as [row0|] eqn:Er; [|discriminate]. cbn [obind] in E.
    destruct (nth_error row0 0) as [time|] eqn:Et; [|discriminate]. cbn [obind] in E.
    destruct (mapM _ _) as [inits|] eqn:Ei; [|discriminate]. cbn [obind] in E. injection E as <-.
    destruct (fold_modes comb (s_mode nd) N) as [Lm Hm].
    rewrite map_length in *. rewrite nth_error_map in E0. destruct (nth_error trs 0) as [tr0|] eqn:Et0; [|discriminate]. injection E0 as <-.
    rewrite nth_error_skipn, Nat.add_0_r in Er.
    unfold child_for. cbn [s_mode s_init s_trace s_start s_height]. split; [exact Lm|]. split; [rewrite (mapM_length _ _ Ei); apply seq_length|].
    split; [rewrite map_length, combine_length, seq_length, map_length; lia|]. split; [|split; [|reflexivity]].
    - intros a La. rewrite mapM_Forall2 in Ei.
      assert (Ea : nth_error (seq 0 (length trs)) a = Some a) by (rewrite (nth_error_nth' _ 0) by (rewrite seq_length; exact La); now rewrite seq_nth).
      destruct (@Forall2_nth_l _ _ _ _ _ a _ Ei Ea) as (ini & Eini & Hini).
      destruct (nth_error trs a) as [tr|] eqn:Etr; [|apply nth_error_None in Etr; lia].
      assert (Ec : nth_error (combine (seq 0 (length trs)) (map (skipn n) trs)) a = Some (a, skipn n tr)).
      { apply combine_at; [exact Ea|]. now rewrite nth_error_map, Etr. }
      unfold mv_of. destruct (find (fun t => st_agent t =? a) comb) as [t|] eqn:Ef; cbn [option_map].
      + injection Hini as <-. split; [|split; [exact Eini|]].
        * intros Lt. rewrite Hm, Ef. apply Nat.ltb_lt in Lt. now rewrite Lt.
        * rewrite nth_error_map, Ec. cbn [option_map fst snd]. now rewrite Ef.
      + split; [rewrite Hm, Ef; reflexivity|]. rewrite nth_error_map, Etr in Hini. cbn [option_map obind] in Hini.
        rewrite nth_error_skipn, Nat.add_0_r in Hini. destruct (nth_error tr n) as [row|] eqn:Erow; [|discriminate]. injection Hini as <-.
        split.
        * exists (tl row). split; [|exact Eini]. exists tr, row. auto.
        * exists tr. split; [reflexivity|]. rewrite nth_error_map, Ec. cbn [option_map fst snd]. now rewrite Ef.
    - exists tr0, row0, time. auto.
  Qed.
End Proofs.
