(** The caches of incremental analysis: C40, C41, C42, C44, C45 and C68. *)
From Verif Require Import Base BaseFacts Dict Utils Boxes Overlay OverlaySpec Cache CacheSpec CacheProofs CacheSim CacheDiff.
From Coq Require Import Permutation Lqa Qabs.
Set Implicit Arguments.
Open Scope nat_scope.

Lemma Forall2_In_l {A B} (P : A -> B -> Prop) l m a : Forall2 P l m -> In a l -> exists b, In b m /\ P a b.
Proof. induction 1; intros []; [subst; eexists; split; [left; reflexivity|assumption]|]. destruct IHForall2 as (b & Hb & H'); [assumption|]. exists b. split; [right; exact Hb|exact H']. Qed.
Lemma Forall2_In_r {A B} (P : A -> B -> Prop) l m b : Forall2 P l m -> In b m -> exists a, In a l /\ P a b.
Proof. induction 1; intros []; [subst; eexists; split; [left; reflexivity|assumption]|]. destruct IHForall2 as (a & Ha & H'); [assumption|]. exists a. split; [right; exact Ha|exact H']. Qed.
(** Transitions recorded for some initial states and queried with others: [suits] on the values of each agent. *)
Section Suits.
  Context {V : Type}.
  Variable ok : V -> V -> bool.
  Definition suit_all (a b : dict nat (list V)) : option bool :=
    if same_keys a b then
      do l <- mapM (fun p => do bv <- dget Nat.eqb (fst p) b; Some (forallb (fun xy => ok (fst xy) (snd xy)) (combine (snd p) bv))) a;
      Some (forallb (fun x => x) l)
    else None.
  Lemma same_keys_iff {A B} (a : dict nat A) (b : dict nat B) : same_keys a b = true <-> forall x, In x (map fst a) <-> In x (map fst b).
  Proof.
    assert (H : forall {A B} (a : dict nat A) (b : dict nat B), forallb (fun p => existsb (Nat.eqb (fst p)) (map fst b)) a = true <-> forall x, In x (map fst a) -> In x (map fst b)).
    { clear. intros A B a b. rewrite forallb_forall. split.
      - intros H x Hx. apply in_map_iff in Hx. destruct Hx as (p & <- & Hp). specialize (H p Hp). apply existsb_exists in H. destruct H as (y & Hy & E). apply Nat.eqb_eq in E. rewrite E. exact Hy.
      - intros H p Hp. apply existsb_exists. exists (fst p). split; [apply H; apply in_map; exact Hp|apply Nat.eqb_refl]. }
    unfold same_keys. rewrite andb_true_iff, !H. split; [intros [P Q] x; split; auto|intros P; split; intros x Hx; apply P; exact Hx].
  Qed.
  Lemma suit_all_defined a b : (exists r, suit_all a b = Some r) <-> (forall x, In x (map fst a) <-> In x (map fst b)).
  Proof.
    rewrite <- same_keys_iff. unfold suit_all. destruct (same_keys a b) eqn:E; [|split; [intros [r H]; discriminate|discriminate]]. split; [reflexivity|intros _].
    rewrite same_keys_iff in E.
    destruct (@mapM_some _ _ (fun p => do bv <- dget Nat.eqb (fst p) b; Some (forallb (fun xy => ok (fst xy) (snd xy)) (combine (snd p) bv))) a) as [r ->]; [|eexists; reflexivity].
    intros p Hp. assert (I : In (fst p) (map fst b)) by (apply E; apply in_map; exact Hp).
    destruct (dget Nat.eqb (fst p) b) eqn:D; [discriminate|]. apply (dget_None Nat.eqb Nat.eqb_eq) in D. contradiction.
  Qed.
  Lemma suit_all_iff a b r : NoDup (map fst a) -> suit_all a b = Some r ->
    (r = true <-> forall agent va vb, dget Nat.eqb agent a = Some va -> dget Nat.eqb agent b = Some vb -> forallb (fun xy => ok (fst xy) (snd xy)) (combine va vb) = true).
  Proof.
    intros ND H. unfold suit_all in H. destruct (same_keys a b) eqn:E; [|discriminate]. rewrite same_keys_iff in E.
    destruct (mapM _ a) as [l|] eqn:M; [|discriminate]. injection H as <-. apply mapM_Forall2 in M. rewrite forallb_forall. split.
    - intros K agent va vb Da Db. apply (dget_In Nat.eqb Nat.eqb_eq) in Da. destruct (Forall2_In_l _ M Da) as (y & Hy & F). cbn [fst snd] in F. rewrite Db in F. cbn [obind] in F. injection F as F. rewrite F. apply K. exact Hy.
    - intros K y Hy. destruct (Forall2_In_r _ M Hy) as ([agent va] & Hp & F). cbn [fst snd] in F. destruct (dget Nat.eqb agent b) as [vb|] eqn:Db; [|discriminate]. cbn [obind] in F. injection F as <-.
      apply (K agent va vb); [|exact Db]. apply (In_dget Nat.eqb Nat.eqb_eq); assumption.
  Qed.
End Suits.
Lemma sim_suit_all a b : sim_trans_suit a b = suit_all close a b. Proof. reflexivity. Qed.
Lemma reach_suit_all a b : reach_trans_suit a b = suit_all box_suits a b. Proof. reflexivity. Qed.
Lemma nth_pairs {A B} (l : list A) (m : list B) k x y : nth_error (combine l m) k = Some (x, y) <-> nth_error l k = Some x /\ nth_error m k = Some y.
Proof.
  revert m k. induction l as [|a l IH]; intros [|b m] [|k]; cbn; try (split; [discriminate|intros [? ?]; discriminate]).
  - split; [intros E; injection E as -> ->; auto|intros [E1 E2]; congruence].
  - apply IH.
Qed.
Lemma combine_nth {A B} (l : list A) (m : list B) x y : In (x, y) (combine l m) <-> exists k, nth_error l k = Some x /\ nth_error m k = Some y.
Proof.
  split.
  - intros H. apply In_nth_error in H. destruct H as (k & H). apply nth_pairs in H. exists k. exact H.
  - intros (k & H). apply nth_pairs in H. eapply nth_error_In. exact H.
Qed.

(** ** C40 *)
(** A hit of the tube cache is a tube that was stored for the same agent and mode with a box that contains the queried one
    up to 1e-6 at the upper bounds, whatever was stored before, whichever insertions raised, and in whatever order the
    library iterates its sets. *)
Theorem C40_hit_contains : forall iter, (forall l, Permutation l (iter l)) ->
  forall (l : list store) agent mode qlo qhi a,
  (forall s, In s l -> length (s_lo s) = length (s_hi s)) -> length qlo = length qhi ->
  tube_hit iter (tube_history l) agent mode qlo qhi = Hit a ->
  exists s, In s l /\ s_agent s = agent /\ s_mode s = mode /\ s_addr s = a /\ nearly_contains (s_lo s) (s_hi s) qlo qhi.
Proof. intros iter P l agent mode qlo qhi a. apply tube_hit_sound. exact P. Qed.
Print Assumptions C40_hit_contains.

(** So if every stored tube covers the trajectories from its box widened by 1e-6, the cache answers are right in the sense of
    C43: a hit covers the trajectories from the queried box. *)
Theorem C40_hit_covers : forall iter, (forall l, Permutation l (iter l)) ->
  forall N d flow (l : list store) (h : list (list vec)) agent mode,
  (forall a t, nth_error h a = Some t -> tube_shape N d t) ->
  (forall s, In s l -> length (s_lo s) = length (s_hi s)) ->
  (forall s, In s l -> exists t, nth_error h (s_addr s) = Some t /\ sound_tube N flow t (s_lo s, widened (s_hi s))) ->
  cache_right N d flow (fun b => match tube_hit iter (tube_history l) agent mode (fst b) (snd b) with Hit a => Some a | _ => None end) h.
Proof.
  intros iter P N d flow l h agent mode Sh WF So. split; [exact Sh|]. intros [lo hi] c L1 L2 H. cbn [fst snd] in *.
  destruct (tube_hit iter (tube_history l) agent mode lo hi) as [|a|] eqn:E; try discriminate. injection H as ->.
  destruct (@tube_hit_sound iter P l agent mode lo hi c WF (eq_trans L1 (eq_sym L2)) E) as (s & Is & _ & _ & <- & NC).
  destruct (So s Is) as (t & Et & St). exists t. split; [exact Et|]. intros x j x' Hx Fl Lj. apply (St x); [|exact Fl|exact Lj]. cbn [fst snd] in *. exact (box_le_in_box _ _ _ _ _ NC Hx).
Qed.
Print Assumptions C40_hit_covers.

(** ** C41 *)
(** A query is a hit, on a tube whose box contains the queried one, if some stored box for the agent and mode contains it and
    every stored box for them that contains it in the first variable (up to 1e-6) contains it.  For one variable, or one
    stored box, that is always so.  Missing: the other case (C41_refuted). *)
Theorem C41_found_partial : forall iter, (forall l, Permutation l (iter l)) ->
  forall (l : list store) agent mode qlo qhi s0,
  proper qlo qhi -> (forall s, In s l -> proper (s_lo s) (s_hi s)) ->
  In s0 l -> s_agent s0 = agent -> s_mode s0 = mode -> contains_box (s_lo s0) (s_hi s0) qlo qhi ->
  (forall s ql qh sl sh, In s l -> s_agent s = agent -> s_mode s = mode ->
     hd_error qlo = Some ql -> hd_error qhi = Some qh -> hd_error (s_lo s) = Some sl -> hd_error (s_hi s) = Some sh ->
     (sl <= ql)%Q -> (qh <= sh + eps)%Q -> contains_box (s_lo s) (s_hi s) qlo qhi) ->
  exists s, In s l /\ s_agent s = agent /\ s_mode s = mode /\ tube_hit iter (tube_history l) agent mode qlo qhi = Hit (s_addr s) /\
    contains_box (s_lo s) (s_hi s) qlo qhi.
Proof. intros iter P l agent mode qlo qhi s0. apply tube_hit_found. exact P. Qed.
Print Assumptions C41_found_partial.

(** The search follows the tightest box of the first variable only: after storing [0,10]x[0,10] and [0,5]x[20,30] the query
    [1,2]x[1,2] misses. *)
Theorem C41_refuted : exists (l : list store) s0 qlo qhi, forall iter, (forall l, Permutation l (iter l)) ->
  In s0 l /\ proper qlo qhi /\ (forall s, In s l -> proper (s_lo s) (s_hi s)) /\ contains_box (s_lo s0) (s_hi s0) qlo qhi /\
  tube_hit iter (tube_history l) (s_agent s0) (s_mode s0) qlo qhi = Miss.
Proof.
  exists [mk_store 0 [0] [0; 0]%Q [10; 10]%Q 0; mk_store 0 [0] [0; 20]%Q [5; 30]%Q 1], (mk_store 0 [0] [0; 0]%Q [10; 10]%Q 0), [1; 1]%Q, [2; 2]%Q.
  intros iter P. split; [left; reflexivity|]. split; [split; [discriminate|repeat constructor; discriminate]|].
  split; [intros s [<-|[<-|[]]]; (split; [discriminate|repeat constructor; discriminate])|]. split; [repeat split; discriminate|].
  assert (I0 : iter [] = []) by (apply Permutation_nil, P).
  assert (I2 : forall x y, iter [x; y] = [x; y] \/ iter [x; y] = [y; x]) by (intros x y; apply Permutation_length_2_inv, P).
  set (h := tube_history _). vm_compute in h. unfold tube_hit. cbn [s_agent s_mode]. set (q := dget key_eqb [0; 0] h). vm_compute in q. subst q h. cbn beta iota.
  set (ps := pairs [1; 1]%Q [2; 2]%Q). vm_compute in ps. subst ps.
  cbn [descend]. match goal with |- context [filter (accepts ?p) ?es] => set (f := filter (accepts p) es) end. vm_compute in f. subst f.
  match goal with |- context [iter [?x; ?y]] => destruct (I2 x y) as [->| ->] end.
  - match goal with |- context [snd ?z] => set (w := snd z) end. vm_compute in w. subst w. cbn beta iota. match goal with |- context [filter (accepts ?p) ?es] => set (f := filter (accepts p) es) end. vm_compute in f. subst f. rewrite I0. reflexivity.
  - match goal with |- context [snd ?z] => set (w := snd z) end. vm_compute in w. subst w. cbn beta iota. match goal with |- context [filter (accepts ?p) ?es] => set (f := filter (accepts p) es) end. vm_compute in f. subst f. rewrite I0. reflexivity.
Qed.
Print Assumptions C41_refuted.

(** ** C42 *)
(** After any history of updates, a hit of the simulation cache is a segment stored by a new update for the same agent and
    mode whose initial state is within 1e-6, with the trace of that update; its transitions were recorded for initial
    states within 1e-6 of that one. *)
Theorem C42_hit_near : forall iter, (forall l, Permutation l (iter l)) ->
  forall (l : list update) c agent mode init inits a,
  sim_updates iter empty_sim l = Some c -> sim_hit iter c agent mode init inits = Hit a ->
  exists s u i, nth_error (sc_heap c) a = Some s /\ In u l /\ u_new u = true /\ u_agent u = agent /\ u_mode u = mode /\
    dget Nat.eqb agent (u_inits u) = Some i /\ near init i /\ g_trace s = u_trace u /\
    forall t, In t (g_trans s) -> exists u' i', In u' l /\ u_agent u' = agent /\ u_mode u' = mode /\
      dget Nat.eqb agent (u_inits u') = Some i' /\ near i' i /\ In t (u_trans u').
Proof.
  intros iter P l c agent mode init inits a U H. destruct (@sim_updates_holds iter P _ _ _ _ _ empty_holds U) as (os & Hh & _). cbn [app] in Hh.
  destruct (@sim_hit_origin iter P _ _ _ _ _ _ _ _ Hh H) as (o & Eo & Ag & Md & Nr). pose proof Hh as (_ & _ & _ & Ho). destruct (Ho a o Eo) as (A & B & C & D & s & E1 & E2 & E3).
  exists s, (o_upd o), (o_init o). split; [exact E1|]. split; [exact A|]. split; [exact B|]. split; [exact Ag|]. split; [exact Md|]. split; [rewrite <- Ag; exact C|]. split; [exact Nr|]. split; [exact E2|].
  intros t It. destruct (E3 t It) as (u' & i' & I' & A' & M' & D' & N' & T'). exists u', i'. split; [exact I'|]. split; [congruence|]. split; [congruence|]. split; [rewrite <- Ag, <- A'; exact D'|]. auto.
Qed.
Print Assumptions C42_hit_near.

(** If an update was stored (it missed the cache) and the query is strictly within 1e-6 of it, the query is a hit, and the
    segment found has at least as many transitions recorded for states close to the queried ones as the one of that update. *)
Theorem C42_found : forall iter, (forall l, Permutation l (iter l)) ->
  forall (l1 l2 : list update) u i c1 c agent mode init inits,
  sim_updates iter empty_sim l1 = Some c1 -> sim_updates iter empty_sim (l1 ++ u :: l2) = Some c ->
  u_agent u = agent -> u_mode u = mode -> dget Nat.eqb agent (u_inits u) = Some i ->
  sim_hit iter c1 agent mode i (u_inits u) = Miss -> strictly_near init i ->
  (forall v j, In v (l1 ++ u :: l2) -> u_agent v = agent -> u_mode v = mode -> dget Nat.eqb agent (u_inits v) = Some j -> length j = length init) ->
  (forall v t, In v (l1 ++ u :: l2) -> In t (u_trans v) -> same_keys (t_inits t) inits = true) ->
  exists a' s' s, sim_hit iter c agent mode init inits = Hit a' /\ nth_error (sc_heap c) a' = Some s' /\ In s (sc_heap c) /\ g_trace s = u_trace u /\
    forall n n', count_suit (fun t => sim_trans_suit (t_inits t) inits) (g_trans s) = Some n ->
      count_suit (fun t => sim_trans_suit (t_inits t) inits) (g_trans s') = Some n' -> n <= n'.
Proof.
  intros iter P l1 l2 u i c1 c agent mode init inits U1 U Ag Md Di Ms Nr Len Keys. destruct (@sim_updates_holds iter P _ _ _ _ _ empty_holds U1) as (os1 & H1 & _). cbn [app] in H1.
  rewrite sim_updates_app, U1 in U. cbn [obind sim_updates] in U. destruct (sim_update iter c1 u) as [c2|] eqn:U2; [|discriminate]. cbn [obind] in U.
  destruct (@sim_update_holds iter P _ _ _ _ _ H1 U2) as (os2 & H2 & _ & St). destruct (St i) as (a & Ea); [rewrite Ag; exact Di|rewrite Ag, Md; exact Ms|].
  destruct (@sim_updates_holds iter P _ _ _ _ _ H2 U) as (os & Hh & Pr). rewrite <- app_assoc in Hh. cbn [app] in Hh. apply Pr in Ea.
  destruct (@sim_hit_stored iter P _ c os agent mode init inits a _ Hh Ea Ag Md Nr Len Keys) as (a' & s & s' & A & B & C & D). exists a', s', s. split; [exact A|]. split; [exact B|]. split; [eapply nth_error_In; exact C|]. split; [|exact D].
  pose proof Hh as (_ & _ & _ & Ho). destruct (Ho a _ Ea) as (_ & _ & _ & _ & s2 & E1 & E2 & _). rewrite C in E1. injection E1 as <-. exact E2.
Qed.
Print Assumptions C42_found.

(** A transition counts as recorded for close states exactly if the agents are the same and each entry of each agent's state
    differs by less than 1e-6. *)
Theorem C42_suits : forall (a b : dict nat vec), NoDup (map fst a) ->
  ((exists r, sim_trans_suit a b = Some r) <-> (forall x, In x (map fst a) <-> In x (map fst b))) /\
  forall r, sim_trans_suit a b = Some r ->
    (r = true <-> forall agent va vb k x y, dget Nat.eqb agent a = Some va -> dget Nat.eqb agent b = Some vb ->
       nth_error va k = Some x -> nth_error vb k = Some y -> (Qabs (x - y) < 1 # 1000000)%Q).
Proof.
  intros a b ND. rewrite sim_suit_all. split.
  - apply suit_all_defined.
  - intros r H. rewrite (suit_all_iff _ _ _ ND H). split.
    + intros K agent va vb k x y Da Db Ex Ey. specialize (K agent va vb Da Db). rewrite forallb_forall in K. specialize (K (x, y) (proj2 (combine_nth _ _ _ _) (ex_intro _ k (conj Ex Ey)))). cbn [fst snd] in K.
      unfold close in K. apply negb_true_iff in K. destruct (Qlt_le_dec (Qabs (x - y)) eps) as [L|L]; [exact L|]. apply Qle_bool_iff in L. congruence.
    + intros K agent va vb Da Db. apply forallb_forall. intros [x y] I. destruct (proj1 (combine_nth _ _ _ _) I) as (k & Ex & Ey). specialize (K agent va vb k x y Da Db Ex Ey). cbn [fst snd].
      unfold close. apply negb_true_iff. destruct (Qle_bool eps (Qabs (x - y))) eqn:L; [|reflexivity]. apply Qle_bool_iff in L. unfold eps in L. exfalso. apply (Qlt_not_le _ _ K L).
Qed.
Print Assumptions C42_suits.

(** ** C44 *)
(** If every tube put in the cache has at least [N] steps, so has every tube it returns.  Missing: nothing checks that the
    runs that filled the cache had at least the horizon of the present one (C44_refuted). *)
Theorem C44_long_enough_partial : forall iter, (forall l, Permutation l (iter l)) ->
  forall (l : list store) (h : list (list vec)) N agent mode qlo qhi a,
  (forall s, In s l -> length (s_lo s) = length (s_hi s)) -> length qlo = length qhi ->
  (forall s, In s l -> exists t, nth_error h (s_addr s) = Some t /\ 2 * N <= length t) ->
  tube_hit iter (tube_history l) agent mode qlo qhi = Hit a -> exists t, nth_error h a = Some t /\ 2 * N <= length t.
Proof. intros iter P l h N agent mode qlo qhi a WF WQ Lg H. destruct (@tube_hit_sound iter P _ _ _ _ _ _ WF WQ H) as (s & Is & _ & _ & <- & _). apply Lg. exact Is. Qed.
Print Assumptions C44_long_enough_partial.

(** The key has neither the horizon nor the time step: after a run of one step, a node that needs three gets one. *)
Theorem C44_refuted : exists (l : list store) (h : list (list vec)) (engine : box -> list vec) b h' t upd,
  length (engine b) = 6 /\
  calc_full_incremental engine (fun b => match tube_hit (fun x => x) (tube_history l) 0 [0] (fst b) (snd b) with Hit a => Some a | _ => None end) h [b] 1 = Some (h', t, upd) /\
  length t = 2.
Proof.
  exists [mk_store 0 [0] [0]%Q [1]%Q 0], [[[0; 0]; [1; 1]]%Q], (fun b => [0%Q :: fst b; 1%Q :: snd b; 1%Q :: fst b; 2%Q :: snd b; 2%Q :: fst b; 3%Q :: snd b]), ([0]%Q, [1]%Q).
  eexists. eexists. eexists. split; [reflexivity|]. split; [vm_compute; reflexivity|]. reflexivity.
Qed.
Print Assumptions C44_refuted.

(** The simulation cache has the same defect, and in addition returns the times of the node that filled it: a node that
    starts at time 5 gets a trace that starts at time 0. *)
Theorem C44_times_refuted : exists (simulate : list nat -> vec -> Q -> list vec) l c tr,
  (forall m i r, map (hd 0%Q) (simulate m i r) = [0; 1]%Q) /\
  sim_updates (fun x => x) empty_sim l = Some c /\
  node_trace (fun x => x) simulate c 0 [0] [(0, [3]%Q)] 5 1 = Some tr /\ map (hd 0%Q) tr = [0; 1]%Q /\
  node_trace (fun x => x) simulate empty_sim 0 [0] [(0, [3]%Q)] 5 1 = Some [[0 + 5; 3]; [1 + 5; 3]]%Q.
Proof.
  exists (fun _ i _ => [0%Q :: i; 1%Q :: i]), [mk_update true 0 [0] [(0, [3]%Q)] [[0; 3]; [1; 3]]%Q []].
  eexists. eexists. split; [reflexivity|]. split; [vm_compute; reflexivity|]. split; [vm_compute; reflexivity|]. split; [reflexivity|]. vm_compute. reflexivity.
Qed.
Print Assumptions C44_times_refuted.

(** ** C45 *)
(** What is reused comes from the cache with its stored results, and none of the paths that produced it is the same, in
    condition and value, as an old path that is gone or whose condition changed; and every new or changed path of an agent
    with cached transitions is checked again, and nothing else. *)
Theorem C45_reuse_partial : forall old new cached keep check,
  to_simulate old new cached = Some (keep, check) ->
  (forall a ts', In (a, ts') keep -> exists ts, In (a, ts) cached /\ map q_result ts' = map q_result ts /\
     (ts = [] \/ exists o n, dget Nat.eqb a old = Some o /\ dget Nat.eqb a new = Some n /\
        forall t p r, In t ts -> In p (q_paths t) -> path_gone (snd o) (snd n) r -> ~ (m_cond p = m_cond r /\ m_val p = m_val r))) /\
  (forall a n p, In (a, p) check -> dget Nat.eqb a new = Some n -> exists o, dget Nat.eqb a old = Some o /\ path_new (snd o) (snd n) p) /\
  (forall a ts o n p, In (a, ts) cached -> ts <> [] -> dget Nat.eqb a old = Some o -> dget Nat.eqb a new = Some n ->
     path_new (snd o) (snd n) p -> In (a, p) check).
Proof. intros old new cached keep check H. unfold to_simulate in H. destruct (same_keys old new); [|discriminate]. apply to_simulate_inv. exact H. Qed.
Print Assumptions C45_reuse_partial.

(** An agent whose cached segment has no transitions is not compared at all: its changed path is not checked again. *)
Theorem C45_unchecked_refuted : exists old new cached keep check a o n p,
  to_simulate old new cached = Some (keep, check) /\ dget Nat.eqb a old = Some o /\ dget Nat.eqb a new = Some n /\
  In a (map fst cached) /\ path_new (snd o) (snd n) p /\ ~ In (a, p) check /\ In (a, []) keep.
Proof.
  exists [(0, ([], [mk_mpath 1 1 0 1 1]))], [(0, ([], [mk_mpath 2 2 0 1 1]))], [(0, [])]. eexists. eexists. exists 0. eexists. eexists. exists (mk_mpath 2 2 0 1 1).
  split; [reflexivity|]. split; [reflexivity|]. split; [reflexivity|]. split; [left; reflexivity|]. split; [exists 0, 0; split; [reflexivity|intros o E; injection E as <-; discriminate]|]. split; [intros []|left; reflexivity].
Qed.
Print Assumptions C45_unchecked_refuted.

(** A logic with one more path for a variable makes the comparison raise. *)
Theorem C45_more_paths_refuted : exists old new cached, same_keys old new = true /\ cached <> [] /\ to_simulate old new cached = None.
Proof.
  exists [(0, ([], [mk_mpath 1 1 0 1 1]))], [(0, ([], [mk_mpath 1 1 0 1 1; mk_mpath 2 2 0 2 2]))], [(0, [mk_ptrans [mk_mpath 1 1 0 1 1] 7])].
  split; [reflexivity|]. split; [discriminate|reflexivity].
Qed.
Print Assumptions C45_more_paths_refuted.

(** A path whose value changed is not checked again, and the transitions it produced are reused with the result of the old
    value. *)
Theorem C45_stale_result_refuted : exists old new cached keep check,
  to_simulate old new cached = Some (keep, check) /\ check = [] /\
  cached = [(0, [mk_ptrans [mk_mpath 1 1 0 1 1] 7])] /\ keep = [(0, [mk_ptrans [mk_mpath 1 1 0 2 1] 7])].
Proof.
  exists [(0, ([], [mk_mpath 1 1 0 1 1]))], [(0, ([], [mk_mpath 1 1 0 2 2]))], [(0, [mk_ptrans [mk_mpath 1 1 0 1 1] 7])]. eexists. eexists.
  split; [reflexivity|]. split; [reflexivity|]. split; reflexivity.
Qed.
Print Assumptions C45_stale_result_refuted.

(** ** C68 *)
(** A hit of the transition cache was stored for the same agent and mode with a box that contains the queried one up to 1e-6. *)
Theorem C68_transitions_contain : forall iter, (forall l, Permutation l (iter l)) ->
  forall (l : list store) h agent mode qlo qhi inits a,
  (forall s, In s l -> length (s_lo s) = length (s_hi s)) -> length qlo = length qhi ->
  reach_hit iter (tube_history l) h agent mode qlo qhi inits = Hit a ->
  exists s, In s l /\ s_agent s = agent /\ s_mode s = mode /\ s_addr s = a /\ nearly_contains (s_lo s) (s_hi s) qlo qhi.
Proof. intros iter P l h agent mode qlo qhi inits a. apply reach_hit_sound. exact P. Qed.
Print Assumptions C68_transitions_contain.

(** If a stored box contains the queried one, the query is a hit, on an entry with at least as many suitable transitions. *)
Theorem C68_transitions_found : forall iter, (forall l, Permutation l (iter l)) ->
  forall (l : list store) h agent mode qlo qhi inits s0,
  proper qlo qhi -> (forall s, In s l -> length (s_lo s) = length (s_hi s)) ->
  (forall s, In s l -> s_agent s = agent -> s_mode s = mode -> length (s_lo s) = length qlo) ->
  (forall s, In s l -> reach_num h inits (s_addr s) <> None) ->
  In s0 l -> s_agent s0 = agent -> s_mode s0 = mode -> contains_box (s_lo s0) (s_hi s0) qlo qhi ->
  exists a, reach_hit iter (tube_history l) h agent mode qlo qhi inits = Hit a /\
    forall n, reach_num h inits (s_addr s0) = Some n -> exists m, reach_num h inits a = Some m /\ n <= m.
Proof. intros iter P l h agent mode qlo qhi inits s0. apply reach_hit_found. exact P. Qed.
Print Assumptions C68_transitions_found.

(** A transition counts as suitable exactly if the agents are the same and each recorded initial box of each agent contains the
    corresponding queried one in every variable. *)
Theorem C68_suits : forall (a b : dict nat (list (vec * vec))), NoDup (map fst a) ->
  ((exists r, reach_trans_suit a b = Some r) <-> (forall x, In x (map fst a) <-> In x (map fst b))) /\
  forall r, reach_trans_suit a b = Some r ->
    (r = true <-> forall agent ba bb k blo bhi qlo qhi v l h ql qh, dget Nat.eqb agent a = Some ba -> dget Nat.eqb agent b = Some bb ->
       nth_error ba k = Some (blo, bhi) -> nth_error bb k = Some (qlo, qhi) ->
       nth_error blo v = Some l -> nth_error bhi v = Some h -> nth_error qlo v = Some ql -> nth_error qhi v = Some qh -> (l <= ql /\ qh <= h)%Q).
Proof.
  intros a b ND. rewrite reach_suit_all. split.
  - apply suit_all_defined.
  - intros r H. rewrite (suit_all_iff _ _ _ ND H). split.
    + intros K agent ba bb k blo bhi qlo qhi v l h ql qh Da Db E1 E2 E3 E4 E5 E6. specialize (K agent ba bb Da Db). rewrite forallb_forall in K.
      specialize (K _ (proj2 (combine_nth _ _ _ _) (ex_intro _ k (conj E1 E2)))). unfold box_suits in K. cbn [fst snd] in K. rewrite forallb_forall in K.
      specialize (K _ (proj2 (combine_nth _ _ _ _) (ex_intro _ v (conj (proj2 (nth_pairs _ _ _ _ _) (conj E3 E4)) (proj2 (nth_pairs _ _ _ _ _) (conj E5 E6)))))). cbn beta iota in K. apply andb_true_iff in K. rewrite !Qle_bool_iff in K. exact K.
    + intros K agent ba bb Da Db. apply forallb_forall. intros [[blo bhi] [qlo qhi]] I. destruct (proj1 (combine_nth _ _ _ _) I) as (k & E1 & E2). cbn [fst snd].
      unfold box_suits. cbn [fst snd]. apply forallb_forall. intros [[l h] [ql qh]] I2. destruct (proj1 (combine_nth _ _ _ _) I2) as (v & F1 & F2).
      apply nth_pairs in F1, F2. destruct F1 as [F3 F4]. destruct F2 as [F5 F6].
      destruct (K agent ba bb k blo bhi qlo qhi v l h ql qh Da Db E1 E2 F3 F4 F5 F6) as [G1 G2]. apply andb_true_iff. rewrite !Qle_bool_iff. auto.
Qed.
Print Assumptions C68_suits.

(** ** Cases *)
Module Example_cache.
  Local Open Scope Q_scope.
  Definition same (l : list entry) := l.
  Lemma same_perm : forall l, Permutation l (same l). Proof. intros l. apply Permutation_refl. Qed.
  Definition l : list store := [mk_store 0 [0%nat] [0; 0] [10; 10] 0; mk_store 0 [1%nat] [0; 0] [9; 9] 1; mk_store 0 [0%nat] [3; 1] [2; 4] 2; mk_store 0 [0%nat] [5; 0] [20; 4] 3].
  Example hit : tube_hit same (tube_history l) 0 [0%nat] [6; 1] [7; 2] = Hit 0. Proof. vm_compute. reflexivity. Qed.
  Example hit_at_edge : tube_hit same (tube_history l) 0 [0%nat] [6; 1] [10 + (1 # 2000000); 2] = Hit 0. Proof. vm_compute. reflexivity. Qed.
  Example miss : tube_hit same (tube_history l) 0 [0%nat] [6; 1] [30; 2] = Miss. Proof. vm_compute. reflexivity. Qed.
  Example other_mode : tube_hit same (tube_history l) 0 [2%nat] [6; 1] [7; 2] = Miss. Proof. vm_compute. reflexivity. Qed.
  Example lengths : forall s, In s l -> length (s_lo s) = length (s_hi s). Proof. intros s [<-|[<-|[<-|[<-|[]]]]]; reflexivity. Qed.

  (** Three updates: the second is close to the first and adds a transition to it, the third is for another state. *)
  Definition tr (x : Q) (n : nat) : ctrans := mk_ctrans [(0%nat, [x]); (1%nat, [7])] n [] [].
  Definition us : list update := [
    mk_update true 0 [0%nat] [(0%nat, [3]); (1%nat, [7])] [[0; 3]; [1; 4]] [];
    mk_update false 0 [0%nat] [(0%nat, [3 + (1 # 3000000)]); (1%nat, [7])] [[0; 0]] [tr 3 1];
    mk_update true 0 [0%nat] [(0%nat, [5]); (1%nat, [7])] [[0; 5]; [1; 6]] [tr 5 2]].
  Definition c : sim_cache := match sim_updates same empty_sim us with Some c => c | None => empty_sim end.
  Example updates : sim_updates same empty_sim us = Some c. Proof. vm_compute. reflexivity. Qed.
  Example two_segments : map (fun s => length (g_trans s)) (sc_heap c) = [1; 1]%nat. Proof. vm_compute. reflexivity. Qed.
  Example sim_found : sim_hit same c 0 [0%nat] [3 - (1 # 3000000)] [(0%nat, [3]); (1%nat, [7])] = Hit 0. Proof. vm_compute. reflexivity. Qed.
  Example sim_missed : sim_hit same c 0 [0%nat] [4] [(0%nat, [4]); (1%nat, [7])] = Miss. Proof. vm_compute. reflexivity. Qed.
  Example first_missed : sim_hit same empty_sim 0 [0%nat] [3] [(0%nat, [3]); (1%nat, [7])] = Miss. Proof. vm_compute. reflexivity. Qed.
  Example same_agents : forall v t, In v us -> In t (u_trans v) -> same_keys (t_inits t) [(0%nat, [3]); (1%nat, [7])] = true.
  Proof. intros v t [<-|[<-|[<-|[]]]] I; [destruct I|destruct I as [<-|[]]; reflexivity|destruct I as [<-|[]]; reflexivity]. Qed.

  (** One path removed, one with another condition, one unchanged. *)
  Definition p1 := mk_mpath 1 1 0 1 1.
  Definition p2 := mk_mpath 2 2 0 2 2.
  Definition p3 := mk_mpath 3 3 1 3 3.
  Definition p2' := mk_mpath 5 5 0 2 2.
  Example diff : to_simulate [(0%nat, ([9%nat], [p1; p2; p3])); (1%nat, ([9%nat], [p3]))] [(0%nat, ([9%nat], [p1; p2'; p3])); (1%nat, ([9%nat], [p3]))] [(0%nat, [mk_ptrans [p2] 7]); (1%nat, [mk_ptrans [p3] 8])] =
    Some ([(1%nat, [mk_ptrans [p3] 8])], [(0%nat, p2')]).
  Proof. vm_compute. reflexivity. Qed.

  (** Unlike the tube cache, the transition cache finds the box of C41_refuted. *)
  Example trans_found : reach_hit same (tube_history [mk_store 0 [0%nat] [0; 0] [10; 10] 0; mk_store 0 [0%nat] [0; 20] [5; 30] 1]) [[]; []] 0 [0%nat] [1; 1] [2; 2] [] = Hit 0.
  Proof. vm_compute. reflexivity. Qed.
End Example_cache.

Module Example_suits.
  Local Open Scope Q_scope.
  Example close_states : sim_trans_suit [(0%nat, [1; 2]); (1%nat, [3])] [(1%nat, [3]); (0%nat, [1; 2 + (1 # 2000000)])] = Some true /\
    sim_trans_suit [(0%nat, [1; 2]); (1%nat, [3])] [(1%nat, [4]); (0%nat, [1; 2])] = Some false /\ NoDup (map fst [(0%nat, [1; 2]); (1%nat, [3])]).
  Proof. split; [reflexivity|]. split; [reflexivity|]. repeat constructor; cbn; intuition discriminate. Qed.
  Example boxes : reach_trans_suit [(0%nat, [([0], [5])])] [(0%nat, [([1], [5])])] = Some true /\ reach_trans_suit [(0%nat, [([0], [5])])] [(0%nat, [([1], [6])])] = Some false.
  Proof. split; reflexivity. Qed.
End Example_suits.
