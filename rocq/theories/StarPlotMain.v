From Coq Require Import Ascii String.
From Verif Require Import Base Dict PyText Tree TreeSpec TreeProofs Plot PlotProofs PlotSlice Star StarSpec StarProofs StarPlot StarPlotSpec StarPlotProofs.
From Verif Require Import BaseFacts.
From Coq Require Import Lqa Lia.
Set Implicit Arguments.
Open Scope nat_scope.

(** * Success *)
Lemma put_some l i v : i < length l -> exists l', put l i v = Some l'.
Proof. revert i. induction l as [|a l IH]; intros i H; cbn in H; [lia|]. destruct i; cbn; [eauto|]. destruct (IH i) as [l' ->]; [lia|]. cbn. eauto. Qed.
Lemma direction_some s dims cs : fst (drawn_dims dims) < dim s -> snd (drawn_dims dims) < dim s -> exists d, direction s dims cs = Some d /\ length d = dim s.
Proof.
  destruct dims as [[d1 d2]|]; cbn [direction drawn_dims fst snd]; intros H1 H2.
  - destruct (@put_some (repeat 0%Q (dim s)) d1 (fst cs)) as [v Ev]; [rewrite repeat_length; exact H1|]. destruct (put_len _ _ _ Ev) as [Lv _]. rewrite repeat_length in Lv.
    destruct (@put_some v d2 (snd cs)) as [v' Ev']; [lia|]. exists v'. rewrite Ev. split; [exact Ev'|]. destruct (put_len _ _ _ Ev'). lia.
  - eexists. split; [reflexivity|]. cbn. rewrite repeat_length. unfold dim in *. lia.
Qed.
Lemma row_times_some r m r0 : hd_error m = Some r0 -> length r = length m -> row_times r m = Some (map (fun k => dot r (Star.column k m)) (seq 0 (length r0))).
Proof. intros H L. unfold row_times, matmul. rewrite H. cbn [obind mapM]. rewrite L, Nat.eqb_refl. reflexivity. Qed.
Lemma inner_bound q c : exists b, forall y, length y = length c -> Forall (fun a => - q <= a <= q)%Q y -> (b <= inner c y)%Q.
Proof.
  induction c as [|x c [b H]]; [exists 0%Q; intros [|] L _; cbn; lra|]. exists (b - Qmax x (- x) * Qmax q 0)%Q. intros [|z y] L F; [discriminate|]. inversion F as [|? ? Hz Hy]; subst. specialize (H y ltac:(cbn in L; lia) Hy). cbn [inner].
  pose proof (Q.le_max_l x (- x)). pose proof (Q.le_max_r x (- x)). pose proof (Q.le_max_l q 0). pose proof (Q.le_max_r q 0). set (X := Qmax x (- x)) in *. set (Y := Qmax q 0) in *. assert (- (X * Y) <= x * z)%Q; [|lra]. nra.
Qed.
Lemma maximize_some linprog s d : wf_star s -> solves linprog s -> bounded_star s -> (exists p, in_star s p) -> gens s = dim s -> 0 < dim s -> length d = dim s ->
  exists p, maximize linprog s d = Some p /\ length p = dim s.
Proof.
  intros W LP [q Bd] (p0 & al & La & Oa & _) GD D0 Ld. pose proof W as (W1 & W2 & W3). unfold maximize. cbn zeta.
  destruct (hd_error (basis s)) as [r0|] eqn:Eh; [|unfold gens in GD; destruct (basis s); [cbn in GD; lia|discriminate]]. pose proof (first_len W Eh) as Lr.
  rewrite (fun r => @row_times_some r _ _ Eh) by (unfold vopp; rewrite map_length; unfold gens in GD; lia). cbn [obind]. rewrite Lr. set (dd := map _ _).
  assert (Ldd : length dd = gens s) by (unfold dd; rewrite map_length, seq_length; auto). unfold run_lp.
  assert (Ea : all_len (length dd) (C s) = true) by (apply all_len_iff; intros r Hr; rewrite Ldd; apply W2, Hr). rewrite Ea, W3, Nat.eqb_refl. cbn [andb obind].
  pose proof (LP dd Ldd) as X. unfold exact_lp in X. destruct (linprog true dd (C s) (g s)) as [x| |].
  - destruct X as (Lx & _). rewrite (fun r => @row_times_some r _ _ Eh) by (unfold gens in *; lia). cbn [obind]. eexists. split; [reflexivity|]. unfold vadd. rewrite zipw_length, map_length, seq_length, Lr. unfold dim. lia.
  - destruct (X al); [congruence|]. split; [exact Oa|discriminate].
  - destruct (inner_bound q dd) as [b Hb]. destruct (X b) as (y & Ly & [Oy _] & Hy). specialize (Hb y Ly (Bd y ltac:(congruence) Oy)). lra.
Qed.
Lemma verts_some linprog circle s dims : wf_star s -> solves linprog s -> bounded_star s -> (exists p, in_star s p) -> gens s = dim s ->
  fst (drawn_dims dims) < dim s -> snd (drawn_dims dims) < dim s -> circle <> [] -> exists path, get_verts linprog circle s dims = Some path.
Proof.
  intros W LP B NE GD H1 H2 Hc. unfold get_verts. fold (drawn_dims dims).
  match goal with |- exists path, obind (mapM ?f _) _ = _ => assert (T : forall cs, exists xy, f cs = Some xy) end.
  { intros cs. cbv beta. destruct (direction_some s dims cs H1 H2) as (d & Ed & Ld). rewrite Ed. cbn [obind]. destruct (@maximize_some linprog s d) as (p & Ep & Lp); try assumption; [lia|]. rewrite Ep. cbn [obind].
    destruct (nth_error p (fst (drawn_dims dims))) eqn:N1; [|apply nth_error_None in N1; lia]. destruct (nth_error p (snd (drawn_dims dims))) eqn:N2; [|apply nth_error_None in N2; lia]. cbn. eauto. }
  match goal with |- exists path, obind (mapM ?f _) _ = _ => set (F := f) in * end.
  assert (M : exists pts, mapM F circle = Some pts /\ pts <> []).
  { destruct circle as [|c l]; [destruct (Hc eq_refl)|]. clear Hc. cbn [mapM]. destruct (T c) as [xy ->]. cbn [obind].
    assert (R : exists r, mapM F l = Some r) by (clear - T; induction l as [|a l [r IH]]; [exists []; reflexivity|]; cbn [mapM]; destruct (T a) as [xy ->]; cbn [obind]; rewrite IH; cbn [obind]; eauto).
    destruct R as [r ->]. cbn [obind]. eexists. split; [reflexivity|discriminate]. }
  destruct M as (pts & -> & Np). cbn [obind]. destruct pts as [|p0 pts]; [destruct (Np eq_refl)|]. cbn. eauto.
Qed.

(** * Sampling *)
Lemma take_every_ok {A} (l : list A) k : 0 < k -> exists l', take_every l k = Some l' /\ forall r, In r l' <-> exists j, nth_error l (j * k) = Some r.
Proof.
  intros Hk. unfold take_every. destruct (Nat.eqb_spec k 0); [lia|].
  assert (T : forall idx, (forall i, In i idx -> i < length l) -> exists l', mapM (nth_error l) idx = Some l' /\ forall r, In r l' <-> exists i, In i idx /\ nth_error l i = Some r).
  { induction idx as [|i idx IH]; intros H; [exists []; split; [reflexivity|]; intros r; split; [intros []|intros (i & [] & _)]|].
    destruct IH as (l' & E & P); [intros; apply H; cbn; auto|]. destruct (nth_error l i) as [a|] eqn:Ei; [|apply nth_error_None in Ei; specialize (H i (or_introl eq_refl)); lia].
    exists (a :: l'). cbn [mapM]. rewrite Ei. cbn [obind]. rewrite E. split; [reflexivity|]. intros r. cbn. rewrite P. split.
    - intros [<-|(j & Hj & Ej)]; [exists i; auto|exists j; auto].
    - intros (j & [<-|Hj] & Ej); [left; congruence|right; exists j; auto]. }
  destruct (T (range_by 0 (length l) k)) as (l' & E & P).
  { intros i Hi. apply range_by_In in Hi; [|exact Hk]. destruct Hi as (_ & _ & Hl). exact Hl. }
  exists l'. split; [exact E|]. intros r. rewrite P. split.
  - intros (i & Hi & Ei). apply range_by_In in Hi; [|exact Hk]. destruct Hi as (j & -> & _). exists j. exact Ei.
  - intros (j & Ej). exists (j * k). split; [|exact Ej]. apply range_by_In; [exact Hk|]. exists j. split; [reflexivity|]. apply nth_error_Some. congruence.
Qed.
Lemma dict_every {V W} (f : V -> option W) (d : dict word V) d' a : mapM (fun kv => do tr <- f (snd kv); Some (fst kv, tr)) d = Some d' ->
  (dget word_eqb a d = None /\ dget word_eqb a d' = None) \/ exists v v', dget word_eqb a d = Some v /\ dget word_eqb a d' = Some v' /\ f v = Some v'.
Proof.
  revert d'. induction d as [|[k v] d IH]; intros d' H; cbn [mapM] in H; [injection H as <-; left; auto|]. cbn [fst snd] in H.
  destruct (f v) as [v'|] eqn:Ef; [cbn [obind] in H|discriminate]. destruct (mapM _ d) as [r|] eqn:Er; [cbn [obind] in H|discriminate]. injection H as <-. cbn [dget].
  destruct (word_eqb a k); [right; exists v, v'; auto|]. apply (IH r eq_refl).
Qed.
Lemma sample_ok t k : 0 < k -> exists t', sample_stars t k = Some t' /\ s_agents t' = s_agents t /\ s_type t' = s_type t /\
  (forall q a, (exists tr, star_trace t q a tr) <-> (exists tr, star_trace t' q a tr)) /\
  (forall q a tr tr', star_trace t q a tr -> star_trace t' q a tr' -> take_every tr k = Some tr').
Proof.
  intros Hk. unfold sample_stars. cbn [eq_str]. cbn zeta.
  match goal with |- context [treeM ?f _] => set (F := f) end.
  assert (T : forall n, F n <> None).
  { intros n. unfold F. induction n as [|[a tr] n IH]; cbn [mapM]; [discriminate|]. cbn [snd fst]. destruct (take_every_ok tr Hk) as (l' & -> & _). cbn [obind]. destruct (mapM _ n); [cbn; discriminate|]. destruct (IH eq_refl). }
  destruct (treeM_at F T (s_root t)) as (r & -> & P). cbn [obind]. eexists. split; [reflexivity|]. split; [reflexivity|]. split; [reflexivity|].
  assert (Q : forall q a, ((forall tr, ~ star_trace t q a tr) /\ (forall tr, ~ star_trace (mkst (s_agents t) (s_type t) r) q a tr)) \/
    exists tr tr', star_trace t q a tr /\ star_trace (mkst (s_agents t) (s_type t) r) q a tr' /\ take_every tr k = Some tr').
  { intros q a. unfold star_trace. cbn [s_root]. destruct (P q) as [[E1 E2]|(n & n' & E1 & E2 & E3)].
    - left. rewrite E1, E2. split; intros tr (m & [=] & _).
    - rewrite E1, E2. unfold F in E3. destruct (dict_every (fun l : list (Q * star) => take_every l k) _ a E3) as [[D1 D2]|(v & v' & D1 & D2 & D3)].
      + left. split; intros tr (m & [= <-] & Hm); congruence.
      + right. exists v, v'. split; [exists n; auto|]. split; [exists n'; auto|exact D3]. }
  split.
  - intros q a. destruct (Q q a) as [[A B]|(tr & tr' & A & B & _)]; [split; intros [tr Htr]; [destruct (A _ Htr)|destruct (B _ Htr)]|]. split; eauto.
  - intros q a tr tr' H H'. destruct (Q q a) as [[A B]|(x & x' & A & B & E)]; [destruct (A _ H)|].
    assert (U : forall t q a x y, star_trace t q a x -> star_trace t q a y -> x = y) by (clear; intros t q a x y (n & E & D) (n' & E' & D'); congruence).
    rewrite (U _ _ _ _ _ H A), (U _ _ _ _ _ H' B). exact E.
Qed.
