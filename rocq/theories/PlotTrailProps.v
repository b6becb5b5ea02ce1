(** C106: the animation of a simulation with a trail. *)
From Coq Require Import Ascii String Sorted Lqa.
From Verif Require Import Base BaseFacts Dict PyText Round RoundProofs Tree TreeSpec TreeProofs ResetProofs Plot PlotSpec PlotGeom PlotProofs PlotMain PlotProps
  PlotAnime PlotAnimeSpec PlotAnimeProofs PlotAnimeMain PlotAnimeFrames PlotAnimeProps.
Set Implicit Arguments.
Open Scope nat_scope.
Import Example_tubes.

Lemma mapM_length {A B} (f : A -> option B) l r : mapM f l = Some r -> length r = length l.
Proof. revert r. induction l as [|a l IH]; intros r H; cbn in H; [injection H as <-; reflexivity|]. destruct (f a); [|discriminate]. cbn in H. destruct (mapM f l); [|discriminate]. cbn in H. injection H as <-. cbn. f_equal. apply IH. reflexivity. Qed.
Lemma mapM_none {A B} (f : A -> option B) l a : In a l -> f a = None -> mapM f l = None.
Proof. induction l as [|b l IH]; intros [] E; cbn; [subst; rewrite E; reflexivity|]. destruct (f b); [|reflexivity]. cbn. rewrite IH; auto. Qed.
Lemma mapM_names {A B C} (f : A -> option (B * C)) (h : A -> B) l r : (forall a b, In a l -> f a = Some b -> fst b = h a) -> mapM f l = Some r -> map fst r = map h l.
Proof. revert r. induction l as [|a l IH]; intros r G H; cbn in H; [injection H as <-; reflexivity|]. destruct (f a) eqn:E; [|discriminate]. cbn in H. destruct (mapM f l); [|discriminate]. cbn in H. injection H as <-. cbn. rewrite (G a p (or_introl eq_refl) E). f_equal. apply IH; [intros; apply G; auto; right; assumption|reflexivity]. Qed.
Lemma concat_names {A B C} (ids : list B) (f : A -> option (list (A * B * C))) l ls : (forall a r, In a l -> f a = Some r -> map fst r = map (fun i => (a, i)) ids) -> mapM f l = Some ls -> map fst (concat ls) = list_prod l ids.
Proof.
  revert ls. induction l as [|a l IH]; intros ls G H; cbn in H; [injection H as <-; reflexivity|]. destruct (f a) eqn:E; [|discriminate]. cbn in H. destruct (mapM f l); [|discriminate]. cbn in H. injection H as <-. cbn. rewrite map_app, (G a l0 (or_introl eq_refl) E). f_equal. apply IH; [intros; apply G; auto; right; assumption|reflexivity].
Qed.

Section Trail.
  Variables (t : ptree) (x_dim y_dim digits : nat).
  Hypothesis C : complete t x_dim y_dim.
  Hypothesis Start : exists a t0 r, has_state t a t0 r /\ tick digits t0 = 0%Z.

  (** What both animations share. *)
  Lemma shared : exists d l fs0, motion_collect x_dim y_dim digits (t_root t) = Some d /\ simulation_anime t x_dim y_dim digits 1 = Some (t, (l, fs0)) /\
    mapM (motion_frame x_dim y_dim (t_agents t)) d = Some fs0 /\ (forall T m, In (T, m) d -> NoDup (map fst m)) /\
    simulation_trail t x_dim y_dim digits 1 = (do fs <- mapM (trail_frame x_dim y_dim (t_agents t) d (Nat.min 10 (length d))) (seq (Nat.min 10 (length d)) (length d - Nat.min 10 (length d))); Some (t, fs)).
  Proof.
    destruct (@C106_frames t x_dim y_dim digits C Start) as (l & fs0 & E & _). destruct (@motion_collect_ok t x_dim y_dim digits C) as (d & ev & Ed & [_ _ Id] & _).
    exists d, l, fs0. split; [exact Ed|]. split; [exact E|]. unfold simulation_anime, simulation_trail in *. rewrite sample_trace_1 in *. cbn [obind] in *. destruct (num_dim_of t) as [nd|]; [|discriminate]. cbn [obind] in *.
    destruct (check_dim nd x_dim y_dim); [|discriminate]. cbn [obind] in *. rewrite Ed in *. cbn [obind] in *. destruct (dget Z.eqb 0%Z d) as [d0|]; [|discriminate]. cbn [obind] in *. destruct (mapM (markers x_dim y_dim (t_agents t)) d0); [|discriminate]. cbn [obind] in *.
    destruct (mapM (motion_frame x_dim y_dim (t_agents t)) d) as [fs|]; [|discriminate]. cbn [obind] in E. injection E as _ <-. split; [reflexivity|]. split; [|reflexivity]. intros T m I. apply (Id T m I).
  Qed.

  (** C106, partial.  If every agent has a state at every time, the animation with a trail has one frame for each time but the first
      ten of the plain animation, in the same order; it shows for each agent the markers the plain animation has at this
      time and 2, 4, 6 and 8 frames before. *)
  Theorem C106_trail_partial :
    (forall T a, (exists a' t0 r, has_state t a' t0 r /\ tick digits t0 = T) -> In a (t_agents t) -> exists t0 r, has_state t a t0 r /\ tick digits t0 = T) ->
    exists l fs0 fs, simulation_anime t x_dim y_dim digits 1 = Some (t, (l, fs0)) /\ simulation_trail t x_dim y_dim digits 1 = Some (t, fs) /\ length fs = length fs0 - 10 /\
      forall k T ms0, nth_error fs0 (10 + k) = Some (T, ms0) -> exists ms, nth_error fs k = Some (T, ms) /\ map fst ms = list_prod (t_agents t) [0; 2; 4; 6; 8] /\
        forall a id ps, In (a, id, ps) ms -> exists T' ms' c, nth_error fs0 (10 + k - id) = Some (T', ms') /\ In (a, c, ps) ms'.
  Proof.
    intros All. destruct shared as (d & l & fs0 & Ed & Ea & Ef & Nd & Et). exists l, fs0. rewrite Et. clear Et. pose proof (mapM_length _ _ Ef) as Lf.
    destruct (@C106_frames t x_dim y_dim digits C Start) as (l' & fs0' & Ea' & _ & Kf & _ & Mf). rewrite Ea in Ea'. injection Ea' as <- <-.
    set (tr := Nat.min 10 (length d)).
    assert (One : forall j a, j < length d -> In a (t_agents t) -> exists T m rs ps c ms', nth_error d j = Some (T, m) /\ dget word_eqb a m = Some rs /\ points x_dim y_dim rs = Some ps /\ nth_error fs0 j = Some (T, ms') /\ In (a, c, ps) ms').
    { intros j a Hj Ha. destruct (nth_error d j) as [[T m]|] eqn:Ej; [|apply nth_error_None in Ej; lia]. destruct (mapM_nth _ _ _ Ef Ej) as ([T1 ms'] & E1 & E2).
      unfold motion_frame in E2. cbn [fst snd] in E2. destruct (mapM (markers x_dim y_dim (t_agents t)) m) as [ms''|] eqn:Em; [|discriminate]. cbn [obind] in E2. injection E2 as <- ->.
      pose proof (nth_error_In _ _ E1) as I1. destruct (Mf T ms' I1) as (_ & Hs & _). destruct (proj2 (Hs a)) as (c & ps & Ix). { apply All; [|exact Ha]. apply Kf. apply in_map_iff. exists (T, ms'). auto. }
      pose proof Ix as Iy. apply (mapM_In _ _ Em) in Iy. destruct Iy as ([a' rs] & Im & Ek). unfold markers in Ek. destruct (index a' (t_agents t)) as [i|]; [|discriminate]. cbn [obind] in Ek. destruct (nth_error colors (i mod num_theme)) as [row|]; [|discriminate]. cbn [obind] in Ek. destruct (nth_error row 1) as [c1|]; [|discriminate]. cbn [obind] in Ek.
      destruct (points x_dim y_dim rs) as [ps1|] eqn:Ep; [|discriminate]. cbn [obind] in Ek. injection Ek as -> -> ->. exists T, m, rs, ps, c, ms'. split; [reflexivity|]. split; [|auto]. apply (@In_dget _ _ _ word_eqb_eq); [|exact Im]. apply (Nd T m). eapply nth_error_In. exact Ej. }
    assert (Fr : forall k, tr <= k -> k < length d -> exists T ms, trail_frame x_dim y_dim (t_agents t) d tr k = Some (T, ms) /\ (exists ms0, nth_error fs0 k = Some (T, ms0)) /\ map fst ms = list_prod (t_agents t) (range_by 0 tr 2) /\
      forall a id ps, In (a, id, ps) ms -> exists T' ms' c, nth_error fs0 (k - id) = Some (T', ms') /\ In (a, c, ps) ms').
    { intros k H1 H2. unfold trail_frame. destruct (nth_error d k) as [[T m]|] eqn:Ek; [|apply nth_error_None in Ek; lia]. cbn [obind fst].
      set (F := fun a id => do m <- nth_error d (k - id); do rs <- dget word_eqb a (snd m); do ps <- points x_dim y_dim rs; Some (a, id, ps)).
      assert (HF : forall a id, In a (t_agents t) -> exists ps T' ms' c, F a id = Some (a, id, ps) /\ nth_error fs0 (k - id) = Some (T', ms') /\ In (a, c, ps) ms').
      { intros a id Ha. destruct (One (k - id) a ltac:(lia) Ha) as (T' & m' & rs & ps & c & ms' & D1 & D2 & D3 & D4 & D5). exists ps, T', ms', c. unfold F. rewrite D1. cbn [obind snd]. rewrite D2. cbn [obind]. rewrite D3. cbn [obind]. auto. }
      assert (HG : forall a, In a (t_agents t) -> exists r, mapM (F a) (range_by 0 tr 2) = Some r). { intros a Ha. apply mapM_ok. intros id _. destruct (HF a id Ha) as (ps & _ & _ & _ & -> & _). discriminate. }
      destruct (@mapM_ok _ _ (fun a => mapM (F a) (range_by 0 tr 2)) (t_agents t)) as [ls El]. { intros a Ha. destruct (HG a Ha) as [r ->]. discriminate. }
      exists T, (concat ls). split; [change ((do ls <- mapM (fun a => mapM (F a) (range_by 0 tr 2)) (t_agents t); Some (T, concat ls)) = Some (T, concat ls)); rewrite El; reflexivity|]. split; [destruct (mapM_nth _ _ _ Ef Ek) as ([T1 ms'] & E1 & E2); exists ms'; unfold motion_frame in E2; cbn [fst snd] in E2; destruct (mapM (markers x_dim y_dim (t_agents t)) m); [|discriminate]; injection E2 as -> _; exact E1|].
      split.
      - refine (@concat_names _ _ _ (range_by 0 tr 2) _ _ _ _ El). intros a r Ha Er. refine (@mapM_names _ _ _ (F a) (fun i => (a, i)) _ _ _ Er). intros id b _ Eb. destruct (HF a id Ha) as (ps & _ & _ & _ & E & _). rewrite E in Eb. injection Eb as <-. reflexivity.
      - intros a id ps I. apply in_concat in I. destruct I as (r & Ir & I). apply (mapM_In _ _ El) in Ir. destruct Ir as (a' & Ha & Er). apply (mapM_In _ _ Er) in I. destruct I as (id' & _ & Ei). destruct (HF a' id' Ha) as (ps' & T' & ms' & c & E & N & Ix). rewrite E in Ei. injection Ei as -> -> ->. exists T', ms', c. auto. }
    destruct (@mapM_ok _ _ (trail_frame x_dim y_dim (t_agents t) d tr) (seq tr (length d - tr))) as [fs Es]. { intros k Hk. apply in_seq in Hk. destruct (Fr k ltac:(lia) ltac:(unfold tr in *; lia)) as (T & ms & -> & _). discriminate. }
    exists fs. split; [exact Ea|]. rewrite Es. split; [reflexivity|]. split; [rewrite (mapM_length _ _ Es), seq_length; unfold tr; lia|].
    intros k T ms0 N. assert (Hk : 10 + k < length d) by (rewrite <- Lf; apply nth_error_Some; rewrite N; discriminate). assert (Etr : tr = 10) by (unfold tr; lia).
    destruct (Fr (10 + k) ltac:(lia) Hk) as (T' & ms & E1 & (ms1 & N1) & E2 & E3). rewrite N in N1. injection N1 as <- <-.
    assert (Nk : nth_error (seq tr (length d - tr)) k = Some (10 + k)). { rewrite Etr. rewrite (@nth_error_nth' _ _ k 0) by (rewrite seq_length; lia). rewrite seq_nth by lia. reflexivity. }
    destruct (mapM_nth _ _ _ Es Nk) as (b & Nb & Eb). rewrite E1 in Eb. injection Eb as <-. exists ms. split; [exact Nb|]. split; [rewrite E2, Etr; reflexivity|exact E3].
  Qed.

  (** C106.  It raises if an agent has no state at one of the times after the first ten. *)
  Theorem C106_trail_absent_refuted l fs0 k T ms0 a : simulation_anime t x_dim y_dim digits 1 = Some (t, (l, fs0)) -> nth_error fs0 (10 + k) = Some (T, ms0) ->
    In a (t_agents t) -> (forall t0 r, has_state t a t0 r -> tick digits t0 <> T) -> simulation_trail t x_dim y_dim digits 1 = None.
  Proof.
    intros Ea N Ha Abs. destruct shared as (d & l' & fs0' & Ed & Ea' & Ef & Nd & Et). rewrite Ea in Ea'. injection Ea' as <- <-. rewrite Et. pose proof (mapM_length _ _ Ef) as Lf.
    destruct (@C106_frames t x_dim y_dim digits C Start) as (l' & fs0' & Ea' & _ & Kf & _ & Mf). rewrite Ea in Ea'. injection Ea' as <- <-.
    assert (Hk : 10 + k < length d) by (rewrite <- Lf; apply nth_error_Some; rewrite N; discriminate). rewrite Nat.min_l by lia.
    rewrite (@mapM_none _ _ _ _ (10 + k)); [reflexivity|apply in_seq; lia|]. unfold trail_frame. destruct (nth_error d (10 + k)) as [[T1 m]|] eqn:Ek; [|reflexivity]. cbn [obind].
    rewrite (@mapM_none _ _ _ _ a Ha); [reflexivity|]. apply (@mapM_none _ _ _ _ 0); [left; reflexivity|]. rewrite Nat.sub_0_r, Ek. cbn [obind snd]. destruct (dget word_eqb a m) as [rs|] eqn:D; [|reflexivity]. exfalso.
    destruct (mapM_nth _ _ _ Ef Ek) as ([T2 ms'] & E1 & E2). unfold motion_frame in E2. cbn [fst snd] in E2. destruct (mapM (markers x_dim y_dim (t_agents t)) m) as [ms''|] eqn:Em; [|discriminate]. cbn [obind] in E2. injection E2 as <- ->. rewrite N in E1. injection E1 as <- ->.
    destruct (Mf T ms' (nth_error_In _ _ N)) as (_ & Hs & _). apply dget_In in D; [|exact word_eqb_eq].
    destruct (In_nth_error _ _ D) as (j & Nj). destruct (mapM_nth _ _ _ Em Nj) as (b & Nb & Eb). unfold markers in Eb. destruct (index a (t_agents t)); [|discriminate]. cbn [obind] in Eb. destruct (do row <- _; nth_error row 1) as [c|]; [|discriminate]. cbn [obind] in Eb. destruct (points x_dim y_dim rs) as [ps|]; [|discriminate]. cbn [obind] in Eb. injection Eb as <-.
    destruct (proj1 (Hs a)) as (t0 & r & H & E); [exists c, ps; eapply nth_error_In; exact Nb|]. exact (Abs t0 r H E).
  Qed.
End Trail.
Print Assumptions C106_trail_partial.
Print Assumptions C106_trail_absent_refuted.

Module Example_trail.
  Definition row (k : nat) : vec := let q := inject_Z (Z.of_nat k) in [q; q; 0%Q].
  Definition run : ptree := one (map row (seq 0 12)).
  Example run_complete : complete run 1 2.
  Proof. apply one_complete; [discriminate|]. vm_compute. repeat constructor. Qed.
  Lemma run_state a t0 r : has_state run a t0 r -> a = name_a.
  Proof. intros (q & tr & Ht & _). apply one_trace in Ht. tauto. Qed.
  Example run_all T a : (exists a' t0 r, has_state run a' t0 r /\ tick 3 t0 = T) -> In a (t_agents run) -> exists t0 r, has_state run a t0 r /\ tick 3 t0 = T.
  Proof. intros (a' & t0 & r & H & E) I. rewrite (run_state H) in H. cbn in I. destruct I as [<-|[]]. eauto. Qed.
  Example run_frames : simulation_trail run 1 2 3 1 = Some (run,
    [(10000%Z, [(name_a, 0, [(10, 0)%Q]); (name_a, 2, [(8, 0)%Q]); (name_a, 4, [(6, 0)%Q]); (name_a, 6, [(4, 0)%Q]); (name_a, 8, [(2, 0)%Q])]);
     (11000%Z, [(name_a, 0, [(11, 0)%Q]); (name_a, 2, [(9, 0)%Q]); (name_a, 4, [(7, 0)%Q]); (name_a, 6, [(5, 0)%Q]); (name_a, 8, [(3, 0)%Q])])]).
  Proof. vm_compute. reflexivity. Qed.
  (** The second agent is gone at the last time. *)
  Definition gone : ptree := mkt [name_a; w "b"] SimTrace (Node (mkp [(name_a, map row (seq 0 12)); (w "b", map row (seq 0 11))] [(name_a, [w "Normal"]); (w "b", [w "Normal"])] None) []).
  Lemma gone_trace q a tr : trace_at gone q a tr -> (a = name_a /\ tr = map row (seq 0 12)) \/ (a = w "b" /\ tr = map row (seq 0 11)).
  Proof.
    intros (n & Q & D). destruct q as [|i q]; cbn [at_path t_root gone] in Q; [|destruct i; discriminate]. injection Q as <-. apply dget_In in D; [|exact word_eqb_eq]. cbn [content p_trace] in D. destruct D as [D|[D|[]]]; injection D as <- <-; auto.
  Qed.
  Example gone_complete : complete gone 1 2.
  Proof.
    split; [discriminate|]. intros q n Q. destruct q as [|i q]; cbn [at_path t_root gone] in Q; [|destruct i; discriminate]. injection Q as <-. cbn [content p_trace map fst gone t_agents].
    split; [repeat constructor; cbn; intuition discriminate|]. split; [cbn; tauto|]. intros a tr D. apply dget_In in D; [|exact word_eqb_eq]. destruct D as [D|[D|[]]]; injection D as <- <-; (split; [discriminate|vm_compute; repeat constructor]).
  Qed.
  Example gone_start : exists a t0 r, has_state gone a t0 r /\ tick 3 t0 = 0%Z.
  Proof. exists name_a, 0%Q, (row 0). split; [|reflexivity]. exists [], (map row (seq 0 12)). split; [eexists; split; reflexivity|]. split; [left; reflexivity|reflexivity]. Qed.
  Example gone_raises : simulation_trail gone 1 2 3 1 = None.
  Proof.
    assert (E : exists l fs0 ms0, simulation_anime gone 1 2 3 1 = Some (gone, (l, fs0)) /\ nth_error fs0 (10 + 1) = Some (11000%Z, ms0)) by (do 3 eexists; split; vm_compute; reflexivity).
    destruct E as (l & fs0 & ms0 & E & N). refine (@C106_trail_absent_refuted gone 1 2 3 gone_complete gone_start l fs0 1 11000%Z ms0 (w "b") E N _ _); [right; left; reflexivity|].
    intros t0 r (q & tr & Ht & I & H0). destruct (gone_trace Ht) as [[Ea _]|[_ ->]]; [discriminate|]. cbn in I. repeat (destruct I as [<-|I]; [injection H0 as <-; vm_compute; discriminate|]). destruct I.
  Qed.
End Example_trail.
