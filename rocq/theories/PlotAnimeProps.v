(** C104, C105, C106: the animations. *)
From Coq Require Import Ascii String Sorted Lqa.
From Verif Require Import Base BaseFacts Dict PyText Round RoundProofs Tree TreeSpec TreeProofs ResetProofs Plot PlotSpec PlotGeom PlotProofs PlotMain PlotProps
  PlotAnime PlotAnimeSpec PlotAnimeProofs PlotAnimeMain PlotAnimeFrames.
Set Implicit Arguments.
Open Scope nat_scope.
Import Example_tubes.

(** ** C104: reachtube_tree_video *)
Section Video.
  Variables (t : ptree) (lanes : list shape) (fig : figure) (x_dim y_dim : nat) (scale : bool) (plot_color : list (list word)) (digits : nat)
    (max_slider max_frame : option nat) (html : bool).
  (** The tree is a finished tube, there is a colour, and at least one frame is allowed. *)
  Hypothesis C : complete t x_dim y_dim.
  Hypothesis Bx : boxed t x_dim y_dim.
  Hypothesis ND : NoDup (t_agents t).
  Hypothesis Pal : palette plot_color.
  Hypothesis M0 : max_frame <> Some 0.
  Notation video := (reachtube_tree_video t lanes fig x_dim y_dim scale 1 plot_color digits max_slider max_frame html).

  (** C104.  The video is made and the tree is left as it was; the frames come in the order of time and each is at the rounded
      time at which some box starts; each frame shows, in the colour of each agent, exactly the projections of the states in the
      agent's boxes whose rounded starting time is not after that of the frame; and the video starts with the first frame. *)
  Theorem C104_frames : exists v, video = Some (t, inr v) /\
    increasing (map fst (c_frames v)) /\
    (forall T, In T (map fst (c_frames v)) -> starts t digits T) /\
    (forall T visible, In (T, visible) (c_frames v) -> forall c p,
       clip_shows v visible c p <-> exists i a l, nth_error (t_agents t) i = Some a /\ video_colors plot_color i l c /\
         reached_when t digits (fun S => (S <= T)%Z) x_dim y_dim a p) /\
    (exists f, nth_error (c_frames v) 0 = Some f /\ c_start v = snd f).
  Proof.
    destruct (@video_ok t lanes fig x_dim y_dim scale plot_color digits max_slider max_frame html C Bx ND Pal M0) as (v & times & E & Inc & St & Th & F & S0 & _).
    exists v. split; [exact E|]. destruct (thin_ok (the_cap max_frame html) Inc) as (fts & Ef & If & Sf & _ & Nf & _). rewrite Th in Ef. injection Ef as Ef. rewrite Ef.
    split; [exact If|]. split; [intros T I; apply St, Sf; exact I|]. split; [intros T vis I; exact (proj2 (F T vis I))|].
    assert (Ne : fts <> []).
    { apply Nf; [|unfold the_cap; destruct max_frame; [exact M0|destruct html; discriminate]]. destruct (@some_box t x_dim y_dim C Bx ND) as (a & t0 & lo & hi & H).
      intros Z. assert (I : In (tick digits t0) times) by (apply St; exists a, t0, lo, hi; auto). rewrite Z in I. destruct I. }
    destruct (c_frames v) as [|f fs]; [cbn in Ef; congruence|]. exists f. split; [reflexivity|apply S0; reflexivity].
  Qed.

  (** C104.  In terms of the times themselves: a frame shows every box that starts at or before its time, and none that starts more
      than half a unit of the last decimal after it. *)
  Theorem C104_time : exists v, video = Some (t, inr v) /\
    forall T visible, In (T, visible) (c_frames v) ->
      (forall i a l c t0 lo hi p, nth_error (t_agents t) i = Some a -> video_colors plot_color i l c -> has_box t a t0 lo hi ->
         (t0 <= inject_Z T / pow10 digits)%Q -> inside x_dim y_dim lo hi p -> clip_shows v visible c p) /\
      (forall c p, clip_shows v visible c p -> exists a t0 lo hi, has_box t a t0 lo hi /\ inside x_dim y_dim lo hi p /\
         (t0 <= (inject_Z T + (1 # 2)) / pow10 digits)%Q).
  Proof.
    destruct C104_frames as (v & E & _ & _ & F & _). exists v. split; [exact E|]. intros T visible I. assert (Pp := pow10_pos digits). split.
    - intros i a l c t0 lo hi p Hi Vc Hb Le Ins. apply (F T visible I). exists i, a, l. split; [exact Hi|]. split; [exact Vc|]. exists t0, lo, hi. split; [exact Hb|]. split; [|exact Ins].
      unfold tick. rewrite <- (rhe_Z T). apply rhe_mono. setoid_replace (inject_Z T)%Q with ((inject_Z T / pow10 digits) * pow10 digits)%Q by (field; lra). apply Qmult_le_compat_r; [exact Le|lra].
    - intros c p H. apply (F T visible I) in H. destruct H as (i & a & l & _ & _ & t0 & lo & hi & Hb & Le & Ins). exists a, t0, lo, hi. split; [exact Hb|]. split; [exact Ins|].
      unfold tick in Le. assert (Cl := rhe_close (t0 * pow10 digits)). apply Qabs.Qabs_Qle_condition in Cl. rewrite Zle_Qle in Le. apply Qle_shift_div_l; [exact Pp|]. lra.
  Qed.

  (** C104.  Unless only one frame is allowed, the last frame shows all that is reached, and the first is at the earliest time. *)
  Theorem C104_last : (forall m, max_frame = Some m -> 2 <= m) -> exists v, video = Some (t, inr v) /\
    (exists T visible, In (T, visible) (c_frames v) /\ greatest (map fst (c_frames v)) T /\ forall c p,
       clip_shows v visible c p <-> exists i a l, nth_error (t_agents t) i = Some a /\ video_colors plot_color i l c /\ reached t x_dim y_dim a p) /\
    (exists T, In T (map fst (c_frames v)) /\ forall S, starts t digits S -> (T <= S)%Z).
  Proof.
    intros M2. destruct (@video_ok t lanes fig x_dim y_dim scale plot_color digits max_slider max_frame html C Bx ND Pal M0) as (v & times & E & Inc & St & Th & F & _).
    exists v. split; [exact E|]. destruct (thin_ok (the_cap max_frame html) Inc) as (fts & Ef & If & Sf & _ & _ & Ex & _). rewrite Th in Ef. injection Ef as Ef. subst fts.
    assert (Cap : forall k, the_cap max_frame html = Some k -> 2 <= k). { unfold the_cap. intros k. destruct max_frame as [m|]; [intros [= <-]; apply M2; reflexivity|destruct html; [intros [= <-]; lia|discriminate]]. }
    assert (Ne : times <> []). { destruct (@some_box t x_dim y_dim C Bx ND) as (a & t0 & lo & hi & H). intros Z. assert (I : In (tick digits t0) times) by (apply St; exists a, t0, lo, hi; auto). rewrite Z in I. destruct I. }
    assert (exists T, greatest times T) as [T G].
    { clear - Inc Ne. unfold increasing in Inc. induction Inc as [|y l S IH Fa]; [contradiction|]. rewrite Forall_forall in Fa. destruct l as [|z l]; [exists y; split; [left; reflexivity|intros x [<-|[]]; lia]|].
      destruct IH as (T & I & G); [discriminate|]. exists T. split; [right; exact I|]. intros x [<-|H]; [specialize (Fa _ I); lia|apply G; exact H]. }
    assert (exists T, least times T) as [T0 L].
    { clear - Inc Ne. unfold increasing in Inc. destruct Inc as [|y l S Fa]; [contradiction|]. rewrite Forall_forall in Fa. exists y. split; [left; reflexivity|]. intros x [<-|H]; [lia|specialize (Fa _ H); lia]. }
    split.
    - assert (IT := Ex Cap T (or_introl G)). assert (IT' := IT). apply in_map_iff in IT'. destruct IT' as ([T' vis] & E' & I). cbn in E'. subst T'. exists T, vis. split; [exact I|]. split; [split; [exact IT|intros y Hy; apply G, Sf; exact Hy]|].
      intros c p. rewrite (proj2 (F T vis I) c p). split; intros (i & a & l & Hi & Vc & H); exists i, a, l; (split; [exact Hi|]; split; [exact Vc|]).
      + destruct H as (t0 & lo & hi & (q & tr & j & Ht & B & _) & _ & Ins). exists q, tr, j, lo, hi. auto.
      + destruct H as (q & tr & j & lo & hi & Ht & B & Ins). assert (exists t0, nth_error lo 0 = Some t0) as [t0 E0]. { destruct Ins as (x0 & x1 & y0 & y1 & X0 & _). destruct lo as [|t0 lo]; [destruct x_dim; discriminate|exists t0; reflexivity]. }
        assert (Hb : has_box t a t0 lo hi) by (exists q, tr, j; auto). exists t0, lo, hi. split; [exact Hb|]. split; [|exact Ins]. apply G. apply St. exists a, t0, lo, hi. auto.
    - exists T0. split; [apply (Ex Cap); right; exact L|]. intros S HS. apply L. apply St. exact HS.
  Qed.

  (** C104.  The number of frames: at most [max_frame_steps], or 150 for a page; otherwise, and if that is enough, there is one for
      every rounded time at which a box starts.  A step of the slider leads to a frame; without a limit there is one for
      every frame, otherwise no more than the limit.  The map is the one given. *)
  Theorem C104_steps : exists v, video = Some (t, inr v) /\
    (forall m, max_frame = Some m -> length (c_frames v) <= m) /\ (max_frame = None -> html = true -> length (c_frames v) <= 150) /\
    (max_frame = None -> html = false -> forall T, starts t digits T -> In T (map fst (c_frames v))) /\
    (forall m ts, max_frame = Some m -> length ts <= m -> (forall T, starts t digits T -> In T ts) -> forall T, starts t digits T -> In T (map fst (c_frames v))) /\
    (forall T, In T (c_slider v) -> In T (map fst (c_frames v))) /\
    (max_slider = None -> forall T, In T (map fst (c_frames v)) -> In T (c_slider v)) /\
    (forall m, max_slider = Some m -> forall l, NoDup l -> (forall T, In T l -> In T (c_slider v)) -> length l <= m) /\ c_map v = lanes.
  Proof.
    destruct (@video_ok t lanes fig x_dim y_dim scale plot_color digits max_slider max_frame html C Bx ND Pal M0) as (v & times & E & Inc & St & Th & _ & _ & Map & (sl & Esl & Sl) & _).
    exists v. split; [exact E|]. destruct (thin_ok (the_cap max_frame html) Inc) as (fts & Ef & If & _ & Lf & _ & _ & Al). rewrite Th in Ef. injection Ef as Ef. subst fts. rewrite map_length in Lf.
    split; [intros m Em; apply Lf; unfold the_cap; rewrite Em; reflexivity|]. split; [intros Em Eh; apply Lf; unfold the_cap; rewrite Em, Eh; reflexivity|].
    split; [intros Em Eh T HT; rewrite Al; [apply St; exact HT|]; unfold the_cap; rewrite Em, Eh; discriminate|]. split.
    - intros m ts Em Lm Hts T HT. rewrite Al; [apply St; exact HT|]. unfold the_cap. rewrite Em. intros k [= <-]. etransitivity; [|exact Lm]. apply NoDup_incl_length; [|intros x Hx; apply Hts, St; exact Hx].
      clear - Inc. unfold increasing in Inc. induction Inc as [|y l S IH F]; constructor; [|exact IH]. intros I. rewrite Forall_forall in F. specialize (F _ I). lia.
    - split; [intros T HT; apply Sl in HT; apply HT|]. split; [intros Em T HT; apply Sl; split; [exact HT|]; rewrite Em in Esl; injection Esl as <-; exact HT|]. split; [|exact Map].
      intros m Em l Nl Hl. destruct (thin_ok max_slider If) as (sl' & Esl' & _ & _ & Ls & _). rewrite Esl in Esl'. injection Esl' as <-. etransitivity; [|apply Ls; exact Em].
      apply NoDup_incl_length; [exact Nl|]. intros T HT. apply Hl, Sl in HT. apply HT.
  Qed.

  (** C104.  With [scale_type="trace"] both corners of every box lie within the ranges of the axes. *)
  Theorem C104_range : scale = true -> exists v, video = Some (t, inr v) /\
    forall a t0 lo hi r q, has_box t a t0 lo hi -> r = lo \/ r = hi -> point_of x_dim y_dim r q -> in_range (c_x v) (fst q) /\ in_range (c_y v) (snd q).
  Proof.
    intros Hs. destruct (@video_ok t lanes fig x_dim y_dim scale plot_color digits max_slider max_frame html C Bx ND Pal M0) as (v & times & E & _ & _ & _ & _ & _ & _ & _ & R).
    exists v. split; [exact E|]. apply R. exact Hs.
  Qed.
End Video.
Print Assumptions C104_frames.
Print Assumptions C104_time.
Print Assumptions C104_last.
Print Assumptions C104_steps.
Print Assumptions C104_range.

Module Example_video.
  Example hypotheses : complete tubes 1 2 /\ boxed tubes 1 2 /\ NoDup (t_agents tubes) /\ palette colors.
  Proof.
    destruct fine as (A & _ & B & _). split; [exact A|]. split; [exact B|]. split; [repeat constructor; cbn; intuition discriminate|]. split; [discriminate|].
    intros row H. cbn in H. repeat (destruct H as [<-|H]; [cbn; lia|]). destruct H.
  Qed.
  Example clip_of_tubes : exists v, reachtube_tree_video tubes [] blank 1 2 true 1 colors 3 (Some 100) None true = Some (tubes, inr v) /\
    map fst (c_frames v) = [0; 1000; 2000; 3000]%Z /\
    map snd (c_frames v) = [[true; true; false; false; false; false; false; false]; [true; true; true; true; false; false; false; false];
                            [true; true; true; true; true; true; false; false]; [true; true; true; true; true; true; true; true]].
  Proof. eexists. split; [vm_compute; reflexivity|]. split; reflexivity. Qed.
End Example_video.

(** C104.  If only one frame is allowed, it is the first: the states reached later are never shown. *)
Theorem C104_one_frame_refuted : exists v, reachtube_tree_video (one [[0; 0; 0]; [1; 1; 1]; [1; 5; 0]; [2; 6; 1]]%Q) [] blank 1 2 true 1 colors 3 (Some 100) (Some 1) true
    = Some (one [[0; 0; 0]; [1; 1; 1]; [1; 5; 0]; [2; 6; 1]]%Q, inr v) /\
  reached (one [[0; 0; 0]; [1; 1; 1]; [1; 5; 0]; [2; 6; 1]]%Q) 1 2 name_a (5, 0)%Q /\
  forall T visible c, In (T, visible) (c_frames v) -> ~ clip_shows v visible c (5, 0)%Q.
Proof.
  eexists. split; [vm_compute; reflexivity|]. split.
  - exists [], [[0; 0; 0]; [1; 1; 1]; [1; 5; 0]; [2; 6; 1]]%Q, 1, [1; 5; 0]%Q, [2; 6; 1]%Q. split; [eexists; split; reflexivity|]. split; [split; reflexivity|].
    exists 5%Q, 6%Q, 0%Q, 1%Q. repeat split; cbn; lra.
  - intros T visible c [[= <- <-]|[]] (k & path & l & D & V & F). cbn [c_data] in D. destruct k as [|[|k]]; cbn in D, V; [|discriminate|destruct k; discriminate].
    injection D as <- <- <-. revert F. apply outside_ok. vm_compute. reflexivity.
Qed.
Print Assumptions C104_one_frame_refuted.

(** C104.  Times are rounded: with the default three decimals a frame at time 0 shows a box that starts later, and there is no other frame. *)
Theorem C104_rounding_refuted : exists v, reachtube_tree_video (one [[0; 0; 0]; [0; 1; 1]; [1 # 2500; 5; 0]; [1 # 1250; 6; 1]]%Q) [] blank 1 2 true 1 colors 3 (Some 100) None true
    = Some (one [[0; 0; 0]; [0; 1; 1]; [1 # 2500; 5; 0]; [1 # 1250; 6; 1]]%Q, inr v) /\
  map fst (c_frames v) = [0%Z] /\
  (exists visible c, In (0%Z, visible) (c_frames v) /\ clip_shows v visible c (5, 0)%Q) /\
  ~ exists a t0 lo hi, has_box (one [[0; 0; 0]; [0; 1; 1]; [1 # 2500; 5; 0]; [1 # 1250; 6; 1]]%Q) a t0 lo hi /\ (t0 <= 0)%Q /\ inside 1 2 lo hi (5, 0)%Q.
Proof.
  eexists. split; [vm_compute; reflexivity|]. split; [reflexivity|]. split.
  - exists [true; true], (w "#FF0000"). split; [left; reflexivity|]. exists 1, (corners 5 6 0 1), (w "#CC0000"). split; [reflexivity|]. split; [reflexivity|]. apply filled_rectangle; cbn; try lra.
  - intros (a & t0 & lo & hi & (q & tr & j & Ht & B & E0) & L & x0 & x1 & y0 & y1 & X0 & X1 & Y0 & Y1 & A). apply one_trace in Ht. destruct Ht as (-> & -> & ->).
    pose proof (box_index B) as J. cbn [length] in J. destruct j as [|[|j]]; [| |lia]; destruct B as [B0 B1]; cbn in B0, B1; injection B0 as <-; injection B1 as <-; cbn in E0, X1; injection E0 as <-; injection X1 as <-.
    + cbn in A. lra.
    + unfold Qle in L. cbn in L. lia.
Qed.
Print Assumptions C104_rounding_refuted.

(** C104.  What was in the figure given is not in the video. *)
Theorem C104_figure_refuted : forall fig, exists r,
  reachtube_tree_video tubes [] fig 1 2 true 1 colors 3 (Some 100) None true = Some r /\ reachtube_tree_video tubes [] blank 1 2 true 1 colors 3 (Some 100) None true = Some r.
Proof. intros fig. eexists. split; vm_compute; reflexivity. Qed.
Print Assumptions C104_figure_refuted.

(** ** C105: reachtube_anime *)
(** C105.  For a tree with a box that is not left out, the animation is made and the tree is left as it was; there is one frame for every
    rounded time at which such a box starts, and it shows the projections of the states of the boxes that start then.  Missing: of a
    node that starts after time 0 the first four boxes are left out, and the frames are not in the order of time (below). *)
Theorem C105_frames_partial t x_dim y_dim digits : complete t x_dim y_dim -> (exists a t0 lo hi, late_box t a t0 lo hi) ->
  exists fs, reachtube_anime t x_dim y_dim digits 1 = Some (t, fs) /\ NoDup (map fst fs) /\
    (forall T, In T (map fst fs) <-> exists a t0 lo hi, late_box t a t0 lo hi /\ tick digits t0 = T) /\
    forall T rs, In (T, rs) fs -> forall p, (exists r, In r rs /\ in_rect r p) <-> exists a t0 lo hi, late_box t a t0 lo hi /\ tick digits t0 = T /\ inside x_dim y_dim lo hi p.
Proof.
  intros C (a0 & s0 & lo0 & hi0 & H0). unfold reachtube_anime. rewrite sample_trace_1. cbn [obind]. destruct (num_dim_ok C) as (nd & -> & Ed). cbn [obind]. rewrite Ed. cbn [obind].
  destruct (@anime_collect_ok t x_dim y_dim digits C) as (d & ev & -> & [Nd Kd Id] & Ev). cbn [obind].
  assert (K : forall T, In T (map fst d) <-> exists a t0 lo hi, late_box t a t0 lo hi /\ tick digits t0 = T).
  { intros T. rewrite Kd. split; [intros (ax & I); apply Ev in I; destruct I as (a & lo & hi & t0 & H & [= -> ->]); exists a, t0, lo, hi; auto|]. intros (a & t0 & lo & hi & H & <-). exists (a, (lo, hi)). apply Ev. exists a, lo, hi, t0. auto. }
  destruct (Nat.eqb_spec (length d) 0) as [Z|_]; [exfalso; assert (I : In (tick digits s0) (map fst d)) by (apply K; eauto 10); destruct d; [destruct I|discriminate]|].
  assert (Dm : forall a t0 lo hi, late_box t a t0 lo hi -> has_dims x_dim y_dim lo /\ has_dims x_dim y_dim hi).
  { intros a t0 lo hi (q & tr & j & r & s & (n & Q & D) & [A B] & _). destruct C as [_ C']. destruct (C' q n Q) as (_ & _ & T). destruct (T a tr D) as [_ F]. rewrite Forall_forall in F. split; apply F; eapply nth_error_In; eassumption. }
  assert (Rect : forall T m a l b, In (T, m) d -> In (a, l) m -> In b l -> exists r t0, anime_rect x_dim y_dim b = Some r /\ late_box t a t0 (fst b) (snd b) /\ tick digits t0 = T /\ forall p, in_rect r p <-> inside x_dim y_dim (fst b) (snd b) p).
  { intros T m a l [lo hi] Im Il Ib. destruct (Id T m Im) as (_ & _ & G). destruct (G a l Il) as (_ & _ & G1 & _). specialize (G1 _ Ib). apply Ev in G1. destruct G1 as (a' & lo' & hi' & t0 & H & [= -> -> -> ->]).
    destruct (Dm _ _ _ _ H) as [[A1 A2] [B1 B2]]. unfold anime_rect. cbn [fst snd].
    destruct (nth_error lo' x_dim) as [x0|] eqn:X0; [|apply nth_error_None in X0; lia]. destruct (nth_error hi' x_dim) as [x1|] eqn:X1; [|apply nth_error_None in X1; lia].
    destruct (nth_error lo' y_dim) as [y0|] eqn:Y0; [|apply nth_error_None in Y0; lia]. destruct (nth_error hi' y_dim) as [y1|] eqn:Y1; [|apply nth_error_None in Y1; lia]. cbn [obind].
    exists (x0, y0, (x1, y1)), t0. split; [reflexivity|]. split; [exact H|]. split; [reflexivity|]. intros p. unfold in_rect, inside. cbn [fst snd]. split; [intros A; exists x0, x1, y0, y1; tauto|].
    intros (x0' & x1' & y0' & y1' & E1 & E2 & E3 & E4 & A). congruence || (rewrite X0 in E1; rewrite X1 in E2; rewrite Y0 in E3; rewrite Y1 in E4; injection E1 as <-; injection E2 as <-; injection E3 as <-; injection E4 as <-; tauto). }
  assert (Fr : forall T m, In (T, m) d -> exists rs, anime_frame x_dim y_dim (T, m) = Some (T, rs) /\ forall r, In r rs <-> exists a l b, In (a, l) m /\ In b l /\ anime_rect x_dim y_dim b = Some r).
  { intros T m Im. unfold anime_frame. cbn [fst snd]. destruct (@mapM_ok _ _ (fun al : word * list boxrow => mapM (anime_rect x_dim y_dim) (snd al)) m) as [ls El].
    - intros [a l] Il. cbn [snd]. destruct (@mapM_ok _ _ (anime_rect x_dim y_dim) l) as [r ->]; [|discriminate]. intros b Ib. destruct (Rect T m a l b Im Il Ib) as (r & t0 & -> & _). discriminate.
    - rewrite El. cbn [obind]. eexists. split; [reflexivity|]. intros r. rewrite in_concat. split.
      + intros (rl & Irl & Ir). apply (mapM_In _ _ El) in Irl. destruct Irl as ([a l] & Il & E). cbn [snd] in E. apply (mapM_In _ _ E) in Ir. destruct Ir as (b & Ib & E'). exists a, l, b. auto.
      + intros (a & l & b & Il & Ib & E). destruct (@mapM_ok _ _ (anime_rect x_dim y_dim) l) as [rl Erl]; [intros b' Ib'; destruct (Rect T m a l b' Im Il Ib') as (r' & t0 & -> & _); discriminate|].
        exists rl. split; [apply (mapM_In _ _ El); exists (a, l); auto|]. apply (mapM_In _ _ Erl). exists b. auto. }
  destruct (@mapM_ok _ _ (anime_frame x_dim y_dim) d) as [fs Ef]; [intros [T m] I; destruct (Fr T m I) as (rs & -> & _); discriminate|]. rewrite Ef. cbn [obind]. exists fs. split; [reflexivity|].
  assert (Mf : map fst fs = map fst d).
  { clear - Ef. revert fs Ef. induction d as [|[T m] d IH]; intros fs Ef; cbn in Ef; [injection Ef as <-; reflexivity|]. destruct (anime_frame x_dim y_dim (T, m)) as [f|] eqn:E; [|discriminate]. cbn in Ef.
    destruct (mapM (anime_frame x_dim y_dim) d) as [fs'|]; [|discriminate]. cbn in Ef. injection Ef as <-. cbn. rewrite (IH fs' eq_refl). f_equal. unfold anime_frame in E. cbn [fst snd] in E. destruct (mapM _ m); [|discriminate]. injection E as <-. reflexivity. }
  rewrite Mf. split; [exact Nd|]. split; [exact K|]. intros T rs I p. apply (mapM_In _ _ Ef) in I. destruct I as ([T' m] & Im & E). destruct (Fr T' m Im) as (rs' & E' & Hr). rewrite E' in E. injection E as -> ->.
  split.
  - intros (r & Ir & Hp). apply Hr in Ir. destruct Ir as (a & l & b & Il & Ib & Er). destruct (Rect T m a l b Im Il Ib) as (r' & t0 & Er' & H & Et & Rp). assert (r' = r) by congruence. subst r'.
    exists a, t0, (fst b), (snd b). split; [exact H|]. split; [exact Et|]. apply Rp. exact Hp.
  - intros (a & t0 & lo & hi & H & Et & Hp). assert (Iev : In (T, (a, (lo, hi))) ev) by (apply Ev; exists a, lo, hi, t0; split; [exact H|congruence]). destruct (Id T m Im) as (_ & Ka & G).
    assert (Ia : In a (map fst m)) by (apply Ka; eauto). apply in_map_iff in Ia. destruct Ia as ([a' l] & Ea & Il). cbn in Ea. subst a'. destruct (G a l Il) as (_ & _ & _ & G2). destruct (G2 _ Iev) as (b & Ib & <-).
    destruct (Rect T m a l _ Im Il Ib) as (r & t0' & Er & _ & _ & Rp). exists r. split; [apply Hr; exists a, l, (lo, hi); auto|]. apply Rp. exact Hp.
Qed.
Print Assumptions C105_frames_partial.

Module Example_anime.
  Definition node (tr : list vec) (ch : list (tree pnode)) : tree pnode := Node (mkp [(name_a, tr)] [(name_a, [w "Normal"])] None) ch.
  (** [n] boxes from time [s], each of one unit of time. *)
  Definition boxes_from (s n : nat) : list vec :=
    flat_map (fun i => let u := inject_Z (Z.of_nat (s + i)) in [[u; u; 0]; [u + 1; u + 1; 1]]%Q) (seq 0 n).
  (** The root has the boxes at 0, 1 and 2; one child starts at time 1, the other at time 2, with six boxes each. *)
  Definition forked : ptree := mkt [name_a] ReachTube (node (boxes_from 0 3) [node (boxes_from 1 6) []; node (boxes_from 2 6) []]).
  Lemma forked_paths q n : at_path (t_root forked) q = Some n -> exists s k ch, n = node (boxes_from s (S k)) ch.
  Proof.
    destruct q as [|[|[|i]] q]; cbn [t_root forked at_path child node nth_error obind]; [intros [= <-]; exists 0, 2; eexists; reflexivity| | |destruct i; discriminate];
      (destruct q as [|j q]; cbn [at_path]; [intros [= <-]; do 3 eexists; reflexivity|destruct j; discriminate]).
  Qed.
  Lemma boxes_fine s n : Forall (has_dims 1 2) (boxes_from s n).
  Proof. unfold boxes_from. apply Forall_flat_map. apply Forall_forall. intros i _. repeat constructor. Qed.
  Example forked_complete : complete forked 1 2.
  Proof.
    split; [discriminate|]. intros q n Q. destruct (forked_paths q Q) as (s & k & ch & ->). cbn [node content p_trace map fst forked t_agents]. split; [repeat constructor; intros []|]. split; [tauto|].
    intros a tr D. apply dget_In in D; [|exact word_eqb_eq]. destruct D as [[= <- <-]|[]]. split; [discriminate|apply boxes_fine].
  Qed.
  Example forked_late : exists a t0 lo hi, late_box forked a t0 lo hi.
  Proof.
    exists name_a, 0%Q, [0; 0; 0]%Q, [1; 1; 1]%Q, [], (boxes_from 0 3), 0, [0; 0; 0]%Q, 0%Q. split; [eexists; split; reflexivity|]. split; [split; reflexivity|]. split; [reflexivity|]. split; [reflexivity|]. split; [reflexivity|]. left. lra.
  Qed.
End Example_anime.
Import Example_anime.

(** C105.  The frames are not in the order of time. *)
Theorem C105_order_refuted : exists fs, reachtube_anime forked 1 2 3 1 = Some (forked, fs) /\ ~ increasing (map fst fs).
Proof.
  eexists. split; [vm_compute; reflexivity|]. cbn [map fst]. intros H.
  assert (7000 < 5000)%Z; [|lia]. eapply (@increasing_nth _ 4 5 7000 5000 H); [lia|reflexivity|reflexivity].
Qed.
Print Assumptions C105_order_refuted.

(** C105.  The first four boxes of a node that starts after time 0 are in no frame: here all that the child reaches. *)
Theorem C105_first_boxes_refuted : exists t fs p, reachtube_anime t 1 2 3 1 = Some (t, fs) /\ complete t 1 2 /\ reached t 1 2 name_a p /\
  forall T rs r, In (T, rs) fs -> In r rs -> ~ in_rect r p.
Proof.
  exists (mkt [name_a] ReachTube (node (boxes_from 0 2) [node (boxes_from 2 4) []])). eexists. exists (5, 0)%Q. split; [vm_compute; reflexivity|]. split; [|split].
  - split; [discriminate|]. intros q n Q. assert (exists s k ch, n = node (boxes_from s (S k)) ch) as (s & k & ch & ->).
    { destruct q as [|[|i] q]; cbn [t_root at_path child node nth_error obind] in Q; [injection Q as <-; exists 0, 1; eexists; reflexivity| |destruct i; discriminate].
      destruct q as [|j q]; cbn [at_path] in Q; [injection Q as <-; do 3 eexists; reflexivity|destruct j; discriminate]. }
    cbn [node content p_trace map fst t_agents]. split; [repeat constructor; intros []|]. split; [tauto|].
    intros a tr D. apply dget_In in D; [|exact word_eqb_eq]. destruct D as [[= <- <-]|[]]. split; [discriminate|apply boxes_fine].
  - exists [0], (boxes_from 2 4), 3, [5; 5; 0]%Q, [5 + 1; 5 + 1; 1]%Q. split; [eexists; split; reflexivity|]. split; [split; reflexivity|]. exists 5%Q, (5 + 1)%Q, 0%Q, 1%Q. repeat split; cbn; lra.
  - intros T rs r I Ir. cbn in I. destruct I as [[= <- <-]|[[= <- <-]|[]]]; destruct Ir as [<-|[]]; unfold in_rect; cbn; lra.
Qed.
Print Assumptions C105_first_boxes_refuted.

(** ** C106: simulation_anime *)
Section Motion.
  Variables (t : ptree) (x_dim y_dim digits : nat).
  Hypothesis C : complete t x_dim y_dim.
  Lemma state_dims a t0 r : has_state t a t0 r -> In a (t_agents t) /\ has_dims x_dim y_dim r.
  Proof.
    intros (q & tr & (n & Q & D) & I & _). destruct C as [_ C']. destruct (C' q n Q) as (_ & K & T). split; [|destruct (T a tr D) as [_ F]; rewrite Forall_forall in F; auto].
    apply K. apply dget_In in D; [|exact word_eqb_eq]. apply in_map_iff. exists (a, tr). auto.
  Qed.
  Lemma points_ok rs : (forall r, In r rs -> has_dims x_dim y_dim r) -> exists ps, points x_dim y_dim rs = Some ps /\ Forall2 (point_of x_dim y_dim) rs ps.
  Proof.
    unfold points. induction rs as [|r rs IH]; intros H; [exists []; split; [reflexivity|constructor]|]. destruct IH as (ps & E & F); [intros; apply H; right; assumption|].
    destruct (H r (or_introl eq_refl)) as [A B]. cbn [mapM]. destruct (nth_error r x_dim) as [x|] eqn:X; [|apply nth_error_None in X; lia]. destruct (nth_error r y_dim) as [y|] eqn:Y; [|apply nth_error_None in Y; lia].
    cbn [obind]. rewrite E. cbn [obind]. exists ((x, y) :: ps). split; [reflexivity|]. constructor; [split; assumption|exact F].
  Qed.
  Lemma theme_ok i : exists l c, agent_colors colors i l c /\ (do row <- nth_error colors (i mod num_theme); nth_error row 1) = Some c.
  Proof.
    unfold agent_colors. assert (L : i mod num_theme < length colors) by (apply Nat.mod_upper_bound; discriminate). destruct (nth_error colors (i mod num_theme)) as [row|] eqn:E; [|apply nth_error_None in E; lia].
    cbn [obind]. apply nth_error_In in E. cbn in E. repeat (destruct E as [<-|E]; [do 2 eexists; split; [eexists; split; [reflexivity|split; reflexivity]|reflexivity]|]). destruct E.
  Qed.

  (** C106.  If a state is at time 0, the animation is made and the tree is left as it was; there is one frame for every rounded time
      of a state; it has markers for exactly the agents with a state at that time, in the agent's colour, one for each of the
      agent's different states then; and the animation starts with the picture of time 0. *)
  Theorem C106_frames : (exists a t0 r, has_state t a t0 r /\ tick digits t0 = 0%Z) ->
    exists l fs, simulation_anime t x_dim y_dim digits 1 = Some (t, (l, fs)) /\ NoDup (map fst fs) /\
      (forall T, In T (map fst fs) <-> exists a t0 r, has_state t a t0 r /\ tick digits t0 = T) /\ In (0%Z, l) fs /\
      forall T ms, In (T, ms) fs -> NoDup (map (fun m => fst (fst m)) ms) /\
        (forall a, (exists c ps, In (a, c, ps) ms) <-> exists t0 r, has_state t a t0 r /\ tick digits t0 = T) /\
        forall a c ps, In (a, c, ps) ms -> (exists i line, nth_error (t_agents t) i = Some a /\ agent_colors colors i line c) /\ marked_states t x_dim y_dim digits T a ps.
  Proof.
    intros (a0 & s0 & r0 & H0 & E0). unfold simulation_anime. rewrite sample_trace_1. cbn [obind]. destruct (num_dim_ok C) as (nd & -> & Ed). cbn [obind]. rewrite Ed. cbn [obind].
    destruct (@motion_collect_ok t x_dim y_dim digits C) as (d & ev & -> & [Nd Kd Id] & Ev). cbn [obind].
    assert (Ev' : forall T a r, In (T, (a, r)) ev <-> exists t0, has_state t a t0 r /\ tick digits t0 = T).
    { intros T a r. rewrite Ev. split; [intros (a' & r' & t0 & H & [= -> -> ->]); eauto|]. intros (t0 & H & <-). eauto. }
    assert (Mk : forall T m al, In (T, m) d -> In al m -> exists c ps, markers x_dim y_dim (t_agents t) al = Some (fst al, c, ps) /\
      (exists i line, nth_error (t_agents t) i = Some (fst al) /\ agent_colors colors i line c) /\ marked_states t x_dim y_dim digits T (fst al) ps).
    { intros T m [a rs] Im Il. cbn [fst]. destruct (Id T m Im) as (_ & _ & G). destruct (G a rs Il) as (Ds & Ne & G1 & G2).
      assert (St : forall r, In r rs -> exists t0, has_state t a t0 r /\ tick digits t0 = T) by (intros r Hr; apply Ev'; auto).
      assert (Ia : In a (t_agents t)). { destruct rs as [|r rs]; [contradiction|]. destruct (St r (or_introl eq_refl)) as (t0 & H & _). apply (state_dims H). }
      destruct (@index_ok a (t_agents t) Ia) as (i & Ei & _). destruct (theme_ok i) as (line & c & Ag & Ec). destruct (@points_ok rs) as (ps & Ep & F2); [intros r Hr; destruct (St r Hr) as (t0 & H & _); apply (state_dims H)|].
      exists c, ps. unfold markers. rewrite Ei. cbn [obind]. rewrite Ec. cbn [obind]. rewrite Ep. cbn [obind]. split; [reflexivity|]. split; [exists i, line; split; [apply index_nth; exact Ei|exact Ag]|].
      exists rs. split; [exact F2|]. split; [exact Ds|]. split; [exact St|]. intros t0 r H Et. apply G2. apply Ev'. eauto. }
    assert (Fr : forall T m, In (T, m) d -> exists ms, mapM (markers x_dim y_dim (t_agents t)) m = Some ms /\ motion_frame x_dim y_dim (t_agents t) (T, m) = Some (T, ms)).
    { intros T m Im. destruct (@mapM_ok _ _ (markers x_dim y_dim (t_agents t)) m) as [ms E]; [intros al Il; destruct (Mk T m al Im Il) as (c & ps & -> & _); discriminate|]. exists ms. split; [exact E|]. unfold motion_frame. cbn [fst snd]. rewrite E. reflexivity. }
    assert (I0 : In 0%Z (map fst d)) by (apply Kd; exists (a0, r0); apply Ev'; eauto). apply in_map_iff in I0. destruct I0 as ([z m0] & Ez & Im0). cbn in Ez. subst z.
    rewrite (@In_dget _ _ _ Z.eqb_eq 0%Z m0 d Nd Im0). cbn [obind]. destruct (Fr _ _ Im0) as (l & El & Fl). rewrite El. cbn [obind].
    destruct (@mapM_ok _ _ (motion_frame x_dim y_dim (t_agents t)) d) as [fs Ef]; [intros [T m] I; destruct (Fr T m I) as (ms & _ & ->); discriminate|]. rewrite Ef. cbn [obind]. exists l, fs. split; [reflexivity|].
    assert (Mf : map fst fs = map fst d).
    { clear - Ef. revert fs Ef. induction d as [|[T m] d IH]; intros fs Ef; cbn in Ef; [injection Ef as <-; reflexivity|]. destruct (motion_frame x_dim y_dim (t_agents t) (T, m)) as [f|] eqn:E; [|discriminate]. cbn in Ef.
      destruct (mapM (motion_frame x_dim y_dim (t_agents t)) d) as [fs'|]; [|discriminate]. cbn in Ef. injection Ef as <-. cbn. rewrite (IH fs' eq_refl). f_equal. unfold motion_frame in E. cbn [fst snd] in E. destruct (mapM _ m); [|discriminate]. injection E as <-. reflexivity. }
    rewrite Mf. split; [exact Nd|]. split; [|split].
    - intros T. rewrite Kd. split; [intros ([a r] & I); apply Ev' in I; destruct I as (t0 & H & E); eauto|]. intros (a & t0 & r & H & E). exists (a, r). apply Ev'. eauto.
    - apply (mapM_In _ _ Ef). exists (0%Z, m0). auto.
    - intros T ms I. apply (mapM_In _ _ Ef) in I. destruct I as ([T' m] & Im & E). destruct (Fr T' m Im) as (ms' & Em & E'). rewrite E' in E. injection E as -> ->.
      destruct (Id T m Im) as (Nm & Km & _). assert (Mm : map (fun m => fst (fst m)) ms = map fst m).
      { assert (Q : forall al, In al m -> exists c ps, markers x_dim y_dim (t_agents t) al = Some (fst al, c, ps)) by (intros al Il; destruct (Mk T m al Im Il) as (c & ps & E & _); eauto).
        clear - Q Em. revert ms Em. induction m as [|al m IH]; intros ms Em; cbn [mapM] in Em; [injection Em as <-; reflexivity|]. destruct (Q al (or_introl eq_refl)) as (c & ps & E). rewrite E in Em. cbn [obind] in Em.
        destruct (mapM (markers x_dim y_dim (t_agents t)) m) as [ms'|]; [|discriminate]. cbn [obind] in Em. injection Em as <-. cbn. f_equal. apply IH; [|reflexivity]. intros; apply Q; right; assumption. }
      split; [rewrite Mm; exact Nm|]. split.
      + intros a. transitivity (In a (map fst m)).
        * rewrite <- Mm. rewrite in_map_iff. split; [intros (c & ps & Ix); exists (a, c, ps); auto|]. intros ([[a' c] ps] & Ea & Ix). cbn in Ea. subst a'. eauto.
        * rewrite Km. split; [intros (r & Ix); apply Ev' in Ix; destruct Ix as (t0 & Hx & Ex); eauto|]. intros (t0 & r & Hx & Ex). exists r. apply Ev'. eauto.
      + intros a c ps Ix. apply (mapM_In _ _ Em) in Ix. destruct Ix as (al & Il & Ea). destruct (Mk T m al Im Il) as (c' & ps' & Ea' & R). rewrite Ea' in Ea. injection Ea as <- <- <-. exact R.
  Qed.
  (** C106.  If no state is at time 0 there is no animation: the call raises. *)
  Theorem C106_start_refuted : (forall a t0 r, has_state t a t0 r -> tick digits t0 <> 0%Z) -> simulation_anime t x_dim y_dim digits 1 = None.
  Proof.
    intros H. unfold simulation_anime. rewrite sample_trace_1. cbn [obind]. destruct (num_dim_ok C) as (nd & -> & Ed). cbn [obind]. rewrite Ed. cbn [obind].
    destruct (@motion_collect_ok t x_dim y_dim digits C) as (d & ev & -> & [_ Kd _] & Ev). cbn [obind]. destruct (dget Z.eqb 0%Z d) as [m|] eqn:D; [|reflexivity]. exfalso.
    apply dget_In in D; [|exact Z.eqb_eq]. assert (I : In 0%Z (map fst d)) by (apply in_map_iff; exists (0%Z, m); auto). apply Kd in I. destruct I as (ax & I). apply Ev in I. destruct I as (a & r & t0 & Hs & [= E _]). apply (H a t0 r Hs). congruence.
  Qed.
End Motion.
Print Assumptions C106_frames.
Print Assumptions C106_start_refuted.

Module Example_motion.
  Definition runs : ptree := mkt [name_a] SimTrace (node [[0; 0; 0]; [1; 1; 0]]%Q [node [[1; 1; 0]; [2; 2; 0]]%Q []; node [[1; 1; 0]; [2; 3; 0]]%Q []]).
  Example runs_complete : complete runs 1 2.
  Proof.
    split; [discriminate|]. intros q n Q. assert (exists tr ch, n = node tr ch /\ tr <> [] /\ Forall (has_dims 1 2) tr) as (tr & ch & -> & Ne & F).
    { destruct q as [|[|[|i]] q]; cbn [t_root runs at_path child node nth_error obind] in Q; [injection Q as <-| | |destruct i; discriminate];
        try (destruct q as [|j q]; cbn [at_path] in Q; [injection Q as <-|destruct j; discriminate]); do 2 eexists; (split; [reflexivity|split; [discriminate|repeat constructor]]). }
    cbn [node content p_trace map fst runs t_agents]. split; [repeat constructor; intros []|]. split; [tauto|].
    intros a tr' D. apply dget_In in D; [|exact word_eqb_eq]. destruct D as [[= <- <-]|[]]. split; [exact Ne|exact F].
  Qed.
  Example runs_start : exists a t0 r, has_state runs a t0 r /\ tick 3 t0 = 0%Z.
  Proof. exists name_a, 0%Q, [0; 0; 0]%Q. split; [|reflexivity]. exists [], [[0; 0; 0]; [1; 1; 0]]%Q. split; [eexists; split; reflexivity|]. split; [left; reflexivity|reflexivity]. Qed.
  (** The state where the runs part is marked once, the two where they end are both marked. *)
  Example runs_frames : simulation_anime runs 1 2 3 1 = Some (runs, ([(name_a, w "#FF0000", [(0, 0)%Q])],
    [(0%Z, [(name_a, w "#FF0000", [(0, 0)%Q])]); (1000%Z, [(name_a, w "#FF0000", [(1, 0)%Q])]); (2000%Z, [(name_a, w "#FF0000", [(3, 0); (2, 0)]%Q)])])).
  Proof. vm_compute. reflexivity. Qed.
  Example late : exists t, complete t 1 2 /\ forall a t0 r, has_state t a t0 r -> tick 3 t0 <> 0%Z.
  Proof.
    exists (one [[1; 0; 0]; [2; 1; 1]]%Q). split; [apply one_complete; [discriminate|repeat constructor]|]. intros a t0 r (q & tr & Ht & I & E). apply one_trace in Ht. destruct Ht as (-> & -> & ->).
    destruct I as [<-|[<-|[]]]; cbn in E; injection E as <-; vm_compute; discriminate.
  Qed.
End Example_motion.

(** C106.  With a trail no frame is before the eleventh time: a run with ten times or fewer is not shown at all. *)
Theorem C106_trail_refuted : complete Example_motion.runs 1 2 /\ (exists a t0 r, has_state Example_motion.runs a t0 r /\ tick 3 t0 = 0%Z) /\
  simulation_trail Example_motion.runs 1 2 3 1 = Some (Example_motion.runs, []).
Proof. split; [exact Example_motion.runs_complete|]. split; [exact Example_motion.runs_start|]. vm_compute. reflexivity. Qed.
Print Assumptions C106_trail_refuted.
