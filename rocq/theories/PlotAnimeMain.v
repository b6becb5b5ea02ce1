(** The video as a whole. *)
From Coq Require Import Ascii String Sorted Permutation Lqa.
From Verif Require Import Base BaseFacts Dict PyText Round RoundProofs Tree TreeSpec TreeProofs ResetProofs Plot PlotSpec PlotGeom PlotProofs PlotMain PlotAnime PlotAnimeSpec PlotAnimeProofs.
Set Implicit Arguments.
Open Scope nat_scope.

Lemma index_nth a l i : index a l = Some i -> nth_error l i = Some a.
Proof.
  unfold index. assert (H : forall l k i, (fix go i l := match l with [] => None | b :: l' => if word_eqb a b then Some i else go (S i) l' end) k l = Some i -> k <= i /\ nth_error l (i - k) = Some a).
  { clear. induction l as [|b l IH]; intros k i; [discriminate|]. destruct (word_eqb a b) eqn:E; cbn.
    - intros [= <-]. apply word_eqb_eq in E. subst. split; [lia|]. rewrite Nat.sub_diag. reflexivity.
    - intros H. apply IH in H. destruct H as [L H]. split; [lia|]. replace (i - k) with (S (i - S k)) by lia. exact H. }
  intros E. destruct (H l 0 i E) as [_ X]. rewrite Nat.sub_0_r in X. exact X.
Qed.

Section Video.
  Variables (t : ptree) (lanes : list shape) (fig : figure) (x_dim y_dim : nat) (scale : bool) (plot_color : list (list word)) (digits : nat)
    (max_slider max_frame : option nat) (html : bool).
  Hypothesis C : complete t x_dim y_dim.
  Hypothesis Bx : boxed t x_dim y_dim.
  Hypothesis ND : NoDup (t_agents t).
  Hypothesis Pal : palette plot_color.
  Hypothesis M0 : max_frame <> Some 0.

  Lemma some_box : exists a t0 lo hi, has_box t a t0 lo hi.
  Proof.
    destruct C as [Na C']. destruct (t_agents t) as [|a ags] eqn:Ea; [contradiction|]. destruct (C' [] (t_root t) eq_refl) as (_ & A & T).
    assert (I : In a (map fst (p_trace (content (t_root t))))) by (apply A; left; reflexivity).
    destruct (dget word_eqb a (p_trace (content (t_root t)))) as [tr|] eqn:D; [|apply dget_None in D; [contradiction|exact word_eqb_eq]].
    destruct (T a tr D) as [Ne F]. assert (Ht : trace_at t [] a tr) by (exists (t_root t); auto). destruct (@Bx [] a tr Ht) as [[m L] _].
    destruct tr as [|r0 [|r1 tr]]; [contradiction|cbn in L; lia|]. inversion F as [|? ? [Hx _] _]; subst. destruct r0 as [|t0 r0]; [cbn in Hx; lia|].
    exists a, t0, (t0 :: r0), r1, [], ((t0 :: r0) :: r1 :: tr), 0. split; [exact Ht|]. split; [split; reflexivity|reflexivity].
  Qed.
  Lemma has_box_agent a t0 lo hi : has_box t a t0 lo hi -> In a (t_agents t) /\ has_dims x_dim y_dim lo /\ has_dims x_dim y_dim hi.
  Proof.
    intros (q & tr & j & (n & Q & D) & [A B] & _). destruct C as [_ C']. destruct (C' q n Q) as (_ & Ag & T). destruct (T a tr D) as [_ F]. rewrite Forall_forall in F.
    split; [apply Ag; apply dget_In in D; [|exact word_eqb_eq]; apply in_map_iff; exists (a, tr); auto|]. split; apply F; eapply nth_error_In; eassumption.
  Qed.
  Lemma video_rect_ok a lo hi : In a (t_agents t) -> has_dims x_dim y_dim lo -> has_dims x_dim y_dim hi ->
    exists i x0 x1 y0 y1 line fill, nth_error (t_agents t) i = Some a /\ video_colors plot_color i line fill /\
      nth_error lo x_dim = Some x0 /\ nth_error hi x_dim = Some x1 /\ nth_error lo y_dim = Some y0 /\ nth_error hi y_dim = Some y1 /\
      video_rect x_dim y_dim (t_agents t) plot_color (a, (lo, hi)) = Some (Filled (corners x0 x1 y0 y1) line fill).
  Proof.
    intros Ia [Lx Ly] [Hx Hy]. destruct (index_ok _ _ Ia) as (i & Ei & _). unfold video_rect. rewrite Ei. cbn [obind]. destruct Pal as [Pn Pr].
    assert (Lp : 0 < length plot_color) by (destruct plot_color; [contradiction|cbn; lia]). destruct (Nat.eqb_spec (length plot_color) 0) as [X|_]; [lia|].
    destruct (nth_error plot_color (i mod length plot_color)) as [row|] eqn:Er; [|apply nth_error_None in Er; assert (i mod length plot_color < length plot_color) by (apply Nat.mod_upper_bound; lia); lia].
    cbn [obind]. assert (Lr := Pr row (nth_error_In _ _ Er)). destruct row as [|line [|fill row]]; try (cbn in Lr; lia). cbn [nth_error obind].
    unfold rectangle, cell. cbn [nth_error obind Nat.add].
    destruct (nth_error lo x_dim) as [x0|] eqn:X0; [|apply nth_error_None in X0; lia]. destruct (nth_error hi x_dim) as [x1|] eqn:X1; [|apply nth_error_None in X1; lia].
    destruct (nth_error lo y_dim) as [y0|] eqn:Y0; [|apply nth_error_None in Y0; lia]. destruct (nth_error hi y_dim) as [y1|] eqn:Y1; [|apply nth_error_None in Y1; lia].
    exists i, x0, x1, y0, y1, line, fill. split; [apply index_nth; exact Ei|]. split; [exists (line :: fill :: row); auto|]. repeat (split; [reflexivity|]). reflexivity.
  Qed.
  Lemma dims_ok : exists n, num_dim_of t = Some n /\ check_dim n x_dim y_dim = Some tt.
  Proof.
    destruct C as [Na C']. unfold num_dim_of. destruct (t_agents t) as [|a ags] eqn:Ea; [contradiction|]. destruct (C' [] (t_root t) eq_refl) as (_ & A & T). cbn [nth_error obind].
    assert (I : In a (map fst (p_trace (content (t_root t))))) by (apply A; left; reflexivity).
    destruct (dget word_eqb a (p_trace (content (t_root t)))) as [tr|] eqn:D; [|apply dget_None in D; [contradiction|exact word_eqb_eq]]. cbn [obind].
    destruct (T a tr D) as [Ne F]. destruct tr as [|r tr]; [contradiction|]. inversion F as [|? ? [Hx Hy] _]; subst. cbn [nth_error obind]. exists (length r). split; [reflexivity|].
    unfold check_dim. destruct (Nat.leb_spec (length r) x_dim); [lia|]. destruct (Nat.leb_spec (length r) y_dim); [lia|reflexivity].
  Qed.

  Definition the_cap : option nat := match max_frame with None => if html then Some 150 else None | Some m => Some m end.
  Lemma video_ok : exists v times,
    reachtube_tree_video t lanes fig x_dim y_dim scale 1 plot_color digits max_slider max_frame html = Some (t, inr v) /\
    increasing times /\ (forall T, In T times <-> starts t digits T) /\ thin the_cap times = Some (map fst (c_frames v)) /\
    (forall T vis, In (T, vis) (c_frames v) -> length vis = length (c_data v) /\
       forall c p, clip_shows v vis c p <-> exists i a l, nth_error (t_agents t) i = Some a /\ video_colors plot_color i l c /\ reached_when t digits (fun S => (S <= T)%Z) x_dim y_dim a p) /\
    (forall f, nth_error (c_frames v) 0 = Some f -> c_start v = snd f) /\ c_map v = lanes /\
    (exists sl, thin max_slider (map fst (c_frames v)) = Some sl /\ forall T, In T (c_slider v) <-> In T (map fst (c_frames v)) /\ In T sl) /\
    (scale = true -> forall a t0 lo hi r q, has_box t a t0 lo hi -> r = lo \/ r = hi -> point_of x_dim y_dim r q -> in_range (c_x v) (fst q) /\ in_range (c_y v) (snd q)).
  Proof.
    unfold reachtube_tree_video. rewrite sample_trace_1. cbn [obind]. destruct dims_ok as (nd & -> & Ed). cbn [obind]. rewrite Ed. cbn [obind].
    change (match max_frame with Some m => Some m | None => if html then Some 150 else None end) with the_cap.
    destruct (@video_collect_ok t x_dim y_dim digits C) as (s & ev & Es & [Gt Gb] & Ev). rewrite Es. cbn [obind].
    destruct (build_ok ev) as (Nk & Kk & Dk). rewrite Gt. set (times := sorted (map fst (build ev))).
    assert (Inc : increasing times) by (apply sorted_increasing; exact Nk).
    assert (It : forall T, In T times <-> exists x, In (T, x) ev).
    { intros T. rewrite <- Kk. split; apply Permutation_in; [|apply Permutation_sym]; apply sorted_perm. }
    assert (St : forall T, In T times <-> starts t digits T).
    { intros T. rewrite It. split.
      - intros (x & I). apply Ev in I. destruct I as (a & lo & hi & t0 & H & [= -> ->]). exists a, t0, lo, hi. auto.
      - intros (a & t0 & lo & hi & H & ->). exists (a, (lo, hi)). apply Ev. exists a, lo, hi, t0. auto. }
    assert (Nt : times <> []). { destruct some_box as (a & t0 & lo & hi & H). intros E. assert (I : In (tick digits t0) times) by (apply St; exists a, t0, lo, hi; auto). rewrite E in I. destruct I. }
    destruct (Nat.eqb_spec (length times) 0) as [X|_]; [destruct times; [contradiction|discriminate]|].
    destruct (thin_ok the_cap Inc) as (fts & Ef & If & Sf & _ & Nf & _ & _). rewrite Ef. cbn [obind].
    destruct (thin_ok max_slider If) as (sl & Esl & _). rewrite Esl. cbn [obind].
    assert (Nc : the_cap <> Some 0) by (unfold the_cap; destruct max_frame; [exact M0|destruct html; discriminate]).
    destruct (Nat.eqb_spec (length fts) 0) as [X|_]; [destruct fts; [destruct (Nf Nt Nc eq_refl)|discriminate]|].
    destruct (@video_times_ok x_dim y_dim (t_agents t) plot_color (build ev)) with (todo := times) (ts := @nil Z) (d := (@nil shape, @nil (Z * list nat))) (ld := @nil (Z * shape)) as (d & ld & Ed' & [Td Tn Tk Tx] & Nd).
    { intros T l ar D I. apply (Dk T l D) in I. apply Ev in I. destruct I as (a & lo & hi & t0 & H & [= _ ->]). destruct (@has_box_agent a t0 lo hi H) as (Ia & Dl & Dh).
      destruct (@video_rect_ok a lo hi Ia Dl Dh) as (i & x0 & x1 & y0 & y1 & line & fill & _ & _ & _ & _ & _ & _ & ->). discriminate. }
    { cbn. clear - Inc. unfold increasing in Inc. induction Inc as [|y l S IH F]; constructor; [|exact IH]. intros I. rewrite Forall_forall in F. specialize (F _ I). lia. }
    { intros T I E. apply dget_None in E; [|exact Z.eqb_eq]. apply E. apply Kk. apply It. exact I. }
    { split; cbn; [reflexivity|intros e []|intros T; split; [congruence|intros []]|discriminate]. }
    rewrite Ed'. cbn [obind]. cbn [app] in *.
    destruct (@video_frames_ok (snd d) (map fst ld) times Inc) with (fts := fts) (done := @nil Z) (rest := times) (visible := repeat false (length (fst d))) as (fs & Efs & Mfs & Hfs).
    { intros T I. destruct (dget Z.eqb T (snd d)) as [is|] eqn:E; [|destruct (proj2 (Tk T) I E)]. exists is. split; [reflexivity|]. exact (Tx T is E). }
    { exact If. }
    { reflexivity. }
    { split; [rewrite repeat_length, map_length, <- Td, map_length; reflexivity|]. intros k. split; [|intros (T & _ & [])]. intros E. apply nth_error_In in E. apply repeat_spec in E. discriminate. }
    { intros S T []. }
    rewrite Efs. cbn [obind]. eexists. exists times. split; [reflexivity|]. cbn [c_data c_start c_frames c_slider c_map c_x c_y].
    split; [exact Inc|]. split; [exact St|]. split; [rewrite Mfs; exact Ef|].
    split; [|split; [|split; [reflexivity|split]]].
    - intros T vis I. destruct (Hfs T vis I) as [Lv Hv]. split; [rewrite Lv, map_length, <- Td, map_length; reflexivity|]. intros c p. unfold clip_shows. cbn [c_data]. split.
      + intros (k & path & l & Kd & Kv & F). apply Hv in Kv. destruct Kv as (S & Ks & _ & LS).
        assert (Ie : In (S, Filled path l c) ld).
        { rewrite <- Td in Kd. rewrite nth_error_map in Kd, Ks. destruct (nth_error ld k) as [[S' sh]|] eqn:E; [|discriminate]. cbn in Kd, Ks. apply nth_error_In in E. congruence. }
        apply Nd in Ie. destruct Ie as (T' & l' & ar & sh & _ & D & Iar & R & [= <- <-]). apply (Dk _ _ D) in Iar. apply Ev in Iar. destruct Iar as (a & lo & hi & t0 & H & [= -> ->]).
        destruct (@has_box_agent a t0 lo hi H) as (Ia & Dl & Dh). destruct (@video_rect_ok a lo hi Ia Dl Dh) as (i & x0 & x1 & y0 & y1 & line & fill & Hi & Vc & X0 & X1 & Y0 & Y1 & R'). rewrite R' in R. injection R as <- <- <-.
        exists i, a, line. split; [exact Hi|]. split; [exact Vc|]. exists t0, lo, hi. split; [exact H|]. split; [exact LS|].
        destruct H as (q & tr & j & Ht & B & _). destruct (@Bx q a tr Ht) as [_ O]. destruct (O _ _ _ _ _ _ _ B X0 X1 Y0 Y1) as [Ox Oy]. apply (filled_rectangle p Ox Oy) in F.
        exists x0, x1, y0, y1. auto.
      + intros (i & a & l & Hi & Vc & t0 & lo & hi & H & LS & x0 & x1 & y0 & y1 & X0 & X1 & Y0 & Y1 & Ins). destruct (@has_box_agent a t0 lo hi H) as (Ia & Dl & Dh).
        destruct (@video_rect_ok a lo hi Ia Dl Dh) as (i' & x0' & x1' & y0' & y1' & line & fill & Hi' & Vc' & X0' & X1' & Y0' & Y1' & R).
        assert (i' = i). { apply (proj1 (NoDup_nth_error _) ND); [apply nth_error_Some; congruence|congruence]. } subst i'.
        assert (line = l /\ fill = c) as [-> ->]. { destruct Vc as (row & E1 & E2 & E3). destruct Vc' as (row' & E1' & E2' & E3'). split; congruence. }
        assert (Ie : In (tick digits t0, Filled (corners x0' x1' y0' y1') l c) ld).
        { apply Nd. assert (Iev : In (tick digits t0, (a, (lo, hi))) ev) by (apply Ev; exists a, lo, hi, t0; auto).
          assert (IT : In (tick digits t0) times) by (apply It; eauto). destruct (dget Z.eqb (tick digits t0) (build ev)) as [bl|] eqn:D; [|exfalso; apply dget_None in D; [|exact Z.eqb_eq]; apply D; apply Kk; eauto].
          exists (tick digits t0), bl, (a, (lo, hi)), (Filled (corners x0' x1' y0' y1') l c). split; [exact IT|]. split; [exact D|]. split; [apply (Dk _ _ D); exact Iev|]. split; [exact R|reflexivity]. }
        destruct (In_nth_error _ _ Ie) as [k Hk]. exists k, (corners x0' x1' y0' y1'), l. split; [rewrite <- Td, nth_error_map, Hk; reflexivity|]. split.
        * apply Hv. exists (tick digits t0). split; [rewrite nth_error_map, Hk; reflexivity|]. split; [|exact LS]. apply St. exists a, t0, lo, hi. auto.
        * assert (x0' = x0) by congruence. assert (x1' = x1) by congruence. assert (y0' = y0) by congruence. assert (y1' = y1) by congruence. subst.
          destruct H as (q & tr & j & Ht & B & _). destruct (@Bx q a tr Ht) as [_ O]. destruct (O _ _ _ _ _ _ _ B X0 X1 Y0 Y1) as [Ox Oy]. apply filled_rectangle; assumption.
    - destruct fs as [|f fs]; [discriminate|]. cbn. intros f' [= <-]. reflexivity.
    - rewrite Mfs. exists sl. split; [exact Esl|]. intros T. rewrite filter_In. unfold mem_Z. rewrite existsb_exists. split.
      + intros [H (y & I & E)]. apply Z.eqb_eq in E. subst. auto.
      + intros [H I]. split; [exact H|]. exists T. split; [exact I|apply Z.eqb_refl].
    - intros Hs a t0 lo hi r q H Hr [Px Py]. rewrite Hs. assert (Iev : In (tick digits t0, (a, (lo, hi))) ev) by (apply Ev; exists a, lo, hi, t0; auto).
      assert (Rb : row_bounds x_dim y_dim s r) by (destruct (Gb _ _ _ _ Iev), Hr as [-> | ->]; assumption).
      destruct (Rb _ _ Px Py) as [(l & h & -> & -> & A & B) (l' & h' & -> & -> & A' & B')]. split; (do 2 eexists; split; [reflexivity|]; split; lra).
  Qed.
End Video.
