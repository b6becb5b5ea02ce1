(** C79: bounds over several intervals. *)
From Coq Require Import Ascii String Reals Qreals Lra.
From Verif Require Import Base BaseFacts PyText Dict ScanProofs Angle Angular AngularSpec AngularProofs AngularRect AngularProj AngularProps Piecewise PiecewiseSpec PiecewiseProofs PiecewiseMain PiecewiseProps ParseArraySpec ParseArrayProofs Handlers HandlersSpec HandlersProofs.
Set Implicit Arguments.
Open Scope nat_scope.

(** Map functions: if the optimiser is right on every box, the bounds are right for arguments with any number of
    intervals each. *)
Theorem C79_map : forall call mapo f, map_oracle call mapo f -> fun_sound call (handle_map mapo) f.
Proof. exact handle_map_sound. Qed.

(** General expressions. *)
Theorem C79_expression : forall call lirpa evaluate e, lirpa_oracle call lirpa e -> eval_oracle call evaluate e ->
  expr_sound call (handle_crown lirpa evaluate) e.
Proof. exact handle_crown_sound. Qed.

(** Angular functions.  Missing: points on both sides of the horizontal axis (refuted in AngularOneProps.v for several
    intervals, proved there for one). *)
Lemma span_sides (P : R -> Prop) yb xb b : (forall x y, fst yb <= y <= snd yb -> P (arctan2 y x))%R -> (fst yb <= snd yb)%R -> (forall a c, P a -> P c -> Rabs (c - a) <= PI)%R ->
  span_rect yb xb = Some b -> exists lo hi, b = One lo hi /\ P lo /\ P hi /\ (lo <= hi)%R.
Proof.
  intros H O W E. unfold span_rect, span_between in E. cbn [xmin xmax ymin ymax] in E.
  assert (Z : forall a c, (lt a c && lt c a)%bool = false) by (intros a c; unfold lt; destruct (Rlt_dec a c), (Rlt_dec c a); try reflexivity; lra).
  set (r2 := mk_rect (fst xb) (snd xb) (fst yb) (snd yb)) in *.
  set (l := flat_map (fun c2 => map (fun c1 => arctan2 (snd c2 - snd c1) (fst c2 - fst c1)) (corners (mk_rect 0 0 0 0))) (corners r2)) in *.
  assert (NE : l <> []) by discriminate.
  assert (Pl : forall a, In a l -> P a).
  { intros a Ha. unfold l in Ha. apply in_flat_map in Ha. destruct Ha as (c2 & H2 & Ha). apply in_map_iff in Ha. destruct Ha as (c1 & <- & H1). apply H.
    cbn in H1, H2. destruct H1 as [<-|[<-|[<-|[<-|[]]]]]; cbn [fst snd]; rewrite Rminus_0_r; destruct H2 as [<-|[<-|[<-|[<-|[]]]]]; cbn [fst snd]; lra. }
  destruct (least_spec NE) as (lo & L1 & L2 & L3). destruct (greatest_spec NE) as (hi & G1 & G2 & G3).
  assert (B : forall c : bool, c = false -> (if c then Some (- PI, PI)%R else do lo <- least l; do hi <- greatest l; if Rle_dec (hi - lo) PI then Some (lo, hi) else
      let am := map (fun a => rmod a (2 * PI)) l in do lo <- least am; do hi <- greatest am;
      Some (if Rlt_dec PI lo then lo - 2 * PI else lo, if Rlt_dec PI hi then hi - 2 * PI else hi))%R = Some (lo, hi)).
  { intros c ->. rewrite L1. cbn [obind]. rewrite G1. cbn [obind]. destruct (Rle_dec (hi - lo) PI) as [_|F]; [reflexivity|]. exfalso. apply F.
    eapply Rle_trans; [apply Rle_abs|]. apply W; apply Pl; assumption. }
  rewrite B in E; [|]. 2: { apply orb_false_iff. split; [apply andb_false_iff; left; apply andb_false_iff; left; apply Z|]. rewrite <- !andb_assoc.
    assert (Y : lt (fst yb) 0 && lt 0 (snd yb) = true -> False).
    { intros T. apply andb_true_iff in T. destruct T as [T1 T2]. unfold lt in T1, T2. destruct (Rlt_dec (fst yb) 0); [|discriminate]. destruct (Rlt_dec 0 (snd yb)); [|discriminate].
      assert (P1 : P (arctan2 0 (-1))) by (apply H; lra). assert (P2 : P (arctan2 (fst yb / 2) (-1))) by (apply H; lra).
      specialize (W _ _ P2 P1). rewrite at_zm in W by lra. assert (D := proj2 (@atan2_left (-1) (fst yb / 2) ltac:(lra)) ltac:(lra)).
      rewrite Rabs_right in W by lra. lra. }
    destruct (lt (fst yb) 0 && lt 0 (snd yb)); [exfalso; auto|]. rewrite !andb_false_r. reflexivity. }
  cbn [obind fst snd] in E. assert (lo <= hi)%R by (apply L3, G2). destruct (Rle_dec lo hi); [|contradiction]. injection E as <-. exists lo, hi. auto.
Qed.
Theorem C79_atan2_partial : forall ybs xbs x y,
  (forall yb, In yb ybs -> fst yb <= snd yb)%R -> (forall xb, In xb xbs -> fst xb <= snd xb)%R ->
  (forall yb, In yb ybs -> 0 < fst yb)%R \/ (forall yb, In yb ybs -> snd yb < 0)%R ->
  (exists yb, In yb ybs /\ fst yb <= y <= snd yb)%R -> (exists xb, In xb xbs /\ fst xb <= x <= snd xb)%R ->
  exists l, handle_angular atan2_on [ybs; xbs] = Some l /\ angle_in l (arctan2 y x).
Proof.
  intros ybs xbs x y OY OX S (yb & Hyb & Y) (xb & Hxb & X). unfold handle_angular.
  assert (H : forall yb xb, In yb ybs -> In xb xbs -> (0 < fst xb \/ snd xb < 0 \/ 0 < fst yb \/ snd yb < 0 \/ (fst xb < 0 < snd xb /\ fst yb < 0 < snd yb))%R).
  { intros yb' xb' A B. destruct S as [S|S]; specialize (S _ A); tauto. }
  assert (I : forall c, In c (product [ybs; xbs]) -> exists b a, c = [b; a] /\ In b ybs /\ In a xbs).
  { intros c Hc. apply In_product in Hc. inversion Hc as [|b ? l1 ? H1 H2]; subst. inversion H2 as [|a ? l2 ? H3 H4]; subst. inversion H4; subst. eauto. }
  assert (T : exists outs, mapM atan2_on (product [ybs; xbs]) = Some outs).
  { revert I. generalize (product [ybs; xbs]). induction l as [|c l IH]; intros I; [exists []; reflexivity|].
    destruct IH as [outs E]; [intros; apply I; right; assumption|]. destruct (I c (or_introl eq_refl)) as (b & a & -> & Hb & Ha).
    destruct (C74_atan2_partial _ _ (OX a Ha) (OY b Hb) (H b a Hb Ha)) as (o & O & _). cbn [mapM atan2_on]. rewrite O. cbn [obind]. rewrite E. cbn [obind]. eauto. }
  destruct T as [outs T]. rewrite T. cbn [obind]. eexists. split; [reflexivity|]. apply mapM_Forall2 in T.
  destruct (C74_atan2_partial _ _ (OX xb Hxb) (OY yb Hyb) (H yb xb Hyb Hxb)) as (o & O & C).
  assert (In [yb; xb] (product [ybs; xbs])) as Hp by (apply In_product; repeat constructor; assumption).
  destruct (In_Forall2_l _ T Hp) as (o' & Ho & E). cbn [atan2_on] in E. rewrite O in E. injection E as <-.
  apply C75_union_partial; [|exists o; split; [exact Ho|apply C; assumption]].
  assert (G : forall b, In b outs -> exists yb xb, In yb ybs /\ In xb xbs /\ span_rect yb xb = Some b).
  { intros b Hb. destruct (In_Forall2_r _ T Hb) as (c & Hc & E). destruct (I c Hc) as (b' & a & -> & ? & ?). eauto. }
  destruct S as [S|S]; [left|right; left]; intros b i Hb Hi; destruct (G b Hb) as (b' & a & B1 & B2 & B3); specialize (S _ B1).
  - destruct (@span_sides (fun t => 0 < t < PI)%R b' a b) as (lo & hi & -> & P1 & P2 & P3); try assumption.
    + intros x0 y0 Y0. apply atan2_up. lra.
    + apply OY, B1.
    + intros t u ? ?. apply Rabs_le. lra.
    + destruct Hi as [[_ ->]|[F _]]; [|lra]. unfold positive. cbn [fst snd]. lra.
  - destruct (@span_sides (fun t => - PI < t < 0)%R b' a b) as (lo & hi & -> & P1 & P2 & P3); try assumption.
    + intros x0 y0 Y0. apply atan2_down. lra.
    + apply OY, B1.
    + intros t u ? ?. apply Rabs_le. lra.
    + destruct Hi as [[_ ->]|[F _]]; [|lra]. unfold negative. cbn [fst snd]. lra.
Qed.

(** A whole sensor function.  Missing: angular and piecewise functions (see C72). *)
Theorem C79_parse_partial : forall call opt mapo lirpa evaluate angular f cur cur' s s',
  (forall g, map_oracle call mapo g) -> (forall e, lirpa_oracle call lirpa e /\ eval_oracle call evaluate e) ->
  straight call (map fst cur) (fbody f) ->
  state_in s cur ->
  parse_function opt (handle_crown lirpa evaluate) angular (handle_map mapo) ALIASES ANGULAR_FUNCTIONS MAP_FUNCTIONS [] f cur = Some cur' ->
  runs call s (before_return (fbody f)) (inl s') ->
  state_in s' cur'.
Proof.
  intros call opt mapo lirpa evaluate angular f cur cur' s s' M E B. apply C72_parse_partial. apply (@straight_ok call opt mapo lirpa evaluate angular M E _ _ B). auto.
Qed.

Print Assumptions C79_map.
Print Assumptions C79_expression.
Print Assumptions C79_atan2_partial.
Print Assumptions C79_parse_partial.

Module Example_handlers.
  Example ex_atan2 : exists l, handle_angular atan2_on [[(1, 2); (5, 6)]; [(-1, 1)]]%R = Some l /\ angle_in l (arctan2 5 (-1)).
  Proof.
    apply C79_atan2_partial.
    - intros yb [<-|[<-|[]]]; cbn; lra.
    - intros xb [<-|[]]; cbn; lra.
    - left. intros yb [<-|[<-|[]]]; cbn; lra.
    - exists (5, 6)%R. split; [right; left; reflexivity|cbn; lra].
    - exists (-1, 1)%R. split; [left; reflexivity|cbn; lra].
  Qed.
  (** def f(x): a = get_lane_heading(x); b = -a + 1; c = 2; return b, with x in [0, 1] or [2, 3] and a track of heading x + 1. *)
  Definition head (f : word) (vs : list R) : option R :=
    if word_eqb f (w "get_lane_heading") || word_eqb f (w "get_heading_bounds_optimized") then match vs with [x] => Some (x + 1)%R | _ => None end else None.
  Definition mapo (f : word) (comb : list (Q * Q)) : option (Q * Q) :=
    if word_eqb f (w "get_heading_bounds_optimized") then match comb with [(lo, hi)] => Some ((lo + 1)%Q, (hi + 1)%Q) | _ => None end else None.
  Lemma mapo_ok g : map_oracle head mapo g.
  Proof.
    intros comb b vs v H V C. unfold mapo in H. unfold head in C. destruct (word_eqb g (w "get_heading_bounds_optimized")) eqn:E; [|discriminate].
    rewrite orb_true_r in C. destruct comb as [|[lo hi] [|? ?]]; try discriminate. injection H as <-. inversion V as [|u ? vs' ? Hu V']; subst. inversion V'; subst.
    injection C as <-. cbn [fst snd] in *. rewrite !Q2R_plus. replace (Q2R 1) with 1%R by (unfold Q2R; simpl; lra). lra.
  Qed.
  (** Interval arithmetic for -a + q; constants are numbers. *)
  Definition lirpa (e : expr) (d : list (word * (Q * Q))) : outcome :=
    match e, d with
    | EBin Add (ENeg (EName x)) (EConst q), [(y, (lo, hi))] => if word_eqb x y then Bounds (- hi + q) (- lo + q) else Raises
    | EConst _, [] => PlainNumber
    | _, _ => Raises
    end.
  Definition evaluate (e : expr) : option Q := match e with EConst q => Some q | _ => None end.
  Lemma oracles e : lirpa_oracle head lirpa e /\ eval_oracle head evaluate e.
  Proof.
    split.
    - intros d lb ub s v H V P. destruct e as [|q| | |o a b|]; try discriminate H; [cbn [lirpa] in H; destruct d; discriminate H|]. destruct o; try discriminate H. destruct a as [| | |a| |]; try discriminate H. destruct a as [x| | | | |]; try discriminate H.
      destruct b as [|q| | | |]; try discriminate H. destruct d as [|[y [lo hi]] [|? ?]]; try discriminate H. cbn [lirpa] in H. destruct (word_eqb x y) eqn:E; [|discriminate H]. apply word_eqb_iff in E. subst y.
      injection H as <- <-. destruct (V x (lo, hi) (or_introl eq_refl)) as (u & U & B). cbn [py_expr obind py_bin] in P. rewrite U in P. cbn [obind py_bin] in P. injection P as <-.
      cbn [fst snd] in B. rewrite !Q2R_plus, !Q2R_opp. lra.
    - intros q s v H P. destruct e; try discriminate. injection H as <-. injection P as <-. reflexivity.
  Qed.
  Definition f : func := mkfunc (w "f") [w "x"]
    [SAssign (w "a") (ECall (w "get_lane_heading") [EName (w "x")]); SAssign (w "b") (EBin Add (ENeg (EName (w "a"))) (EConst 1)); SAssign (w "c") (EConst 2); SReturn (EName (w "b"))].
  Definition cur : bounds := [(w "x", [(0, 1)%Q; (2, 3)%Q])].
  Lemma f_straight : straight head (map fst cur) (fbody f).
  Proof.
    eapply st_map with (g := w "get_heading_bounds_optimized") (xs := [w "x"]); [vm_compute; reflexivity|left; reflexivity|reflexivity|intros y [<-|[]]; left; reflexivity| |].
    { intros h y Hh [<-|[]]. simpl in Hh. destruct Hh as [<-|[<-|[<-|[<-|[]]]]]; vm_compute; reflexivity. }
    eapply st_plain; [reflexivity| |].
    { intros h Hh. simpl in Hh. destruct Hh as [<-|[<-|[<-|[<-|[]]]]]; vm_compute; reflexivity. }
    eapply st_plain; [reflexivity| |].
    { intros h Hh. simpl in Hh. destruct Hh as [<-|[<-|[<-|[<-|[]]]]]; vm_compute; reflexivity. }
    apply st_return.
  Qed.
  Definition cur' : bounds := cur ++ [(w "a", [(1, 4)%Q]); (w "b", [(-3, 0)%Q]); (w "c", [(2, 2)%Q])].
  Example f_bounds : forall opt angular, exists r, parse_function opt (handle_crown lirpa evaluate) angular (handle_map mapo) ALIASES ANGULAR_FUNCTIONS MAP_FUNCTIONS [] f cur = Some r /\ same_bounds r cur'.
  Proof. intros. eexists. split; [vm_compute; reflexivity|]. repeat constructor; vm_compute; reflexivity. Qed.
  Example ex_C79 : forall opt angular, exists r, parse_function opt (handle_crown lirpa evaluate) angular (handle_map mapo) ALIASES ANGULAR_FUNCTIONS MAP_FUNCTIONS [] f cur = Some r /\
    exists s', runs head [(w "x", 5 / 2)%R] (before_return (fbody f)) (inl s') /\ state_in s' r.
  Proof.
    intros. eexists. split; [vm_compute; reflexivity|]. eexists. split.
    - eapply run_assign; [reflexivity|]. eapply run_assign; [reflexivity|]. eapply run_assign; [reflexivity|]. apply run_nil.
    - eapply (@C79_parse_partial head opt mapo lirpa evaluate angular f cur _ [(w "x", 5 / 2)%R]); [apply mapo_ok|apply oracles|apply f_straight| |vm_compute; reflexivity|].
      + intros x v. cbn [dget]. destruct (word_eqb x (w "x")) eqn:E; [|intros D; discriminate D]. intros D. injection D as <-. eexists. split; [unfold cur; cbn [dget]; rewrite E; reflexivity|].
        exists (2, 3)%Q. split; [right; left; reflexivity|]. unfold Q2R; simpl; lra.
      + eapply run_assign; [reflexivity|]. eapply run_assign; [reflexivity|]. eapply run_assign; [reflexivity|]. apply run_nil.
  Qed.
End Example_handlers.
