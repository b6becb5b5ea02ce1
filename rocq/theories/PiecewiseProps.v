(** C58, C72: bounds of parsed sensor functions (verse/analysis/parsed_wrap). *)
From Coq Require Import Ascii String Reals Qreals Lra QArith.Qminmax.
From Verif Require Import Base BaseFacts PyText Dict ResetProofs Angle AngleProofs Piecewise PiecewiseSpec PiecewiseProofs PiecewiseMain.
Set Implicit Arguments.
Open Scope nat_scope.

(** Conditions are translated with Python's meaning, when no comparison is chained: wherever Python evaluates the
    condition without an exception, the z3 formula has the same truth value (whatever z3 assumes about x/0). *)
Theorem C58_condition_partial call s p d0 vars c b z :
  (forall x v, dget word_eqb x s = Some v -> p x = v) -> unchained c ->
  z3_cond vars c = Some z -> cond_is call s c b -> (zholds p d0 z <-> b = true).
Proof. intros A U Z C. eapply z3_cond_ok; eassumption. Qed.

(** Missing: chained comparisons.  [0 <= x <= 5] becomes [0 <= x and 0 <= 5]. *)
Theorem C58_chained_refuted : exists vars c z call s p d0,
  (forall x v, dget word_eqb x s = Some v -> p x = v) /\ z3_cond vars c = Some z /\ cond_is call s c false /\ zholds p d0 z.
Proof.
  exists [w "x"], (CCmp (EConst 0) [(LtE, EName (w "x")); (LtE, EConst 5)]).
  eexists. exists (fun _ _ => None), [(w "x", 7%R)], (fun _ => 7%R), (fun _ => 0%R). split; [|split; [vm_compute; reflexivity|split]].
  - intros x v. simpl. destruct (word_eqb x _); [congruence|discriminate].
  - eapply is_cmp with (v := Q2R 0); [reflexivity|discriminate|].
    eapply cmps_true with (u := 7%R); [discriminate|reflexivity| |].
    + unfold cmp, Q2R; simpl; lra.
    + eapply cmps_false with (u := Q2R 5); [discriminate|reflexivity|]. unfold cmp, Q2R; simpl; lra.
  - unfold Q2R; simpl. unfold Q2R; simpl. lra.
Qed.

(** The interval returned for a call [f(x1, ..., xn)] on variables with the names of [f]'s parameters contains the value
    of [f], for every choice of values inside the variables' intervals at which [f] returns through a piece. *)
Theorem C58_contains_partial opt call out f pieces default cur r vs v :
  piecewise f pieces default -> NoDup (params f) ->
  Forall2 (fun x u => exists b, dget word_eqb x cur = Some b /\ within u b) (params f) vs ->
  runs call (combine (params f) vs) (fbody f) (inr v) ->
  queries_sound opt f cur ->
  (forall e, (exists c, In (c, e) pieces) \/ default = Some e -> expr_sound call out e) ->
  handle_piecewise opt out f (params f) cur = Some r -> within v r.
Proof. apply handle_piecewise_ok. Qed.

(** And the analysis then gives an answer, if it can translate the conditions and bound the outputs. *)
Theorem C58_answers opt call out f pieces default cur bs vs v :
  piecewise f pieces default -> NoDup (params f) ->
  Forall2 (fun x u => exists b, dget word_eqb x cur = Some b /\ within u b) (params f) vs ->
  runs call (combine (params f) vs) (fbody f) (inr v) ->
  queries_sound opt f cur ->
  (forall e, (exists c, In (c, e) pieces) \/ default = Some e -> expr_sound call out e) ->
  parse_piecewise f = Some bs -> (forall e names d, out e names d <> None) ->
  exists r, handle_piecewise opt out f (params f) cur = Some r.
Proof. apply handle_piecewise_total. Qed.

(** ** Where it fails *)
Definition tests : expr -> list word -> bounds -> option (list (Q * Q)) :=
  fun e _ cur => match e with EConst q => Some [(q, q)] | EName x => dget word_eqb x cur | _ => None end.
Lemma tests_sound call e : expr_sound call tests e.
Proof.
  intros names cur l s v H St P. destruct e; try discriminate; simpl in *.
  - destruct (St _ _ P) as [l' [E W]]. congruence.
  - injection H as <-. injection P as <-. exists (q, q). split; [left; reflexivity|]. simpl. lra.
Qed.

(** The function [if x >= 0: return 1 / else: return 2]. *)
Definition step_fn (ps : list word) : func :=
  mkfunc (w "f") ps [SIf (CCmp (EName (w "x")) [(GtE, EConst 0)]) [SReturn (EConst 1)] [SReturn (EConst 2)]].
Lemma step_shape ps : piecewise (step_fn ps) [(CCmp (EName (w "x")) [(GtE, EConst 0)], EConst 1)] (Some (EConst 2)).
Proof.
  exists [], (SIf (CCmp (EName (w "x")) [(GtE, EConst 0)]) [SReturn (EConst 1)] [SReturn (EConst 2)]).
  split; [reflexivity|]. split; [constructor|]. split.
  - apply chain_else; exists [], []; split; try reflexivity; constructor.
  - constructor; [reflexivity|constructor].
Qed.

(** An optimiser for the point x = 1, y = -1. *)
Definition opt_point (up : bool) (cs : list zc) (x : word) : option Q :=
  match rev cs with
  | ZCmp _ _ _ :: _ => Some (if word_eqb x (w "x") then 1 else -1)%Q
  | _ => None
  end.

(** When the call names its arguments differently from the parameters, the wrong intervals are used: for
    [f(x, y)] above, called as [f(y, x)] where y = -1 and x = 1, the value is 2 and the answer [1, 1]. *)
Theorem C58_argument_names_refuted : exists opt call out f pieces default cur r args vs v,
  piecewise f pieces default /\ NoDup (params f) /\ NoDup args /\ length args = length (params f) /\
  Forall2 (fun x u => exists b, dget word_eqb x cur = Some b /\ within u b) args vs /\
  runs call (combine (params f) vs) (fbody f) (inr v) /\
  (forall bs bl comb c x, parse_piecewise f = Some bs -> mapM (fun x => dget word_eqb x cur) args = Some bl -> In comb (product bl) ->
    In c (branch_conditions [] bs) -> In x args -> opt_sound opt (box_constraints (zip_dict args comb) ++ [c]) x) /\
  (forall e, expr_sound call out e) /\
  handle_piecewise opt out f args cur = Some r /\ ~ within v r.
Proof.
  exists opt_point, (fun _ _ => None), tests, (step_fn [w "x"; w "y"]). eexists; eexists.
  exists [(w "x", [(1, 1)%Q]); (w "y", [((-1)%Q, (-1)%Q)])]. eexists. exists [w "y"; w "x"], [(-1)%R; 1%R], 2%R.
  split; [apply step_shape|].
  split; [repeat constructor; simpl; intuition discriminate|]. split; [repeat constructor; simpl; intuition discriminate|].
  split; [reflexivity|]. split; [|split; [|split; [|split; [|split]]]].
  - constructor; [|constructor; [|constructor]]; (eexists; split; [reflexivity|]; eexists; split; [left; reflexivity|]); unfold Q2R; simpl; lra.
  - eapply run_if_ret with (b := false).
    + eapply is_cmp with (v := (-1)%R); [reflexivity|discriminate|]. eapply cmps_false with (u := Q2R 0); [discriminate|reflexivity|]. unfold cmp, Q2R; simpl; lra.
    + replace 2%R with (Q2R 2) by (unfold Q2R; simpl; lra). apply run_return. reflexivity.
  - intros bs bl comb c x E1 E2 Hc Hb Hx. vm_compute in E1, E2. injection E1 as <-. injection E2 as <-.
    destruct Hc as [<-|[]]. simpl in Hb. destruct Hb as [<-|[<-|[]]]; intros p d0 H.
    + assert (H1 := H _ (or_introl eq_refl)). assert (H2 := H _ (or_intror (or_introl eq_refl))).
      assert (H3 := H _ (or_intror (or_intror (or_introl eq_refl)))). assert (H4 := H _ (or_intror (or_intror (or_intror (or_introl eq_refl))))). cbn [zholds cmp zval] in H1, H2, H3, H4.
      destruct Hx as [<-|[<-|[]]]; (eexists; eexists; split; [reflexivity|]; split; [reflexivity|]); simpl word_eqb; cbn [fst snd] in *; unfold Q2R in *; simpl in *; lra.
    + exfalso. assert (H3 := H _ (or_intror (or_intror (or_introl eq_refl)))). assert (H5 := H _ (or_intror (or_intror (or_intror (or_intror (or_introl eq_refl)))))).
      cbn [zholds cmp zval fst snd] in *. destruct H5 as [H5 _]. apply H5. unfold Q2R in *; simpl in *; lra.
  - intros e. apply tests_sound.
  - vm_compute. reflexivity.
  - intros [b [[<-|[]] H]]. unfold Q2R in H; simpl in H; lra.
Qed.

(** Statements before the [if] are skipped: [x = x - 5] changes the value but not the answer. *)
Theorem C58_assignment_refuted : exists opt call out f cur r vs v,
  NoDup (params f) /\ Forall2 (fun x u => exists b, dget word_eqb x cur = Some b /\ within u b) (params f) vs /\
  runs call (combine (params f) vs) (fbody f) (inr v) /\ queries_sound opt f cur /\ (forall e, expr_sound call out e) /\
  handle_piecewise opt out f (params f) cur = Some r /\ ~ within v r.
Proof.
  exists opt_point, (fun _ _ => None), tests,
    (mkfunc (w "f") [w "x"] (SAssign (w "x") (EBin Sub (EName (w "x")) (EConst 5)) :: fbody (step_fn [w "x"]))).
  exists [(w "x", [(1, 1)%Q])]. eexists. exists [1%R], 2%R.
  split; [repeat constructor; simpl; tauto|]. split; [|split; [|split; [|split; [|split]]]].
  - constructor; [|constructor]. eexists; split; [reflexivity|]; eexists; split; [left; reflexivity|]. unfold Q2R; simpl; lra.
  - eapply run_assign; [reflexivity|]. eapply run_if_ret with (b := false).
    + eapply is_cmp; [reflexivity|discriminate|]. eapply cmps_false with (u := Q2R 0); [discriminate|reflexivity|]. unfold cmp, Q2R; simpl; lra.
    + replace 2%R with (Q2R 2) by (unfold Q2R; simpl; lra). apply run_return. reflexivity.
  - intros bs bl comb c x E1 E2 Hc Hb Hx. vm_compute in E1, E2. injection E1 as <-. injection E2 as <-.
    destruct Hc as [<-|[]]. simpl in Hb, Hx. destruct Hx as [<-|[]]. destruct Hb as [<-|[<-|[]]]; intros p d0 H.
    + assert (H1 := H _ (or_introl eq_refl)). assert (H2 := H _ (or_intror (or_introl eq_refl))). cbn [zholds cmp zval fst snd] in H1, H2.
      eexists; eexists; split; [reflexivity|]; split; [reflexivity|]. simpl word_eqb. unfold Q2R in *; simpl in *; lra.
    + exfalso. assert (H1 := H _ (or_introl eq_refl)). assert (H5 := H _ (or_intror (or_intror (or_introl eq_refl)))).
      cbn [zholds cmp zval fst snd] in *. destruct H5 as [H5 _]. apply H5. unfold Q2R in *; simpl in *; lra.
  - intros e. apply tests_sound.
  - vm_compute. reflexivity.
  - intros [b [[<-|[]] H]]. unfold Q2R in H; simpl in H; lra.
Qed.

(** ** C72: a function analysed statement by statement *)
(** When every assigned expression is either free of special functions or just one call of a special function on
    variables, and the solver, CROWN and the interval functions are sound for the queries made, then the final
    bounds of every variable contain its value, for every input inside the input bounds. *)
Theorem C72_parse_partial call opt crown angular mapf aliases af mf pws f cur cur' s s' :
  body_ok call opt crown angular mapf aliases af mf pws (fbody f) cur ->
  state_in s cur ->
  parse_function opt crown angular mapf aliases af mf pws f cur = Some cur' ->
  runs call s (before_return (fbody f)) (inl s') ->
  state_in s' cur'.
Proof. intros B St P R. eapply parse_body_sound; eassumption. Qed.

Definition named (f : word) : bool := word_eqb f (w "atan2") || word_eqb f (w "angular_span_rect_parser").
Definition atan2_call (f : word) (vs : list R) : option R := if named f then match vs with [y; x] => Some (arctan2 y x) | _ => None end else None.
Definition wide (f : word) (args : list word) (cur : bounds) : option (list (Q * Q)) := Some [((-4)%Q, 4%Q)].
Lemma wide_sound f : fun_sound atan2_call wide f.
Proof.
  intros args cur l vs v [= <-] _ C. exists ((-4)%Q, 4%Q). split; [left; reflexivity|].
  unfold atan2_call in C. destruct (named f); [|discriminate]. destruct vs as [|y [|x [|? ?]]]; try discriminate. injection C as <-.
  assert (R := atan2_range x y). assert (P := PI_4). unfold Q2R; simpl. lra.
Qed.

(** Missing: a special function inside a larger expression.  [a = 9 + atan2(y, x)] gets the bounds of
    [atan2(y, x)]. *)
Theorem C72_mixed_refuted : exists call opt crown angular mapf pws f cur cur' s s',
  (forall e, expr_sound call crown e) /\ (forall g, fun_sound call angular g) /\ (forall g, fun_sound call mapf g) /\
  state_in s cur /\
  parse_function opt crown angular mapf ALIASES ANGULAR_FUNCTIONS MAP_FUNCTIONS pws f cur = Some cur' /\
  runs call s (before_return (fbody f)) (inl s') /\ ~ state_in s' cur'.
Proof.
  exists atan2_call, opt_point, tests, wide, wide, [].
  exists (mkfunc (w "f") [w "x"; w "y"] [SAssign (w "a") (EBin Add (EConst 9) (ECall (w "atan2") [EName (w "y"); EName (w "x")]))]).
  exists [(w "x", [(0, 1)%Q]); (w "y", [(0, 1)%Q])]. eexists. exists [(w "x", 1%R); (w "y", 0%R)]. eexists.
  split; [intros e; apply tests_sound|]. split; [intros g; apply wide_sound|]. split; [intros g; apply wide_sound|]. split; [|split; [|split]].
  - intros x v. cbn [dget]. destruct (word_eqb x (w "x")) eqn:E.
    + intros H. injection H as H. subst v. eexists. split; [reflexivity|]. exists (0, 1)%Q. split; [left; reflexivity|]. unfold Q2R; simpl; lra.
    + destruct (word_eqb x (w "y")) eqn:E2; [|discriminate]. intros H. injection H as H. subst v. eexists. split; [reflexivity|]. exists (0, 1)%Q. split; [left; reflexivity|]. unfold Q2R; simpl; lra.
  - vm_compute. reflexivity.
  - eapply run_assign; [simpl; reflexivity|]. apply run_nil.
  - intros St. destruct (St (w "a") (Q2R 9 + arctan2 0 1)%R eq_refl) as [l [E [b [Hb B]]]]. vm_compute in E. injection E as <-. destruct Hb as [<-|[]].
    assert (R := atan2_range 1 0). assert (P := PI_4). simpl in B. assert (N : Q2R 9 = 9%R) by (unfold Q2R; simpl; lra). rewrite N in B. unfold Q2R in B; simpl in B. lra.
Qed.

Print Assumptions C58_condition_partial.
Print Assumptions C58_chained_refuted.
Print Assumptions C58_contains_partial.
Print Assumptions C58_answers.
Print Assumptions C58_argument_names_refuted.
Print Assumptions C58_assignment_refuted.
Print Assumptions C72_parse_partial.
Print Assumptions C72_mixed_refuted.

Module Example_piecewise.
  (** def sense(x): "doc"; if x >= 0 and x <= 1: return x; elif x < 0: return 3; else: return 2 *)
  Definition x : word := w "x".
  Definition c1 := CAnd [CCmp (EName x) [(GtE, EConst 0)]; CCmp (EName x) [(LtE, EConst 1)]].
  Definition c2 := CCmp (EName x) [(Lt, EConst 0)].
  Definition st := SIf c1 [SReturn (EName x)] [SIf c2 [SReturn (EConst 3)] [SDoc; SReturn (EConst 2)]].
  Definition g : func := mkfunc (w "sense") [x] [SDoc; st].
  Lemma shape : piecewise g [(c1, EName x); (c2, EConst 3)] (Some (EConst 2)).
  Proof.
    exists [SDoc], st. split; [reflexivity|]. split; [repeat constructor|]. split.
    - apply chain_elif; [exists [], []; split; [reflexivity|constructor]|]. apply chain_else; [exists [], []; split; [reflexivity|constructor]|].
      exists [SDoc], []. split; [reflexivity|repeat constructor].
    - repeat constructor; simpl; auto.
  Qed.
  (** Exact answers for x in [1/2, 2]: the second piece is not reachable. *)
  Definition opt (up : bool) (cs : list zc) (_ : word) : option Q :=
    match rev cs with
    | ZCmp _ _ _ :: _ => None
    | ZAnd [ZCmp _ _ _; _] :: _ => Some (if up then 1 else 1 # 2)%Q
    | _ => Some (if up then 2 else 1)%Q
    end.
  Definition cur : bounds := [(x, [(1 # 2, 2)%Q])].
  Lemma queries : queries_sound opt g cur.
  Proof.
    intros bs bl comb c y E1 E2 Hc Hb Hy. vm_compute in E1, E2. injection E1 as <-. injection E2 as <-.
    destruct Hc as [<-|[]]. destruct Hy as [<-|[]]. simpl in Hb. destruct Hb as [<-|[<-|[<-|[]]]]; intros p d0 H;
      assert (H1 := H _ (or_introl eq_refl)); assert (H2 := H _ (or_intror (or_introl eq_refl))); assert (H3 := H _ (or_intror (or_intror (or_introl eq_refl))));
      cbn [zholds cmp zval fst snd] in H1, H2, H3; change (fst (x, (1 # 2, 2)%Q)) with x in *; change [Ascii.Ascii false false false true true true true false] with x in *; unfold Q2R in H1, H2, H3; simpl in H1, H2, H3.
    - eexists; eexists; split; [reflexivity|]; split; [reflexivity|]. unfold Q2R; simpl. lra.
    - exfalso. lra.
    - eexists; eexists; split; [reflexivity|]; split; [reflexivity|]. unfold Q2R; simpl. split; [|lra].
      destruct (Rle_dec 1 (p x)) as [K|K]; [lra|]. exfalso. apply (proj1 H3). lra.
  Qed.
  (** All hypotheses of C58_contains_partial hold at x = 3/2, where it returns 2; the answer is [1/2, 2]. *)
  Example applies : exists r, handle_piecewise opt tests g (params g) cur = Some r /\ r = [(1 # 2, 2)%Q] /\ within 2%R r.
  Proof.
    eexists. split; [vm_compute; reflexivity|]. split; [reflexivity|].
    eapply (@C58_contains_partial opt (fun _ _ => None) tests g _ _ cur _ [(3 / 2)%R] 2%R shape).
    - repeat constructor; simpl; tauto.
    - constructor; [|constructor]. eexists; split; [reflexivity|]; eexists; split; [left; reflexivity|]. unfold Q2R; simpl; lra.
    - apply run_doc. eapply run_if_ret with (b := false).
      + apply is_and. eapply all_true; [|eapply all_false].
        * eapply is_cmp; [reflexivity|discriminate|]. eapply cmps_true with (u := Q2R 0); [discriminate|reflexivity| |constructor]. unfold cmp, Q2R; simpl; lra.
        * eapply is_cmp; [reflexivity|discriminate|]. eapply cmps_false with (u := Q2R 1); [discriminate|reflexivity|]. unfold cmp, Q2R; simpl; lra.
      + eapply run_if_ret with (b := false).
        * eapply is_cmp; [reflexivity|discriminate|]. eapply cmps_false with (u := Q2R 0); [discriminate|reflexivity|]. unfold cmp, Q2R; simpl; lra.
        * apply run_doc. replace 2%R with (Q2R 2) by (unfold Q2R; simpl; lra). apply run_return. reflexivity.
    - apply queries.
    - intros e _. apply tests_sound.
    - vm_compute. reflexivity.
  Qed.

  (** def sensor(x): y = sense(x); a = atan2(y, x); b = a; return b *)
  Definition sensor : func := mkfunc (w "sensor") [x]
    [SAssign (w "y") (ECall (w "sense") [EName x]); SAssign (w "a") (ECall (w "atan2") [EName (w "y"); EName x]); SAssign (w "b") (EName (w "a")); SReturn (EName (w "b"))].
  Example sensor_bounds : parse_function opt tests wide wide ALIASES ANGULAR_FUNCTIONS MAP_FUNCTIONS [g] sensor cur =
    Some [(x, [(1 # 2, 2)%Q]); (w "y", [(1 # 2, 2)%Q]); (w "a", [((-4)%Q, 4%Q)]); (w "b", [((-4)%Q, 4%Q)])].
  Proof. vm_compute. reflexivity. Qed.

  (** The hypothesis of C72_parse_partial on its first two kinds of statement. *)
  Definition sensor2 : func := mkfunc (w "sensor") [x]
    [SAssign (w "a") (ECall (w "atan2") [EName x; EName x]); SAssign (w "b") (EName (w "a")); SReturn (EName (w "b"))].
  Example sensor2_ok : body_ok atan2_call opt tests wide wide ALIASES ANGULAR_FUNCTIONS MAP_FUNCTIONS [g] (fbody sensor2) cur.
  Proof.
    apply ok_assign.
    - eapply rhs_call with (g := w "angular_span_rect_parser") (xs := [x; x]).
      + vm_compute. reflexivity.
      + intros s. reflexivity.
      + intros y [<-|[<-|[]]]; left; reflexivity.
      + intros h Hh. simpl in Hh. intros M. destruct Hh as [<-|[<-|[<-|[<-|[<-|[]]]]]]; try reflexivity; vm_compute in M; discriminate.
      + left. split; [left; reflexivity|apply wide_sound].
    - intros b _. apply ok_assign; [|intros b' _; apply ok_return].
      eapply rhs_plain; [reflexivity| | |apply tests_sound].
      + intros s. vm_compute. reflexivity.
      + intros h Hh. simpl in Hh. destruct Hh as [<-|[<-|[<-|[<-|[<-|[]]]]]]; vm_compute; reflexivity.
  Qed.
End Example_piecewise.
