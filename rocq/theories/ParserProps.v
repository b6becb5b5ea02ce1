(** The decision-logic parser against running the decision logic (C05-C09).

    [run] (PySem.v) runs the module and then the controller on argument values [vs]; [bindv ps vs iv] gives the placeholders
    of the extracted paths and assertions the values of the arguments.  [tidy_program] (ParserSpec.v) lists what a program
    must respect for the parser to be right; the refuted theorems show what happens otherwise. *)
From Coq Require Import Ascii String ZArith.
From Verif Require Import Base BaseFacts Dict PyText Parser PySem ParserSpec ParserProofs ParserMain ParserToy ParserToyFacts.
Set Implicit Arguments.
Open Scope nat_scope.

Section Props.
  Variable V : Type.
  Variable truth : V -> bool.
  Variable v_bool : bool -> V.
  Variable v_const : word -> V.
  Variable v_attr : V -> word -> option V.
  Variable v_un : word -> V -> option V.
  Variable v_bin : word -> V -> V -> option V.
  Variable v_cmp : word -> V -> V -> option V.
  Variable v_call : V -> list V -> option V.
  Variable v_items : V -> option (list V).
  Variable modes : list word.
  Variable fields_of : word -> option (list word).
  Hypothesis truth_bool : forall b, truth (v_bool b) = b.
  Notation value_in := (value_in truth v_bool v_const v_attr v_un v_bin v_cmp v_call v_items).
  Notation holds_in := (holds_in truth v_bool v_const v_attr v_un v_bin v_cmp v_call v_items).
  Notation tidy_program := (tidy_program truth v_bool v_const v_attr v_un v_bin v_cmp v_call v_items modes fields_of).
  Notation parse := (parse modes fields_of).
  Notation run := (run truth v_bool v_const v_attr v_un v_bin v_cmp v_call v_items fields_of).
  Notation run_s := (run_s truth v_bool v_const v_attr v_un v_bin v_cmp v_call v_items fields_of).
  Notation covered := (covered truth v_bool v_const v_attr v_un v_bin v_cmp v_call v_items).
  Notation broken := (broken truth v_bool v_const v_attr v_un v_bin v_cmp v_call v_items).
  Notation tidy_s := (tidy_s truth v_bool v_const v_attr v_un v_bin v_cmp v_call v_items modes fields_of).

  (** C05: every value that the controller gives to an attribute of its output is the value of a path whose condition
      holds, or the attribute is that of the argument.  Missing: programs that are not tidy, and assignments to attributes
      of the output outside of ifs (both refuted below). *)
  Theorem C05_no_behaviour_lost_partial iv imports pre ps vs rest out y paths asserts st o a v :
    tidy_program iv imports pre ps vs (SCopy out y :: rest ++ [SReturn (EName out)]) -> all_of no_return rest -> all_of (only_in_ifs out) rest ->
    parse imports pre ps (SCopy out y :: rest ++ [SReturn (EName out)]) = Some (paths, asserts) ->
    run iv pre ps vs (SCopy out y :: rest ++ [SReturn (EName out)]) = Some (st, Some (PO o)) -> o a = Some v ->
    covered (bindv ps vs iv) y paths a v.
  Proof. now apply paths_complete. Qed.

  (** C06: when the condition of a path holds, the controller assigns the value of the path to that attribute. *)
  Theorem C06_path_is_executed_partial iv imports pre ps vs b out paths asserts st ret p v :
    tidy_program iv imports pre ps vs (b ++ [SReturn (EName out)]) -> all_of no_return b ->
    parse imports pre ps (b ++ [SReturn (EName out)]) = Some (paths, asserts) ->
    run iv pre ps vs (b ++ [SReturn (EName out)]) = Some (st, ret) ->
    In p paths -> holds_in (bindv ps vs iv) (pp_cond p) -> value_in (bindv ps vs iv) (pp_val p) = Some v -> In (out, Some (pp_var p), v) (p_log st).
  Proof. now apply paths_sound. Qed.

  (** C07: an extracted assertion is violated only if the run fails an assertion with that label, and if the run fails an
      assertion then the extracted assertion with the label of the first one that fails is violated. *)
  Theorem C07_violated_fails_partial iv imports pre ps vs b out paths asserts st ret x :
    tidy_program iv imports pre ps vs (b ++ [SReturn (EName out)]) -> all_of no_return b ->
    parse imports pre ps (b ++ [SReturn (EName out)]) = Some (paths, asserts) ->
    run iv pre ps vs (b ++ [SReturn (EName out)]) = Some (st, ret) ->
    In x asserts -> broken (bindv ps vs iv) x -> In (xa_label x) (p_failed st).
  Proof. now apply asserts_sound. Qed.
  Theorem C07_failed_is_violated_partial iv imports pre ps vs b out paths asserts st ret l more :
    truth (v_const (w "True")) = true ->
    tidy_program iv imports pre ps vs (b ++ [SReturn (EName out)]) -> all_of no_return b ->
    parse imports pre ps (b ++ [SReturn (EName out)]) = Some (paths, asserts) ->
    run iv pre ps vs (b ++ [SReturn (EName out)]) = Some (st, ret) ->
    p_failed st = l :: more -> exists x, In x asserts /\ broken (bindv ps vs iv) x /\ xa_label x = l.
  Proof. now apply asserts_complete. Qed.

  (** C08: the expression that stands for a helper function has the value the function returns.  [tidy_s] asks for the
      return to be the last statement and the only one. *)
  Theorem C08_helper_value_partial iv imports f ps body E A e st d vs v :
    imports_ok v_const v_attr modes iv imports -> tidy_s iv (holes imports [], []) (SDef f ps body) ->
    proc_s modes fields_of (holes imports [], []) (SDef f ps body) = Some (E, A) -> get f E = Some (SL ps e) ->
    run_s (mk_pst (fun x => option_map (@PV V) (iv x)) [] []) (SDef f ps body) = Some (st, None) -> p_store st f = Some (PF d) ->
    d vs = Some v -> value_in (bindv ps vs iv) e = Some v.
  Proof. now apply helper_value. Qed.

  (** C09: a comparison chain is parsed to an expression with the value that Python gives to the chain, including which
      operands are evaluated; *)
  Theorem C09_chain E l rest l' rest' e r :
    proc_e modes E (ECmp l rest) = Some e -> proc_e modes E l = Some l' ->
    mapM (fun p => match p with (o, x) => do x' <- proc_e modes E x; Some (o, x') end) rest = Some rest' ->
    value_in r e = value_in r (ECmp l' rest').
  Proof.
    intros He Hl Hr. cbn [proc_e] in He. rewrite omap_mapM, Hr in He. cbn [obind] in He. rewrite Hl in He. cbn [obind] in He.
    assert (Hne : rest' <> []) by (intros ->; discriminate He).
    change (value_in r (ECmp l' rest')) with (do lv <- value_in r l'; chain truth v_cmp (value_in r) lv rest').
    rewrite (chain_comparisons truth v_bool v_const v_attr v_un v_bin v_cmp v_call v_items r l' Hne).
    destruct (comparisons l' rest') as [|c [|c2 cs]]; [discriminate| |]; injection He as <-; reflexivity.
  Qed.
  (** ... a filtered any or all to one with the value of the filtered any or all, provided that the element and the filter
      can be evaluated for each item. *)
  Theorem C09_filter E ex elt x iter ifs b i e r :
    proc_e modes E (EGen ex elt x iter ifs) = Some e ->
    proc_e modes (set x (SV (CE (EHole x))) E) elt = Some b -> proc_e modes (set x (SV (CE (EHole x))) E) iter = Some i ->
    (forall l items u, value_in r i = Some l -> v_items l = Some items -> In u items ->
       (exists v, value_in (upd r x u) b = Some v) /\ (exists v, value_in (upd r x u) (EBool true ifs) = Some v)) ->
    value_in r e = value_in r (EGen ex b x i ifs).
  Proof.
    intros He Hb Hi Hev. cbn [proc_e] in He. destruct (bound x E); [discriminate|]. rewrite Hb in He. cbn [obind] in He. rewrite Hi in He. injection He as <-.
    destruct ifs as [|f ifs].
    - rewrite (red_value truth v_bool v_const v_attr v_un v_bin v_cmp v_call v_items truth_bool), (gen_value truth v_bool v_const v_attr v_un v_bin v_cmp v_call v_items). reflexivity.
    - apply filter_value; [exact truth_bool|discriminate|exact Hev].
  Qed.
End Props.
Print Assumptions C05_no_behaviour_lost_partial.
Print Assumptions C06_path_is_executed_partial.
Print Assumptions C07_violated_fails_partial.
Print Assumptions C07_failed_is_violated_partial.
Print Assumptions C08_helper_value_partial.
Print Assumptions C09_chain.
Print Assumptions C09_filter.

(** A tidy program:
<<
limit = 2
def far(a, b):
    return b < a
def controller(ego, others):
    out = copy.deepcopy(ego)
    if ego.mode == Mode.A:
        if far(ego.x, limit):
            out.mode = Mode.B
        assert 0 < ego.x < 3, "range"
    if all(0 < o.x for o in others if o.mode == Mode.A):
        out.mode = Mode.A
    return out
>> *)
Module Example_tidy.
  Definition pre : list stmt := [SAssign (w "limit") (num "2"); SDef (w "far") [w "a"; w "b"] [SReturn (lt (EName (w "b")) (EName (w "a")))]].
  Definition params := [w "ego"; w "others"].
  Definition rest : list stmt :=
    [SIf (eq_ (att "ego" "mode") (att "Mode" "A"))
       [SIf (ECall (EName (w "far")) [att "ego" "x"; EName (w "limit")]) [SSetAttr (w "out") (w "mode") (att "Mode" "B")] [];
        SAssert (ECmp (num "0") [(w "<", att "ego" "x"); (w "<", num "3")]) (Some (w "range"))] [];
     SIf (EGen false (lt (num "0") (att "o" "x")) (w "o") (EName (w "others")) [eq_ (att "o" "mode") (att "Mode" "A")])
       [SSetAttr (w "out") (w "mode") (att "Mode" "A")] []].
  Definition body := SCopy (w "out") (w "ego") :: rest ++ [SReturn (EName (w "out"))].
  (** ego is far off, and of the two others one is not in mode A. *)
  Definition args := [car 3 "A"; TL [car (-1) "A"; car (-2) "B"]].

  Definition paths : list ppath := match t_parse [w "Mode"] pre params body with Some (ps, _) => ps | None => [] end.
  Definition asserts : list xassert := match t_parse [w "Mode"] pre params body with Some (_, xs) => xs | None => [] end.
  Example parses : t_parse [w "Mode"] pre params body = Some (paths, asserts) /\ length paths = 2 /\ length asserts = 1.
  Proof. vm_compute. auto. Qed.

  Definition tidy : t_tidy t_imports [w "Mode"] pre params args body.
  Proof.
    split; [|split; [|split; [|split]]].
    - split.
      + intros x. unfold t_imports. destruct (word_eqb x (w "Mode")) eqn:E; [apply ScanProofs.word_eqb_iff in E; subst; intros _; now left|congruence].
      + intros x [<-|[]]. split; [now left|]. intros v a u [= <-]. intros H.
        apply (dget_In _ ScanProofs.word_eqb_iff) in H. destruct H as [[= <- <-]|[[= <- <-]|[]]]; reflexivity.
    - repeat split.
    - repeat constructor; cbn; intuition discriminate.
    - split; [split; [cbn; intuition discriminate|exact I]|]. intros st1 E1. vm_compute in E1. injection E1 as <-.
      split; [|intros; exact I]. split; [cbn; intuition discriminate|]. split; [repeat constructor; cbn; intuition discriminate|].
      split; [exists [], (lt (EName (w "b")) (EName (w "a"))); split; [reflexivity|exact I]|]. intros vs _. split; [repeat split|].
      intros st2 e E2 [= <-]. vm_compute in E2. injection E2 as <-. repeat split.
    - intros g Eg. vm_compute in Eg. injection Eg as <-.
      split; [cbn; intuition discriminate|]. intros st1 E1. vm_compute in E1. injection E1 as <-.
      split.
      { split; [repeat split|]. split.
        - split.
          + split.
            * split; [repeat split|]. intros args' Ea. vm_compute in Ea. injection Ea as <-. split; [reflexivity|]. split; [repeat constructor; cbn; intuition discriminate|].
              split; [intros y []|intros x []].
            * split; [split; [split; [cbn; intuition discriminate|exact I]|intros; exact I]|]. split; [exact I|]. intros T F ET EF. vm_compute in ET, EF. injection ET as <-. injection EF as <-.
              apply differ_b_ok. reflexivity.
          + intros st2 E2. vm_compute in E2. injection E2 as <-. split; [repeat split|]. intros; exact I.
        - split; [exact I|]. intros T F ET EF. vm_compute in ET, EF. injection ET as <-. injection EF as <-. apply differ_b_ok. reflexivity. }
      intros st2 E2. vm_compute in E2. injection E2 as <-. split.
      { split.
        - split; [intros; repeat split|]. split; [exact I|]. split; [cbn; intuition discriminate|]. intros _. split.
          + intros u b (i & l & items & Ei & El & Eit & Hin) Eb. vm_compute in Ei, Eb. injection Ei as <-. injection Eb as <-. vm_compute in El. injection El as <-. vm_compute in Eit. injection Eit as <-.
            destruct Hin as [<-|[<-|[]]]; eexists; vm_compute; reflexivity.
          + intros y Hy. cbn in Hy. destruct Hy as [<-|[<-|[]]]; [now left|right; reflexivity].
        - split; [split; [split; [cbn; intuition discriminate|exact I]|intros; exact I]|]. split; [exact I|]. intros T F ET EF. vm_compute in ET, EF. injection ET as <-. injection EF as <-.
          apply differ_b_ok. reflexivity. }
      intros st3 E3. vm_compute in E3. injection E3 as <-. split; [exact I|]. intros; exact I.
  Defined.
  Definition final := match t_run t_imports pre params args body with Some (st, _) => st | None => mk_pst (fun _ => None) [] [] end.
  Definition output := match t_run t_imports pre params args body with Some (_, Some (PO o)) => o | _ => fun _ => None end.
  Example runs_ : t_run t_imports pre params args body = Some (final, Some (PO output)) /\ output (w "mode") = Some (TS (w "B")).
  Proof. split; reflexivity. Qed.

  (** The new mode of ego comes from a path; the run fails the assertion, and so does the extracted one. *)
  Example ex_C05 : t_covered (bindv params args t_imports) (w "ego") paths (w "mode") (TS (w "B")).
  Proof.
    eapply C05_no_behaviour_lost_partial.
    - exact t_truth_bool.
    - exact tidy.
    - repeat split.
    - repeat split; cbn; try discriminate.
    - apply parses.
    - apply runs_.
    - apply runs_.
  Qed.
  Example ex_C06 : exists p, In p paths /\ t_holds (bindv params args t_imports) (pp_cond p) /\ t_value (bindv params args t_imports) (pp_val p) = Some (TS (w "B"))
    /\ In (w "out", Some (w "mode"), TS (w "B")) (p_log final).
  Proof.
    exists (nth 1 paths (mk_ppath (num "0") [] (num "0"))).
    assert (H1 : In (nth 1 paths (mk_ppath (num "0") [] (num "0"))) paths) by (apply nth_In; vm_compute; auto).
    assert (H2 : t_holds (bindv params args t_imports) (pp_cond (nth 1 paths (mk_ppath (num "0") [] (num "0"))))) by (eexists; vm_compute; split; reflexivity).
    assert (H3 : t_value (bindv params args t_imports) (pp_val (nth 1 paths (mk_ppath (num "0") [] (num "0")))) = Some (TS (w "B"))) by (vm_compute; reflexivity).
    split; [exact H1|]. split; [exact H2|]. split; [exact H3|].
    eapply (C06_path_is_executed_partial t_truth_bool) with (b := SCopy (w "out") (w "ego") :: rest) (p := nth 1 paths (mk_ppath (num "0") [] (num "0"))).
    - exact tidy.
    - repeat split.
    - apply parses.
    - apply runs_.
    - exact H1.
    - exact H2.
    - exact H3.
  Qed.
  Example ex_C07 : p_failed final = [Some (w "range")] /\ exists x, In x asserts /\ t_broken (bindv params args t_imports) x /\ xa_label x = Some (w "range").
  Proof.
    split; [reflexivity|].
    eapply (C07_failed_is_violated_partial t_truth_bool) with (b := SCopy (w "out") (w "ego") :: rest).
    - reflexivity.
    - exact tidy.
    - repeat split.
    - apply parses.
    - apply runs_.
    - reflexivity.
  Qed.
End Example_tidy.

(** C05 is false for a program that assigns the same value in both branches ... *)
Definition C05_claim : Prop := forall imports iv pre ps vs rest out y paths asserts st o a v,
  t_parse imports pre ps (SCopy out y :: rest ++ [SReturn (EName out)]) = Some (paths, asserts) ->
  t_run iv pre ps vs (SCopy out y :: rest ++ [SReturn (EName out)]) = Some (st, Some (PO o)) -> o a = Some v ->
  t_covered (bindv ps vs iv) y paths a v.

Theorem C05_same_value_in_both_branches_refuted : ~ C05_claim.
Proof.
  intros H.
  specialize (H [w "Mode"] t_imports [] [w "ego"] [car 1 "A"]
    [SIf (lt (num "0") (att "ego" "x")) [SSetAttr (w "out") (w "mode") (att "Mode" "B")] [SSetAttr (w "out") (w "mode") (att "Mode" "B")]] (w "out") (w "ego")).
  edestruct H as [(p & Hp & _)|(u & Hu & Ha)]; [vm_compute; reflexivity|vm_compute; reflexivity| | |].
  - instantiate (1 := TS (w "B")). instantiate (1 := w "mode"). reflexivity.
  - destruct Hp.
  - vm_compute in Hu. injection Hu as <-. vm_compute in Ha. discriminate.
Qed.
(** ... or assigns a value outside of ifs. *)
Theorem C05_unconditional_assignment_refuted : ~ C05_claim.
Proof.
  intros H.
  specialize (H [w "Mode"] t_imports [] [w "ego"] [car 1 "A"] [SSetAttr (w "out") (w "mode") (att "Mode" "B")] (w "out") (w "ego")).
  edestruct H as [(p & Hp & _)|(u & Hu & Ha)]; [vm_compute; reflexivity|vm_compute; reflexivity| | |].
  - instantiate (1 := TS (w "B")). instantiate (1 := w "mode"). reflexivity.
  - destruct Hp.
  - vm_compute in Hu. injection Hu as <-. vm_compute in Ha. discriminate.
Qed.

(** C06 and C07 are false when both branches assign the same value to a local variable: the old value is used afterwards.
<<
    n = 1
    if 0 < ego.x: n = 2
    else: n = 2
    if n == 1: out.mode = Mode.B
    assert n == 2, "two"
>> *)
Definition stale : list stmt :=
  [SAssign (w "n") (num "1");
   SIf (lt (num "0") (att "ego" "x")) [SAssign (w "n") (num "2")] [SAssign (w "n") (num "2")];
   SIf (eq_ (EName (w "n")) (num "1")) [SSetAttr (w "out") (w "mode") (att "Mode" "B")] [];
   SAssert (eq_ (EName (w "n")) (num "2")) (Some (w "two"))].
Theorem C06_refuted : ~ (forall imports iv pre ps vs b out paths asserts st ret p v, all_of no_return b ->
  t_parse imports pre ps (b ++ [SReturn (EName out)]) = Some (paths, asserts) -> t_run iv pre ps vs (b ++ [SReturn (EName out)]) = Some (st, ret) ->
  In p paths -> t_holds (bindv ps vs iv) (pp_cond p) -> t_value (bindv ps vs iv) (pp_val p) = Some v -> In (out, Some (pp_var p), v) (p_log st)).
Proof.
  intros H. specialize (H [w "Mode"] t_imports [] [w "ego"] [car 1 "A"] (SCopy (w "out") (w "ego") :: stale) (w "out")).
  assert (EP : exists paths asserts p, t_parse [w "Mode"] [] [w "ego"] ((SCopy (w "out") (w "ego") :: stale) ++ [SReturn (EName (w "out"))]) = Some (paths, asserts) /\ In p paths
    /\ t_holds (bindv [w "ego"] [car 1 "A"] t_imports) (pp_cond p) /\ t_value (bindv [w "ego"] [car 1 "A"] t_imports) (pp_val p) = Some (TS (w "B")) /\ pp_var p = w "mode").
  { do 3 eexists. split; [vm_compute; reflexivity|]. split; [left; reflexivity|]. split; [eexists; vm_compute; split; reflexivity|]. split; vm_compute; reflexivity. }
  assert (ER : exists st ret, t_run t_imports [] [w "ego"] [car 1 "A"] ((SCopy (w "out") (w "ego") :: stale) ++ [SReturn (EName (w "out"))]) = Some (st, ret)
    /\ ~ In (w "out", Some (w "mode"), TS (w "B")) (p_log st)).
  { do 2 eexists. split; [vm_compute; reflexivity|]. cbn. intuition discriminate. }
  destruct EP as (paths & asserts & p & EP & Hp & Hc & Hv & Ha), ER as (st & ret & ER & Hn). apply Hn. rewrite <- Ha. eapply H; eauto. repeat split.
Qed.
Theorem C07_refuted : ~ (forall imports iv pre ps vs b out paths asserts st ret x, all_of no_return b ->
  t_parse imports pre ps (b ++ [SReturn (EName out)]) = Some (paths, asserts) -> t_run iv pre ps vs (b ++ [SReturn (EName out)]) = Some (st, ret) ->
  In x asserts -> t_broken (bindv ps vs iv) x -> In (xa_label x) (p_failed st)).
Proof.
  intros H. specialize (H [w "Mode"] t_imports [] [w "ego"] [car 1 "A"] (SCopy (w "out") (w "ego") :: stale) (w "out")).
  assert (EP : exists paths asserts x, t_parse [w "Mode"] [] [w "ego"] ((SCopy (w "out") (w "ego") :: stale) ++ [SReturn (EName (w "out"))]) = Some (paths, asserts) /\ In x asserts
    /\ t_broken (bindv [w "ego"] [car 1 "A"] t_imports) x).
  { do 3 eexists. split; [vm_compute; reflexivity|]. split; [left; reflexivity|]. split; eexists; vm_compute; split; reflexivity. }
  assert (ER : exists st ret, t_run t_imports [] [w "ego"] [car 1 "A"] ((SCopy (w "out") (w "ego") :: stale) ++ [SReturn (EName (w "out"))]) = Some (st, ret) /\ p_failed st = []).
  { do 2 eexists. split; vm_compute; reflexivity. }
  destruct EP as (paths & asserts & x & EP & Hx & Hb), ER as (st & ret & ER & Hn). assert (K : In (xa_label x) (p_failed st)) by (eapply H; eauto; repeat split). rewrite Hn in K. exact K.
Qed.

(** C08 is false of a function that returns early: the value is that of the last return.
<<
def f(a):
    if 0 < a:
        return 1
    return 2
>> *)
Theorem C08_early_return_refuted : ~ (forall iv imports f ps body E A e st d vs v,
  imports_ok t_const t_attr t_modes iv imports ->
  proc_s t_modes t_fields (holes imports [], []) (SDef f ps body) = Some (E, A) -> get f E = Some (SL ps e) ->
  run_s t_truth t_bool t_const t_attr t_un t_bin t_cmp t_call t_items t_fields (mk_pst (fun x => option_map (@PV tval) (iv x)) [] []) (SDef f ps body) = Some (st, None) -> p_store st f = Some (PF d) ->
  d vs = Some v -> t_value (bindv ps vs iv) e = Some v).
Proof.
  intros H. specialize (H t_imports [w "Mode"] (w "f") [w "a"] [SIf (lt (num "0") (EName (w "a"))) [SReturn (num "1")] []; SReturn (num "2")]).
  assert (HI : imports_ok t_const t_attr t_modes t_imports [w "Mode"]) by apply Example_tidy.tidy.
  set (f := SDef (w "f") [w "a"] [SIf (lt (num "0") (EName (w "a"))) [SReturn (num "1")] []; SReturn (num "2")]) in *.
  assert (EP : exists E A e, proc_s t_modes t_fields (holes [w "Mode"] [], []) f = Some (E, A) /\ get (w "f") E = Some (SL [w "a"] e) /\ t_value (bindv [w "a"] [TN 3] t_imports) e = Some (TN 2)).
  { do 3 eexists. split; [vm_compute; reflexivity|]. split; vm_compute; reflexivity. }
  assert (ER : exists st d, run_s t_truth t_bool t_const t_attr t_un t_bin t_cmp t_call t_items t_fields (mk_pst (fun x => option_map (@PV tval) (t_imports x)) [] []) f = Some (st, None)
    /\ p_store st (w "f") = Some (PF d) /\ d [TN 3] = Some (TN 1)).
  { do 2 eexists. split; [reflexivity|]. split; [reflexivity|]. vm_compute. reflexivity. }
  destruct EP as (E & A & e & E1 & E2 & E3), ER as (st & d & R1 & R2 & R3). rewrite (H E A e st d _ _ HI E1 E2 R1 R2 R3) in E3. discriminate.
Qed.

(** C08 where it applies: a function with a local variable and an if before its return. *)
Definition succ_def := SDef (w "f") [w "a"] [SAssign (w "n") (EBin (w "+") (EName (w "a")) (num "1")); SReturn (EName (w "n"))].
Example ex_C08 : exists E A e st d, proc_s t_modes t_fields (holes [w "Mode"] [], []) succ_def = Some (E, A) /\ get (w "f") E = Some (SL [w "a"] e)
  /\ run_s t_truth t_bool t_const t_attr t_un t_bin t_cmp t_call t_items t_fields (mk_pst (fun x => option_map (@PV tval) (t_imports x)) [] []) succ_def = Some (st, None)
  /\ p_store st (w "f") = Some (PF d) /\ d [TN 2] = Some (TN 3) /\ t_value (bindv [w "a"] [TN 2] t_imports) e = Some (TN 3).
Proof.
  assert (EP : exists E A e, proc_s t_modes t_fields (holes [w "Mode"] [], []) succ_def = Some (E, A) /\ get (w "f") E = Some (SL [w "a"] e)).
  { do 3 eexists. split; [vm_compute; reflexivity|]. vm_compute; reflexivity. }
  assert (ER : exists st d, run_s t_truth t_bool t_const t_attr t_un t_bin t_cmp t_call t_items t_fields (mk_pst (fun x => option_map (@PV tval) (t_imports x)) [] []) succ_def = Some (st, None)
    /\ p_store st (w "f") = Some (PF d) /\ d [TN 2] = Some (TN 3)).
  { do 2 eexists. split; [reflexivity|]. split; [reflexivity|]. vm_compute. reflexivity. }
  destruct EP as (E & A & e & E1 & E2), ER as (st & d & R1 & R2 & R3). exists E, A, e, st, d. repeat (split; [assumption|]).
  eapply (C08_helper_value_partial t_truth_bool); [| |exact E1|exact E2|exact R1|exact R2|exact R3].
  - apply Example_tidy.tidy.
  - split; [cbn; intuition discriminate|]. split; [repeat constructor; cbn; intuition discriminate|].
    split; [exists [SAssign (w "n") (EBin (w "+") (EName (w "a")) (num "1"))], (EName (w "n")); split; [reflexivity|repeat split]|].
    intros vs _. split; [split; [split; [cbn; intuition discriminate|repeat split]|intros; repeat split]|]. intros st' e' _ [= <-]. exact I.
Qed.

(** C09: [0 < x < 3] and a filtered any. *)
Example ex_C09_chain : exists e, proc_e t_modes (holes [w "x"] []) (ECmp (num "0") [(w "<", EName (w "x")); (w "<", num "3")]) = Some e
  /\ t_value (bindv [w "x"] [TN 3] (fun _ => None)) e = t_value (bindv [w "x"] [TN 3] (fun _ => None)) (ECmp (num "0") [(w "<", EHole (w "x")); (w "<", num "3")]).
Proof.
  assert (H : exists e, proc_e t_modes (holes [w "x"] []) (ECmp (num "0") [(w "<", EName (w "x")); (w "<", num "3")]) = Some e) by (eexists; vm_compute; reflexivity).
  destruct H as (e & H). exists e. split; [exact H|]. refine (@C09_chain _ _ _ _ _ _ _ _ _ _ _ _ _ _ _ _ _ _ H _ _); reflexivity.
Qed.
Example ex_C09_filter : exists e, proc_e t_modes (holes [w "xs"] []) (EGen true (lt (num "2") (EName (w "x"))) (w "x") (EName (w "xs")) [lt (EName (w "x")) (num "3")]) = Some e
  /\ t_value (bindv [w "xs"] [TL [TN 1; TN 5]] (fun _ => None)) e = Some (TN 0).
Proof.
  assert (H : exists e, proc_e t_modes (holes [w "xs"] []) (EGen true (lt (num "2") (EName (w "x"))) (w "x") (EName (w "xs")) [lt (EName (w "x")) (num "3")]) = Some e) by (eexists; vm_compute; reflexivity).
  destruct H as (e & H). exists e. split; [exact H|].
  etransitivity; [eapply C09_filter; [exact t_truth_bool|exact H|reflexivity|reflexivity|]|vm_compute; reflexivity].
  intros l items u El Ei Hu. vm_compute in El. injection El as <-. vm_compute in Ei. injection Ei as <-. destruct Hu as [<-|[<-|[]]]; split; eexists; vm_compute; reflexivity.
Qed.
Print Assumptions C05_same_value_in_both_branches_refuted.
Print Assumptions C05_unconditional_assignment_refuted.
Print Assumptions C06_refuted.
Print Assumptions C07_refuted.
Print Assumptions C08_early_return_refuted.
