(** Property C96: the resets of a transition applied to a star set (verse/analysis/verifier.py:1383-1501). *)
From Coq Require Import Ascii String.
From Verif Require Import Base BaseFacts Dict PyText Reset ResetSpec ResetProofs ResetProps Star StarSpec StarProofs StarReset StarResetSpec StarResetProofs.
From Coq Require Import Lqa.
Set Implicit Arguments.
Open Scope nat_scope.

(** The transition's data fit: one name per variable and mode, the star in the agent's dimension, each variable reset at most
    once, dictionaries that list the agent's variables in order, numbers that can be written where the code evaluates. *)
Definition resettable (show : Q -> word) (read : word -> option Q) (F : Q -> Prop) (lg : logic) (mode : list word) (s : star) (rs : list (reset * list word)) : Prop :=
  NoDup (disc_vars lg) /\ NoDup (cont_vars lg) /\ length mode = length (disc_vars lg) /\ wf_star s /\ dim s = length (cont_vars lg) /\
  resets_ok lg (map fst rs) /\ (forall r d, In (r, d) rs -> filter (occurs (w "ego")) d = map ego_name (cont_vars lg)) /\
  writes show read F (map ego_name (cont_vars lg)) /\ (forall x q, corner s x -> In q x -> F q) /\
  (forall r d e, In (r, d) rs -> rval r = RArith e -> own_rhs F (cont_vars lg) e).

(** ** C96, if the right-hand sides are affine and no name occurs inside another: the new star is exactly the set of states
    after the resets.  Without either it is not: the refutations below. *)
Theorem C96_exact_partial show read F lg mode s rs : resettable show read F lg mode s rs ->
  names_apart (map ego_name (cont_vars lg)) ->
  (forall r d e, In (r, d) rs -> rval r = RArith e -> affine_in (cont_vars lg) (fun env => aeval env e)) ->
  exists dests s', apply_reset_stars show read lg mode s rs = Some (dests, s') /\ dim s' = dim s /\
    forall y, in_star s' y <-> exists x, in_star s x /\ after_resets (cont_vars lg) (map fst rs) x y.
Proof.
  intros (H1 & H2 & H3 & H4 & H5 & H6 & H7 & H8 & H9 & H10) NA Aff.
  destruct (@stars_exact show read F lg mode s rs H1 H2 H3 H4 H5 H6 H7 H8 NA H9 H10 Aff) as (dests & s' & E & _ & D & X & _). eauto.
Qed.
Print Assumptions C96_exact_partial.

(** ** C96.  Sums of multiples of variables are affine. *)
Theorem C96_linear names e : NoDup names -> (forall x, In x (vars e) -> exists v, In v names /\ x = ego_name v) ->
  linear e -> affine_in names (fun env => aeval env e).
Proof. exact (@linear_affine names e). Qed.
Print Assumptions C96_linear.

(** ** C96.  The destinations are those of the box analysis (C65). *)
Theorem C96_destinations show read F lg mode s rs : resettable show read F lg mode s rs ->
  names_apart (map ego_name (cont_vars lg)) ->
  (forall r d e, In (r, d) rs -> rval r = RArith e -> affine_in (cont_vars lg) (fun env => aeval env e)) ->
  exists dests s', apply_reset_stars show read lg mode s rs = Some (dests, s') /\
    forall d, In d dests <-> length d = length mode /\
      forall i x, nth_error (disc_vars lg) i = Some x ->
        (forall r, In r (map fst rs) -> rvar r = x -> is_mode_var x = true -> In (nth i d []) (choices (rval r))) /\
        ((forall r, In r (map fst rs) -> is_mode_var x = true -> rvar r <> x) -> nth i d [] = nth i mode []).
Proof.
  intros (H1 & H2 & H3 & H4 & H5 & H6 & H7 & H8 & H9 & H10) NA Aff.
  destruct (@stars_exact show read F lg mode s rs H1 H2 H3 H4 H5 H6 H7 H8 NA H9 H10 Aff) as (dests & s' & E & _ & _ & _ & X). eauto.
Qed.
Print Assumptions C96_destinations.

Module Example_C96.
  Definition lg := {| disc_vars := [w "craft_mode"; w "track_mode"]; cont_vars := [w "x"; w "y"]; mode_types := [w "CraftMode"; w "TrackMode"] |}.
  (** A parallelogram: (3, 5) + a (1, 1) + b (0, 2) with 0 <= a, b <= 1. *)
  Definition s : star := Star [inject_Z 3; inject_Z 5] [[inject_Z 1; inject_Z 1]; [inject_Z 0; inject_Z 2]]
    [[1; 0]; [-1; 0]; [0; 1]; [0; -1]]%Q [1; 0; 1; 0]%Q.
  Definition keys : list word := [w "ego.x"; w "ego.y"; w "others.x"].
  (** x := y - 2 * x, y := x, mode := Brake *)
  Definition ex : expr := Bin Sub (Var ego_y) (Bin Mul (Num (inject_Z 2)) (Var ego_x)).
  Definition rs : list (reset * list word) :=
    [({| rvar := w "x"; rval := RArith ex |}, keys); ({| rvar := w "craft_mode"; rval := RMember (w "CraftMode") (w "Brake") |}, keys);
     ({| rvar := w "y"; rval := RArith (Var ego_x) |}, keys)].
  Lemma ints x q : corner s x -> In q x -> is_int q.
  Proof.
    intros [-> |(v & Hv & ->)]; [|destruct Hv as [<-|[<-|[]]]]; intros Hq; vm_compute in Hq; destruct Hq as [<-|[<-|[]]]; eexists; vm_compute; reflexivity.
  Qed.
  Lemma fits : resettable show_int read_int is_int lg [w "Normal"; w "T0"] s rs.
  Proof.
    split; [cbn; repeat (constructor; [cbn; intuition discriminate|]); constructor|]. split; [cbn; repeat (constructor; [cbn; intuition discriminate|]); constructor|].
    split; [reflexivity|]. split. { split; [intros v [<-|[<-|[]]]; reflexivity|]. split; [intros r [<-|[<-|[<-|[<-|[]]]]]; reflexivity|reflexivity]. }
    split; [reflexivity|]. split.
    { split; [cbn; repeat (constructor; [cbn; intuition discriminate|]); constructor|]. intros r [<-|[<-|[<-|[]]]]; cbn.
      - right. split; [reflexivity|]. split; [auto|eauto].
      - left. split; [reflexivity|]. split; auto.
      - right. split; [reflexivity|]. split; [auto|eauto]. }
    split. { intros r d [[= <- <-]|[[= <- <-]|[[= <- <-]|[]]]]; vm_compute; reflexivity. }
    split. { apply writes_int. intros x [<-|[<-|[]]]; vm_compute; auto. }
    split; [exact ints|]. intros r d e [[= <- <-]|[[= <- <-]|[[= <- <-]|[]]]] [= <-].
    - split; [|split]. { intros x Hx. cbn in Hx. destruct Hx as [<-|[<-|[]]]; [exists (w "y")|exists (w "x")]; cbn; auto. }
      + cbn. repeat split; try exact I. exists 2%Z; reflexivity. vm_compute; discriminate.
      + cbn. auto.
    - split; [|split; exact I]. intros x [<-|[]]. exists (w "x"). cbn; auto.
  Qed.
  Lemma apart : names_apart (map ego_name (cont_vars lg)).
  Proof.
    split; [intros x [<-|[<-|[]]]; split; try discriminate; vm_compute; intuition discriminate|].
    intros x y [<-|[<-|[]]] [<-|[<-|[]]] H; try congruence; reflexivity.
  Qed.
  Lemma aff r d e : In (r, d) rs -> rval r = RArith e -> affine_in (cont_vars lg) (fun env => aeval env e).
  Proof.
    intros H E. apply C96_linear.
    - cbn; repeat (constructor; [cbn; intuition discriminate|]); constructor.
    - destruct fits as (_ & _ & _ & _ & _ & _ & _ & _ & _ & X). exact (proj1 (X _ _ _ H E)).
    - destruct H as [[= <- <-]|[[= <- <-]|[[= <- <-]|[]]]]; cbn in E; try discriminate E; injection E as <-; cbn; auto.
  Qed.
  (** By the theorem the state (3, 5) goes to (-1, 3), and (4, 8) to (0, 4). *)
  Example here : exists dests s', apply_reset_stars show_int read_int lg [w "Normal"; w "T0"] s rs = Some (dests, s') /\ in_star s' [0; 4]%Q /\ ~ in_star s' [3; 3]%Q.
  Proof.
    destruct (C96_exact_partial fits apart aff) as (dests & s' & E & _ & X). exists dests, s'. split; [exact E|]. split.
    - apply X. exists [inject_Z 4; inject_Z 8]. split.
      + exists [1; 1]%Q. split; [reflexivity|]. split; [|split; [reflexivity|]].
        * repeat (constructor; [vm_compute; discriminate|]); constructor.
        * intros [|[|j]] Hj; try (vm_compute; reflexivity). cbn in Hj. lia.
      + split; [reflexivity|]. intros [|[|i]] v Hi; [| |destruct i; discriminate]; injection Hi as <-; split.
        * intros r e [<-|[<-|[<-|[]]]] E1 E2; try discriminate; injection E2 as <-; vm_compute; reflexivity.
        * intros H. exfalso. refine (H {| rvar := w "x"; rval := RArith ex |} ex _ eq_refl eq_refl). now left.
        * intros r e [<-|[<-|[<-|[]]]] E1 E2; try discriminate; injection E2 as <-; vm_compute; reflexivity.
        * intros H. exfalso. refine (H {| rvar := w "y"; rval := RArith (Var ego_x) |} (Var ego_x) _ eq_refl eq_refl). right. right. now left.
    - intros H. apply X in H. destruct H as (x & (al & La & Ob & Lx & Px) & Ly & Hy). pose proof (Hy 0 (w "x") eq_refl) as [H1 _]. pose proof (Hy 1 (w "y") eq_refl) as [H2 _].
      specialize (H1 _ ex (or_introl eq_refl) eq_refl eq_refl). specialize (H2 _ (Var ego_x) (or_intror (or_intror (or_introl eq_refl))) eq_refl eq_refl).
      destruct x as [|x0 [|x1 [|]]]; try discriminate Lx. destruct al as [|a [|b [|]]]; try discriminate La.
      pose proof (Px 0 ltac:(cbn; lia)) as P0. pose proof (Px 1 ltac:(cbn; lia)) as P1.
      inversion Ob as [|? ? ? ? O0 Ob1]. inversion Ob1 as [|? ? ? ? O1 Ob2]. inversion Ob2 as [|? ? ? ? O2 _].
      cbn -[Qeq Qplus Qmult Qminus Qle] in H1, H2, P0, P1, O0, O2. unfold inject_Z in *. lra.
  Qed.
  Example dests : option_map fst (apply_reset_stars show_int read_int lg [w "Normal"; w "T0"] s rs) = Some [[w "Brake"; w "T0"]].
  Proof. vm_compute. reflexivity. Qed.
End Example_C96.

(** ** Where it fails *)
(** A product of two variables, which the box analysis handles exactly (C17): x := x * y from 1 <= x, y <= 3 gives only x = 0. *)
Theorem C96_product_refuted : exists lg s e dests s' x y,
  let rs := [({| rvar := w "x"; rval := RArith e |}, [ego_x; ego_y])] in
  resettable show_int read_int is_int lg [] s rs /\ names_apart (map ego_name (cont_vars lg)) /\ each_once e /\
  apply_reset_stars show_int read_int lg [] s rs = Some (dests, s') /\
  in_star s x /\ after_resets (cont_vars lg) (map fst rs) x y /\ ~ in_star s' y.
Proof.
  set (lg := {| disc_vars := []; cont_vars := [w "x"; w "y"]; mode_types := [] |}).
  set (s := Star [inject_Z 0; inject_Z 0] [[inject_Z 1; inject_Z 0]; [inject_Z 0; inject_Z 1]] [[1; 0]; [-1; 0]; [0; 1]; [0; -1]]%Q [3; -1; 3; -1]%Q).
  exists lg, s, (Bin Mul (Var ego_x) (Var ego_y)). eexists _, _. exists [2; 2]%Q, [4; 2]%Q. cbv zeta. split; [|split; [|split; [|split; [vm_compute; reflexivity|split; [|split]]]]].
  - split; [constructor|]. split; [cbn; repeat (constructor; [cbn; intuition discriminate|]); constructor|].
    split; [reflexivity|]. split. { split; [intros v [<-|[<-|[]]]; reflexivity|]. split; [intros r [<-|[<-|[<-|[<-|[]]]]]; reflexivity|reflexivity]. }
    split; [reflexivity|]. split.
    { split; [cbn; repeat (constructor; [cbn; intuition discriminate|]); constructor|]. intros r [<-|[]]; cbn. right. split; [reflexivity|]. split; [auto|eauto]. }
    split. { intros r d [[= <- <-]|[]]; vm_compute; reflexivity. }
    split. { apply writes_int. intros x [<-|[<-|[]]]; vm_compute; auto. }
    split. { intros x q [-> |(v & Hv & ->)]; [|destruct Hv as [<-|[<-|[]]]]; intros Hq; vm_compute in Hq; destruct Hq as [<-|[<-|[]]]; eexists; vm_compute; reflexivity. }
    intros r d e [[= <- <-]|[]] [= <-]. split; [|split; cbn; auto]. intros x Hx. cbn in Hx. destruct Hx as [<-|[<-|[]]]; [exists (w "x")|exists (w "y")]; cbn; auto.
  - split; [intros x [<-|[<-|[]]]; split; try discriminate; vm_compute; intuition discriminate|].
    intros x y [<-|[<-|[]]] [<-|[<-|[]]] H; try congruence; reflexivity.
  - cbn. repeat split; auto. intros x [<-|[]] [H|[]]; discriminate.
  - exists [2; 2]%Q. split; [reflexivity|]. split; [|split; [reflexivity|]].
    + repeat (constructor; [vm_compute; discriminate|]); constructor.
    + intros [|[|j]] Hj; try (vm_compute; reflexivity). cbn in Hj. lia.
  - split; [reflexivity|]. intros [|[|i]] v Hi; [| |destruct i; discriminate]; injection Hi as <-; split.
    + intros r e [<-|[]] E1 [= <-]. vm_compute. reflexivity.
    + intros H. exfalso. refine (H _ _ (or_introl eq_refl) eq_refl eq_refl).
    + intros r e [<-|[]] E1. discriminate.
    + intros _. reflexivity.
  - intros (al & La & _ & _ & P). destruct al as [|a [|b [|]]]; try discriminate La. specialize (P 0 ltac:(cbn; lia)).
    cbn -[Qeq Qplus Qmult Qminus Qle] in P. lra.
Qed.
Print Assumptions C96_product_refuted.

(** A variable name that begins with another one: x := x2 from (3, 5) + a (1, 0) + b (0, 1) gives 32 + 10 a for x. *)
Theorem C96_prefix_refuted : exists lg s e dests s' x y,
  let rs := [({| rvar := w "x"; rval := RArith e |}, [ego_x; ego_x2])] in
  resettable show_int read_int is_int lg [] s rs /\ linear e /\
  apply_reset_stars show_int read_int lg [] s rs = Some (dests, s') /\
  in_star s x /\ after_resets (cont_vars lg) (map fst rs) x y /\ ~ in_star s' y.
Proof.
  set (lg := {| disc_vars := []; cont_vars := [w "x"; w "x2"]; mode_types := [] |}).
  set (s := Star [inject_Z 3; inject_Z 5] [[inject_Z 1; inject_Z 0]; [inject_Z 0; inject_Z 1]] [[1; 0]; [-1; 0]; [0; 1]; [0; -1]]%Q [1; 0; 1; 0]%Q).
  exists lg, s, (Var ego_x2). eexists _, _. exists [3; 5]%Q, [5; 5]%Q. cbv zeta. split; [|split; [exact I|split; [vm_compute; reflexivity|split; [|split]]]].
  - split; [constructor|]. split; [cbn; repeat (constructor; [cbn; intuition discriminate|]); constructor|].
    split; [reflexivity|]. split. { split; [intros v [<-|[<-|[]]]; reflexivity|]. split; [intros r [<-|[<-|[<-|[<-|[]]]]]; reflexivity|reflexivity]. }
    split; [reflexivity|]. split.
    { split; [cbn; repeat (constructor; [cbn; intuition discriminate|]); constructor|]. intros r [<-|[]]; cbn. right. split; [reflexivity|]. split; [auto|eauto]. }
    split. { intros r d [[= <- <-]|[]]; vm_compute; reflexivity. }
    split. { apply writes_int. intros x [<-|[<-|[]]]; vm_compute; auto. }
    split. { intros x q [-> |(v & Hv & ->)]; [|destruct Hv as [<-|[<-|[]]]]; intros Hq; vm_compute in Hq; destruct Hq as [<-|[<-|[]]]; eexists; vm_compute; reflexivity. }
    intros r d e [[= <- <-]|[]] [= <-]. split; [|split; cbn; auto]. intros x [<-|[]]. exists (w "x2"); cbn; auto.
  - exists [0; 0]%Q. split; [reflexivity|]. split; [|split; [reflexivity|]].
    + repeat (constructor; [vm_compute; discriminate|]); constructor.
    + intros [|[|j]] Hj; try (vm_compute; reflexivity). cbn in Hj. lia.
  - split; [reflexivity|]. intros [|[|i]] v Hi; [| |destruct i; discriminate]; injection Hi as <-; split.
    + intros r e [<-|[]] E1 [= <-]. vm_compute. reflexivity.
    + intros H. exfalso. refine (H _ _ (or_introl eq_refl) eq_refl eq_refl).
    + intros r e [<-|[]] E1. discriminate.
    + intros _. reflexivity.
  - intros (al & La & Ob & _ & P). destruct al as [|a [|b [|]]]; try discriminate La. specialize (P 0 ltac:(cbn; lia)). inversion Ob as [|? ? ? ? O0 Ob1]. inversion Ob1 as [|? ? ? ? O1 _].
    cbn -[Qeq Qplus Qmult Qminus Qle] in P, O1. lra.
Qed.
Print Assumptions C96_prefix_refuted.

(** A right-hand side over another agent's variable, which the box analysis allows: the star analysis raises. *)
Theorem C96_other_agent_refuted : exists lg s e keys box dests b',
  let r := {| rvar := w "x"; rval := RArith e |} in
  resets_ok lg [r] /\ wf_star s /\ dim s = length (cont_vars lg) /\ linear e /\ (forall x, In x (vars e) -> In x keys) /\
  apply_reset show_int read_int lg (combine keys box) [] ([inject_Z 1], [inject_Z 3]) [r] = Some (dests, b') /\
  apply_reset_stars show_int read_int lg [] s [(r, keys)] = None.
Proof.
  exists {| disc_vars := []; cont_vars := [w "x"]; mode_types := [] |}, (Star [inject_Z 1] [[inject_Z 2]] [[1]; [-1]]%Q [1; 0]%Q),
    (Var (w "other.x")), [w "ego.x"; w "other.x"], [(inject_Z 1, inject_Z 3); (inject_Z 7, inject_Z 8)]. eexists _, _. cbv zeta.
  split. { split; [cbn; repeat (constructor; [cbn; intuition discriminate|]); constructor|]. intros r [<-|[]]; cbn. right. split; [reflexivity|]. split; [auto|eauto]. }
  split. { split; [intros v [<-|[]]; reflexivity|]. split; [intros r [<-|[<-|[]]]; reflexivity|reflexivity]. }
  split; [reflexivity|]. split; [exact I|]. split; [intros x [<-|[]]; cbn; auto|]. split; vm_compute; reflexivity.
Qed.
Print Assumptions C96_other_agent_refuted.
