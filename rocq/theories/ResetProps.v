(** Property theorems about resets (verse/analysis/verifier.py:1286-1377, verse/automaton/reset.py). *)
From Coq Require Import Ascii String DecimalString DecimalNat.
From Verif Require Import Base BaseFacts PyText Reset ResetSpec ResetProofs.
From Coq Require Import Lqa.
Open Scope nat_scope.

(** ** A concrete way of writing numbers, used by the examples: whole numbers in decimal. *)
Definition digits (n : nat) : word := list_ascii_of_string (NilEmpty.string_of_uint (Nat.to_uint n)).
Definition show_int (q : Q) : word :=
  if (Qnum q <? 0)%Z then "-"%char :: digits (Z.abs_nat (Qnum q)) else digits (Z.abs_nat (Qnum q)).
Definition read_int (x : word) : option Q :=
  option_map (fun u => inject_Z (Z.of_nat (Nat.of_uint u))) (NilEmpty.uint_of_string (string_of_list_ascii x)).
Definition is_int (q : Q) : Prop := exists z, q = inject_Z z.

Lemma read_digits n : read_int (digits n) = Some (inject_Z (Z.of_nat n)).
Proof.
  unfold read_int, digits. rewrite string_of_list_ascii_of_string, NilEmpty.usu. simpl.
  rewrite Unsigned.of_to. reflexivity.
Qed.

Definition digit (c : ascii) : Prop := In c (list_ascii_of_string "0123456789").
Lemma digits_digit u c : In c (list_ascii_of_string (NilEmpty.string_of_uint u)) -> digit c.
Proof. unfold digit. induction u; simpl; intros H; try contradiction; destruct H as [<-|H]; simpl; tauto. Qed.
Lemma digits_nonempty n : digits n <> [].
Proof.
  unfold digits. destruct (Nat.to_uint n) eqn:E; simpl; try congruence. intros _.
  pose proof (Unsigned.of_to n) as H. rewrite E in H. simpl in H. subst n. discriminate.
Qed.
Lemma prefix_chars p s c : prefix_of p s = true -> In c p -> In c s.
Proof.
  revert s; induction p as [|a p IH]; intros [|b s] H Hc; simpl in *; try contradiction; try discriminate.
  apply andb_prop in H. destruct H as [H1 H2]. apply Ascii.eqb_eq in H1. subst. destruct Hc; auto.
Qed.
Lemma occurs_chars p s c : occurs p s = true -> In c p -> In c s.
Proof.
  induction s as [|b s IH]; intros H Hc; simpl in H.
  - apply orb_prop in H. destruct H as [H|H]; [|discriminate]. eapply prefix_chars; eauto.
  - apply orb_prop in H. destruct H as [H|H]; [eapply prefix_chars; eauto|right; auto].
Qed.

Lemma writes_int names : (forall x, In x names -> In "e"%char x) -> writes show_int read_int is_int names.
Proof.
  intros Hn. constructor.
  - intros q [z ->] H. unfold show_int. simpl. assert (0 <= z)%Z.
    { unfold Qle in H. simpl in H. lia. }
    replace (z <? 0)%Z with false by (symmetry; apply Z.ltb_ge; lia).
    eexists. split; [apply read_digits|]. rewrite Zabs2Nat.id_abs, Z.abs_eq by lia. reflexivity.
  - intros q [z ->] H. unfold show_int. simpl. assert (0 <= z)%Z.
    { unfold Qle in H. simpl in H. lia. }
    replace (z <? 0)%Z with false by (symmetry; apply Z.ltb_ge; lia). split; [apply digits_nonempty|].
    intros Hd. apply digits_digit in Hd. unfold digit in Hd. simpl in Hd. intuition discriminate.
  - intros q [z ->] H. assert (z < 0)%Z. { unfold Qlt in H. simpl in H. lia. }
    split; [exists (- z)%Z; reflexivity|]. unfold show_int. simpl.
    replace (z <? 0)%Z with true by (symmetry; apply Z.ltb_lt; lia).
    replace (- z <? 0)%Z with false by (symmetry; apply Z.ltb_ge; lia).
    f_equal. f_equal. lia.
  - intros q x [z ->] Hx. destruct (occurs x (show_int (inject_Z z))) eqn:E; [|reflexivity].
    apply (occurs_chars _ _ "e"%char) in E; [|auto]. exfalso. unfold show_int in E. simpl in E.
    assert (Hd : In "e"%char (digits (Z.abs_nat z))).
    { destruct (z <? 0)%Z; [destruct E as [E|E]; [discriminate|exact E]|exact E]. }
    apply digits_digit in Hd. unfold digit in Hd. simpl in Hd. intuition discriminate.
Qed.

Definition ego_x : word := w "ego.x".
Definition ego_y : word := w "ego.y".
Definition ego_x2 : word := w "ego.x2".

(** ** C19: substitution *)

(** C19, when no variable name occurs inside another one and no possibly negative variable is raised to a
    power directly: substituting the values textually and evaluating gives the value of the expression.  The
    full property has neither restriction and is false: the two refutations below. *)
Theorem C19_substitution_partial :
  forall show read F names syms comb env e,
  writes show read F names -> names_apart names ->
  NoDup syms -> length comb = length syms -> (forall x, In x syms -> In x names) -> (forall u, In u comb -> F u) ->
  (forall x, In x (vars e) -> In (x, env x) (combine syms comb)) ->
  literals (fun q => F q /\ 0 <= q)%Q e -> pow_bases (fun x => 0 <= env x)%Q e ->
  exists v, eval_subst show read syms comb (unparse show e) = Some v /\ (v == aeval env e)%Q.
Proof.
  intros. eapply eval_subst_ok; eauto.
Qed.
Print Assumptions C19_substitution_partial.

(** C19 is false when one name is a prefix of another: with [ego.x = 3] and [ego.x2 = 5] the reset value
    [ego.x2] evaluates to 32. *)
Theorem C19_prefix_names_refuted :
  exists F syms comb env e v,
    writes show_int read_int F syms /\ NoDup syms /\ length comb = length syms /\ (forall u, In u comb -> F u) /\
    (forall x, In x (vars e) -> In (x, env x) (combine syms comb)) /\ literals (fun q => F q /\ 0 <= q)%Q e /\
    pow_bases (fun x => 0 <= env x)%Q e /\
    eval_subst show_int read_int syms comb (unparse show_int e) = Some v /\ ~ (v == aeval env e)%Q.
Proof.
  exists is_int, [ego_x; ego_x2], [inject_Z 3; inject_Z 5],
    (fun x => if word_eqb x ego_x then inject_Z 3 else inject_Z 5), (Var ego_x2), (inject_Z 32).
  split. { apply writes_int. intros x [<-|[<-|[]]]; vm_compute; auto. }
  split. { repeat constructor; simpl; intuition discriminate. }
  split; [reflexivity|]. split. { intros u [<-|[<-|[]]]; eexists; reflexivity. }
  split. { intros x [<-|[]]. vm_compute. auto. }
  split; [exact I|]. split; [exact I|]. split; [vm_compute; reflexivity|]. vm_compute. discriminate.
Qed.
Print Assumptions C19_prefix_names_refuted.

(** C19 is false for powers of negative values: [ego.x ** 2] with [ego.x = -3] evaluates to -9. *)
Theorem C19_negative_power_refuted :
  exists F syms comb env e v,
    writes show_int read_int F syms /\ names_apart syms /\ NoDup syms /\ length comb = length syms /\ (forall u, In u comb -> F u) /\
    (forall x, In x (vars e) -> In (x, env x) (combine syms comb)) /\ literals (fun q => F q /\ 0 <= q)%Q e /\
    eval_subst show_int read_int syms comb (unparse show_int e) = Some v /\ ~ (v == aeval env e)%Q.
Proof.
  exists is_int, [ego_x], [inject_Z (-3)], (fun x => inject_Z (-3)), (Pow (Var ego_x) 2), (inject_Z (-9)).
  split. { apply writes_int. intros x [<-|[]]; vm_compute; auto. }
  split. { split; [intros x [<-|[]]; split; [discriminate|vm_compute; intuition discriminate]|].
           intros x y [<-|[]] [<-|[]] H. congruence. }
  split. { repeat constructor; simpl; tauto. }
  split; [reflexivity|]. split. { intros u [<-|[]]; eexists; reflexivity. }
  split. { intros x [<-|[]]. vm_compute. auto. }
  split. { simpl. split; [exact I|]. split; [exists 2%Z; reflexivity|vm_compute; discriminate]. }
  split; [vm_compute; reflexivity|]. vm_compute. discriminate.
Qed.
Print Assumptions C19_negative_power_refuted.

(** ** C17, C18: the reset box *)

(** The conditions under which the textual evaluation of [e] over the dictionary is faithful (C19). *)
Definition readable (show : Q -> word) (read : word -> option Q) (F : Q -> Prop) (dict : bounds) (e : expr) : Prop :=
  writes show read F (map fst dict) /\ names_apart (map fst dict) /\ dict_ok F dict /\
  (forall x, In x (vars e) -> In x (map fst dict)) /\ literals (fun q => F q /\ 0 <= q)%Q e /\
  pow_bases (fun x => exists l h, In (x, (l, h)) dict /\ (0 <= l)%Q) e.

(** C17: for an expression that is affine in each variable separately the computed interval is exactly the
    range of the reset value over the box: it contains the value at every state, and both ends are attained. *)
Theorem C17_multiaffine_exact :
  forall show read F dict e,
  readable show read F dict e -> multiaffine (fun env => aeval env e) ->
  exists l h, reset_bounds show read dict e = Some (l, h) /\ exact_range dict (fun env => aeval env e) l h.
Proof.
  intros show read F dict e (W & NA & DO & Hv & HL & HP) Hm.
  eapply reset_bounds_exact; eauto. apply multiaffine_between; [apply aeval_ext|exact Hm].
Qed.
Print Assumptions C17_multiaffine_exact.

(** C17: the syntactic class of such expressions: sums, differences and products in which no variable occurs
    on both sides of a product. *)
Theorem C17_each_once_multiaffine : forall e, each_once e -> multiaffine (fun env => aeval env e).
Proof. exact each_once_multiaffine. Qed.
Print Assumptions C17_each_once_multiaffine.

(** C17, whole transition: after a list of resets (each variable at most once), a reset variable has exactly
    its range, every other continuous variable keeps its bounds. *)
Theorem C17_apply_reset_box :
  forall show read F dict lg mode lo hi rs,
  NoDup (disc_vars lg) -> NoDup (cont_vars lg) -> length mode = length (disc_vars lg) ->
  length lo = length (cont_vars lg) -> length hi = length (cont_vars lg) ->
  resets_ok lg rs ->
  (forall r e, In r rs -> rval r = RArith e -> readable show read F dict e /\ multiaffine (fun env => aeval env e)) ->
  exists dests lo' hi', apply_reset show read lg dict mode (lo, hi) rs = Some (dests, (lo', hi')) /\
    length lo' = length lo /\ length hi' = length hi /\
    forall i x, nth_error (cont_vars lg) i = Some x ->
      (forall r e, In r rs -> rvar r = x -> rval r = RArith e ->
         exact_range dict (fun env => aeval env e) (nth i lo' 0%Q) (nth i hi' 0%Q)) /\
      ((forall r, In r rs -> rvar r <> x) -> nth i lo' 0%Q = nth i lo 0%Q /\ nth i hi' 0%Q = nth i hi 0%Q).
Proof.
  intros show read F dict lg mode lo hi rs N1 N2 L1 L2 L3 Hrs Hr.
  destruct (@apply_reset_full show read dict lg mode lo hi N1 N2 L1 L2 L3 rs Hrs) as (d & lo' & hi' & E & A & B & C & _).
  { intros r e H1 H2. destruct (Hr r e H1 H2) as [(W & NA & DO & Hv & HL & HP) Hm].
    destruct (@reset_bounds_exact show read F dict W NA DO e Hv HL HP) as (l & h & E & _); eauto.
    apply multiaffine_between; [apply aeval_ext|exact Hm]. }
  exists d, lo', hi'. split; [exact E|]. split; [exact A|]. split; [exact B|].
  intros i x Hi. destruct (C i x Hi) as [C1 C2]. split.
  - intros r e H1 H2 H3. specialize (C1 r e H1 H2 H3).
    destruct (Hr r e H1 H3) as [(W & NA & DO & Hv & HL & HP) Hm].
    destruct (@reset_bounds_exact show read F dict W NA DO e Hv HL HP) as (l & h & E' & X).
    + apply multiaffine_between; [apply aeval_ext|exact Hm].
    + rewrite E' in C1. injection C1 as -> ->. exact X.
  - intros Hno. apply C2. auto.
Qed.
Print Assumptions C17_apply_reset_box.

Example C17_case :
  let dict := [(ego_x, (inject_Z (-2), inject_Z 3)); (ego_y, (inject_Z 1, inject_Z 2))] in
  let e := Bin Sub (Bin Mul (Var ego_x) (Var ego_y)) (Bin Mul (Num (inject_Z 2)) (Var ego_x)) in
  let e' := Bin Add (Bin Mul (Var ego_x) (Var ego_y)) (Num (inject_Z 1)) in
  readable show_int read_int is_int dict e /\ each_once e /\ each_once e' /\
  option_map (fun p => (Qred (fst p), Qred (snd p))) (reset_bounds show_int read_int dict e) = Some (-3, 2)%Q /\
  option_map (fun p => (Qred (fst p), Qred (snd p))) (reset_bounds show_int read_int dict e') = Some (-3, 7)%Q.
Proof.
  split; [|split; [|split; [|split; vm_compute; reflexivity]]].
  - split. { apply writes_int. intros x [<-|[<-|[]]]; vm_compute; auto. }
    split. { split; [intros x [<-|[<-|[]]]; split; try discriminate; vm_compute; intuition discriminate|].
             intros x y [<-|[<-|[]]] [<-|[<-|[]]] H; try congruence; reflexivity. }
    split. { split; [repeat constructor; simpl; intuition discriminate|].
             intros x l h [[= <- <- <-]|[[= <- <- <-]|[]]]; (split; [vm_compute; discriminate|split; eexists; reflexivity]). }
    split. { intros x Hx. simpl in Hx. simpl. intuition. }
    split. { simpl. repeat split; try exact I. exists 2%Z; reflexivity. vm_compute; discriminate. }
    simpl. tauto.
  - simpl. repeat split; auto; intros x [<-|[]] [H|[]]; discriminate.
  - simpl. repeat split; auto; intros x [<-|[]] [H|[]]; discriminate.
Qed.

(** C18, for expressions whose values along each axis stay between the values at the interval's ends (for
    example those that are monotone in each variable): the interval is exact.  The full property has no
    restriction and is false: [C18_square_refuted]. *)
Theorem C18_axis_between_partial :
  forall show read F dict e,
  readable show read F dict e -> axis_between dict (fun env => aeval env e) ->
  exists l h, reset_bounds show read dict e = Some (l, h) /\ exact_range dict (fun env => aeval env e) l h.
Proof.
  intros show read F dict e (W & NA & DO & Hv & HL & HP) Hm. eapply reset_bounds_exact; eauto.
Qed.
Print Assumptions C18_axis_between_partial.

(** C18 is false: [ego.x * ego.x] over [-1, 1] gets the box [1, 1], which misses the state 0. *)
Theorem C18_square_refuted :
  exists F dict e l h env,
    readable show_int read_int F dict e /\ reset_bounds show_int read_int dict e = Some (l, h) /\
    within dict env /\ ~ (l <= aeval env e <= h)%Q.
Proof.
  exists is_int, [(ego_x, (inject_Z (-1), inject_Z 1))], (Bin Mul (Var ego_x) (Var ego_x)).
  eexists. eexists. exists (fun _ => 0%Q). split; [|split; [vm_compute; reflexivity|split]].
  - split. { apply writes_int. intros x [<-|[]]; vm_compute; auto. }
    split. { split; [intros x [<-|[]]; split; [discriminate|vm_compute; intuition discriminate]|].
             intros x y [<-|[]] [<-|[]] H. congruence. }
    split. { split; [repeat constructor; simpl; tauto|].
             intros x l h [[= <- <- <-]|[]]. split; [vm_compute; discriminate|split; eexists; reflexivity]. }
    split. { intros x Hx. simpl in Hx. simpl. tauto. }
    simpl. tauto.
  - intros x l h [[= <- <- <-]|[]]. split; vm_compute; discriminate.
  - intros [H1 H2]. vm_compute in H1. apply H1. reflexivity.
Qed.
Print Assumptions C18_square_refuted.

(** A non-affine expression that meets the hypotheses of [C18_axis_between_partial]: a square over
    non-negative values. *)
Example C18_case :
  let dict := [(ego_x, (inject_Z 1, inject_Z 3))] in
  let e := Pow (Var ego_x) 2 in
  readable show_int read_int is_int dict e /\ axis_between dict (fun env => aeval env e) /\
  option_map (fun p => (Qred (fst p), Qred (snd p))) (reset_bounds show_int read_int dict e) = Some (1, 9)%Q.
Proof.
  split; [|split; [|vm_compute; reflexivity]].
  - split. { apply writes_int. intros x [<-|[]]; vm_compute; auto. }
    split. { split; [intros x [<-|[]]; split; [discriminate|vm_compute; intuition discriminate]|].
             intros x y [<-|[]] [<-|[]] H. congruence. }
    split. { split; [repeat constructor; simpl; tauto|].
             intros x l h [[= <- <- <-]|[]]. split; [vm_compute; discriminate|split; eexists; reflexivity]. }
    split. { intros x Hx. simpl in Hx. simpl. tauto. }
    split. { simpl. split; [exact I|]. split; [exists 2%Z; reflexivity|vm_compute; discriminate]. }
    simpl. exists (inject_Z 1), (inject_Z 3). split; [auto|vm_compute; discriminate].
  - intros env x l h t [[= <- <- <-]|[]] Hw [H1 H2]. cbn [aeval]. unfold upd. rewrite word_eqb_refl.
    change (Z.of_nat 2) with 2%Z. cbn [Qpower Qpower_positive Pos.iter].
    unfold Qpower_positive. simpl. unfold inject_Z in *. split.
    + apply Q.min_le_iff. left. nra.
    + apply Q.max_le_iff. right. nra.
Qed.

(** ** C65: destinations *)

(** C65: the destinations of a transition are exactly the mode tuples in which every mode variable that is
    reset takes one of the values its reset allows and every other mode variable keeps its value. *)
Theorem C65_destinations_exact :
  forall show read dict lg mode lo hi rs,
  NoDup (disc_vars lg) -> NoDup (cont_vars lg) -> length mode = length (disc_vars lg) ->
  length lo = length (cont_vars lg) -> length hi = length (cont_vars lg) ->
  resets_ok lg rs ->
  (forall r e, In r rs -> rval r = RArith e -> reset_bounds show read dict e <> None) ->
  exists dests rect, apply_reset show read lg dict mode (lo, hi) rs = Some (dests, rect) /\
    forall d, In d dests <-> length d = length mode /\
      forall i x, nth_error (disc_vars lg) i = Some x ->
        (forall r, In r rs -> rvar r = x -> is_mode_var x = true -> In (nth i d []) (choices (rval r))) /\
        ((forall r, In r rs -> is_mode_var x = true -> rvar r <> x) -> nth i d [] = nth i mode []).
Proof.
  intros show read dict lg mode lo hi rs N1 N2 L1 L2 L3 Hrs Hr.
  destruct (@apply_reset_full show read dict lg mode lo hi N1 N2 L1 L2 L3 rs Hrs) as (d & lo' & hi' & E & _ & _ & _ & C).
  { intros r e H1 H2. specialize (Hr r e H1 H2). destruct (reset_bounds show read dict e) as [[l h]|]; [eauto|congruence]. }
  eauto.
Qed.
Print Assumptions C65_destinations_exact.

Example C65_case :
  let lg := {| disc_vars := [w "agent_mode"; w "track_mode"]; cont_vars := [w "x"; w "v"]; mode_types := [w "CraftMode"; w "TrackMode"] |} in
  let rs := [{| rvar := w "agent_mode"; rval := RMember (w "CraftMode") (w "Brake") |};
             {| rvar := w "track_mode"; rval := RMap [w "T0"; w "T1"] |};
             {| rvar := w "v"; rval := RArith (Num (inject_Z 0)) |}] in
  resets_ok lg rs /\
  apply_reset show_int read_int lg [] [w "Normal"; w "T0"] ([inject_Z 1; inject_Z 2], [inject_Z 3; inject_Z 4]) rs
  = Some ([[w "Brake"; w "T0"]; [w "Brake"; w "T1"]], ([inject_Z 1; inject_Z 0], [inject_Z 3; inject_Z 0])).
Proof.
  split; [|vm_compute; reflexivity]. split.
  - repeat constructor; simpl; intuition discriminate.
  - intros r [<-|[<-|[<-|[]]]]; simpl.
    + left. repeat split; auto.
    + left. repeat split; auto.
    + right. repeat split; auto. eexists; reflexivity.
Qed.

(** A mode reset whose right-hand side is neither a constant, a declared mode nor a map query is dropped
    without an error: the transition keeps the old mode. *)
Example C65_dropped_reset :
  let lg := {| disc_vars := [w "agent_mode"]; cont_vars := []; mode_types := [w "CraftMode"] |} in
  apply_reset show_int read_int lg [] [w "Normal"] ([], []) [{| rvar := w "agent_mode"; rval := RMember (w "ego") (w "other_mode") |}]
  = Some ([[w "Normal"]], ([], [])).
Proof. vm_compute. reflexivity. Qed.
