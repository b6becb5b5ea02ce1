(** C22: the tree of verify covers the executions of the scenario. *)
From Coq Require Import Ascii String.
From Verif Require Import Base BaseFacts Dict PyText Boxes BoxesSpec Overlay OverlaySpec Scan ScanSpec
  Round Step StepSpec StepProps Toy Scheduler SchedulerSpec SchedulerProofs SchedulerProps CoverSpec CoverProofs CoverToy.
From Coq Require Import Lqa.
Set Implicit Arguments.
Open Scope nat_scope.

(** C22.  Let the tubes, the guards and the resets be computed soundly, let every agent assign one variable, and let the
    map permit every destination.  In the tree verify builds let every node meet the three conditions of [regular]:
    hits without gaps, no certain guard before all initial sets have been entered, one reset set per hit row.  Then
    either some node reports an assertion, or every execution with fewer transitions than the height limit is, in
    every row before its next transition, in a node of the tree: one in the execution's mode, at the right row.
    Missing: each of these conditions is needed ([C22_gap_refuted], [C22_late_entry_refuted], [C22_variables_refuted],
    [C60_same_destination_refuted], [C15_rejected_transitions_refuted]). *)
Theorem C22_covered_partial :
  forall path cond pvar (agents : list (dlogic path cond)) dim tube_of g_disc g_hyb g_cont g_certain g_reset maph
    inst (traj : nat -> mode -> vec -> (nat -> inst -> vec) -> Prop) enabled resets dt horizon N digits max_height modes0 start t,
  on_rows dt horizon N digits -> tubes_sound dim tube_of traj dt N -> guards_sound g_disc g_hyb g_cont enabled ->
  resets_sound dim g_reset enabled resets -> one_variable pvar agents -> map_permits agents g_reset maph ->
  0 < N -> length agents <> 0 -> length modes0 = length agents -> length start = length agents ->
  (forall a b, nth_error start a = Some b -> length (fst b) = dim a /\ length (snd b) = dim a) ->
  unfolds (skip n_height n_start max_height horizon) (expand pvar agents tube_of g_disc g_hyb g_cont g_certain g_reset maph horizon digits max_height)
    {| n_trace := map (fun _ => None) start; n_init := map (fun b => [b]) start; n_mode := modes0; n_start := 0; n_height := 0 |} t ->
  regular pvar agents tube_of g_disc g_hyb g_cont g_certain g_reset maph horizon t ->
  forall modes ps h k h' q, execution agents traj enabled resets N modes0 start modes ps h k ->
    (forall H, max_height = Some H -> k + 1 < H) -> h <= h' -> h' < N -> waits agents enabled modes ps h h' ->
    alarm t \/ shows dt t modes h' (joint ps h' q).
Proof.
  intros path cond pvar agents dim tube_of g_disc g_hyb g_cont g_certain g_reset maph inst traj enabled resets dt horizon N digits max_height modes0 start t
    H1 H2 H3 H4 H5 H6 H7 H8 H9 H10 H11 U Hreg modes ps h k h' q HE HH G1 G2 G3.
  destruct (@covered path cond pvar agents dim tube_of g_disc g_hyb g_cont g_certain g_reset maph inst traj enabled resets dt horizon N digits max_height
    H1 H2 H3 H4 H5 H6 modes0 start t H7 H8 H9 H10 H11 U Hreg modes ps h k HE HH) as [Al|(t2 & nd & g & Hf)]; [left; exact Al|].
  exact (follows_shows H1 H2 H3 H5 H6 Hreg Hf HH q G1 G2 G3).
Qed.
Print Assumptions C22_covered_partial.

(** The tree is what verify leaves in its heap, on every schedule ([C28_tree_is_unfolding]). *)
Theorem C22_run : forall path cond pvar (agents : list (dlogic path cond)) tube_of g_disc g_hyb g_cont g_certain g_reset maph horizon digits max_height
    parallel ahead root st,
  let ex := expand pvar agents tube_of g_disc g_hyb g_cont g_certain g_reset maph horizon digits max_height in
  run n_height n_start max_height horizon parallel ahead true ex (initial _ _ root) st -> final st ->
  exists t t', tree_at (objs st) 0 t /\ unfolds (skip n_height n_start max_height horizon) ex root t' /\ no_hits t = no_hits t'.
Proof. intros. eapply C28_tree_is_unfolding; eassumption. Qed.
Print Assumptions C22_run.

(** * The conditions are needed

    The scenarios below: one agent on a line (CoverToy.v), which moves by one per row in mode A and stands still
    otherwise.  Tubes, guards and resets are sound. *)
Definition to_mode (m d : mode) (lo hi : Q) : tpath :=
  {| tp_var := w "mode"; tp_src := m; tp_lo := [lo]; tp_hi := [hi]; tp_dest := Some d; tp_set := None |}.
Definition logic (ps : list tpath) : dlogic tpath (vec * vec) := {| has_args := true; d_types := []; d_paths := ps; d_asserts := [] |}.
Definition v_execution (ps : list tpath) (N : nat) (m : mode) (lo hi : Q) := execution [logic ps] vtraj t_enabled t_resets N [m] [([lo], [hi])].
Definition v_unfolds (ps : list tpath) (N : nat) (m : mode) (lo hi : Q) t := unfolds (v_skip N) (v_expand (logic ps) N) (v_root m lo hi) t.
Definition v_waits (ps : list tpath) := @waits _ _ [logic ps] unit t_enabled.

Theorem C22_scenarios_sound : forall ps N, on_rows 1 (inject_Z (Z.of_nat N)) N 10 /\ tubes_sound one vtubes vtraj 1 N /\
  guards_sound t_disc t_hyb t_cont t_enabled /\ resets_sound one t_reset t_enabled t_resets /\ map_permits [logic ps] t_reset no_map.
Proof.
  intros ps N. split; [apply t_on_rows|]. split; [apply vtubes_sound|]. split; [exact t_guards_sound|]. split; [exact t_resets_sound|]. apply t_map_permits. reflexivity.
Qed.
Print Assumptions C22_scenarios_sound.

Definition A : mode := [w "A"]. Definition B : mode := [w "B"]. Definition C : mode := [w "C"].
Definition line (m : mode) (x : Q) : nat -> unit -> vec := fun j _ => [at_row (speed m) x j].

Lemma one_var ps : (forall p, In p ps -> tp_var p = w "mode") -> one_variable tp_var [logic ps].
Proof.
  intros H a lg p q E Hp Hq. destruct a as [|[|a]]; cbn [nth_error] in E; [|discriminate|discriminate]. injection E as <-. rewrite (H p Hp), (H q Hq). reflexivity.
Qed.
Lemma start_line ps N m lo hi x : (lo <= x /\ x <= hi)%Q -> v_execution ps N m lo hi [m] [mk_phase (line m x) 0] 0 0.
Proof.
  intros Hx. apply E_start; [reflexivity|]. intros a p E. destruct a as [|[|a]]; cbn in E; try discriminate. injection E as <-. split; [reflexivity|].
  exists m, ([lo], [hi]), [x]. split; [reflexivity|]. split; [reflexivity|]. split; [cbn; tauto|]. exists x. split; [reflexivity|]. reflexivity.
Qed.
Lemma jump_line ps N m0 lo hi m x h0 h k h' p : v_execution ps N m0 lo hi [m] [mk_phase (line m x) h0] h k ->
  h <= h' -> h' < N -> v_waits ps [m] [mk_phase (line m x) h0] h h' -> In p ps -> tp_set p = None ->
  t_enabled [m] 0 p [[at_row (speed m) x (h' - h0)]] ->
  v_execution ps N m0 lo hi [t_move m p] [mk_phase (line (t_move m p) (at_row (speed m) x (h' - h0))) h'] h' (S k).
Proof.
  intros HE H1 H2 Hw Hp Hs Hen. refine (@E_jump _ _ [logic ps] unit vtraj t_enabled t_resets N [m0] [([lo], [hi])] [m] _ h k h' tt 0 (logic ps) p (t_move m p) _ _ HE H1 H2 Hw _ Hp Hen _ _).
  - split; reflexivity.
  - split; [reflexivity|]. rewrite Hs. reflexivity.
  - exists (at_row (speed m) x (h' - h0)). split; reflexivity.
Qed.

(** ** A gap in the hits

    Mode A, x in [0, 1/2], and in x = 3/2 the agent goes to B.  That may happen in row 1 and in no other, so verify
    looks no further; an execution from x = 0 stays in A and is at 2 in row 2. *)
Theorem C22_gap_refuted : exists ps N t modes qs h k h', one_variable tp_var [logic ps] /\ v_unfolds ps N A 0 (1 # 2) t /\
  v_execution ps N A 0 (1 # 2) modes qs h k /\ h <= h' < N /\ v_waits ps modes qs h h' /\
  ~ alarm t /\ ~ shows 1 t modes h' (joint qs h' tt).
Proof.
  exists [to_mode A B (3 # 2) (3 # 2)], 4.
  destruct (grow (logic [to_mode A B (3 # 2) (3 # 2)]) 4 5 (v_root A 0 (1 # 2))) as [t|] eqn:E; [|vm_compute in E; discriminate].
  exists t, [A], [mk_phase (line A 0) 0], 0, 0, 2.
  split; [apply one_var; intros p Hp; repeat (destruct Hp as [<-|Hp]; [reflexivity|]); destruct Hp|].
  split; [apply (grow_unfolds _ _ _ _ E)|]. split; [apply start_line; lra|]. split; [lia|].
  split.
  { intros i q a lg p H1 H2 [Hc _] Hp [_ He]. destruct a as [|[|a]]; cbn [nth_error] in Hc; [|discriminate Hc|discriminate Hc]. injection Hc as <-. destruct Hp as [<-|[]].
    destruct i as [|[|i]]; [| |lia]; cbn in He; unfold at_row in He; vm_compute in He; destruct He as [[E1 E2] _]; contradiction E1 || contradiction E2; reflexivity. }
  vm_compute in E. injection E as <-.
  split.
  - intros (nd & r & asr & Ho). apply occurs_every in Ho. cbn in Ho. intuition congruence.
  - intros (nd & trs & asr & g & Ho & Hm & Hs & Hg & St). apply occurs_every in Ho. cbn in Ho.
    repeat (destruct Ho as [Ho|Ho]; [injection Ho as <- <- <-|]); try contradiction; cbn in Hm; try discriminate.
    cbn [n_start] in Hs. assert (g = 0) by (unfold Qeq in Hs; cbn in Hs; lia). subst g. cbn in St.
    inversion St as [|tr x trs' xs Hc _]; subst. destruct Hc as (lo & hi & E1 & E2 & _). cbn in E1. discriminate.
Qed.
Print Assumptions C22_gap_refuted.

(** ** A certain guard before all initial sets have been entered

    Mode A, x in [0, 1]; at x >= 3/2 the agent goes to B, which may happen in row 1 and must in row 2; from B it goes
    on to C at once.  That is certain in the first row of the node of B, where verify stops: only those who come from
    row 1 go on.  The execution from x = 1/4 goes to B and C in row 2, with x = 9/4; the node of C has x <= 2. *)
Theorem C22_late_entry_refuted : exists ps N t modes qs h k h', one_variable tp_var [logic ps] /\ v_unfolds ps N A 0 1 t /\
  v_execution ps N A 0 1 modes qs h k /\ h <= h' < N /\ v_waits ps modes qs h h' /\
  ~ alarm t /\ ~ shows 1 t modes h' (joint qs h' tt).
Proof.
  set (ps := [to_mode A B (3 # 2) 100; to_mode B C (-(100)) 100]%Q). exists ps, 4.
  destruct (grow (logic ps) 4 5 (v_root A 0 1)) as [t|] eqn:E; [|vm_compute in E; discriminate].
  exists t, [C], [mk_phase (line C (at_row (speed B) (at_row (speed A) (1 # 4) 2) 0)) 2], 2, 2, 2.
  split; [apply one_var; intros p Hp; repeat (destruct Hp as [<-|Hp]; [reflexivity|]); destruct Hp|].
  split; [apply (grow_unfolds _ _ _ _ E)|].
  split.
  { refine (@jump_line ps 4 A 0 1 B (at_row (speed A) (1 # 4) 2) 2 2 1 2 (to_mode B C (-(100)) 100) _ _ _ _ _ _ _); [|lia|lia|intros i q a lg p Hi Hi'; lia|right; left; reflexivity|reflexivity|].
    - refine (@jump_line ps 4 A 0 1 A (1 # 4) 0 0 0 2 (to_mode A B (3 # 2) 100) (start_line _ _ _ _) _ _ _ _ _ _); [lra|lia|lia| |left; reflexivity|reflexivity|].
      + intros i q a lg p H1 H2 [Hc _] Hp [Hsrc He]. destruct a as [|[|a]]; cbn [nth_error] in Hc; [|discriminate Hc|discriminate Hc]. injection Hc as <-. destruct Hp as [<-|[<-|[]]]; [|discriminate Hsrc].
        destruct i as [|[|i]]; [| |lia]; vm_compute in He; destruct He as [[E1 E2] _]; contradiction E1; reflexivity.
      + split; [reflexivity|]. cbn. split; [|exact I]. split; vm_compute; discriminate.
    - split; [reflexivity|]. cbn. split; [|exact I]. split; vm_compute; discriminate. }
  split; [lia|]. split; [intros i q a lg p H1 H2; lia|]. vm_compute in E. injection E as <-. split.
  - intros (nd & r & asr & Ho). apply occurs_every in Ho. cbn in Ho. intuition congruence.
  - intros (nd & trs & asr & g & Ho & Hm & Hs & Hg & St). apply occurs_every in Ho. cbn in Ho.
    repeat (destruct Ho as [Ho|Ho]; [injection Ho as <- <- <-|]); try contradiction; cbn in Hm; try discriminate.
    cbn [n_start] in Hs. assert (g = 1) by (unfold Qeq in Hs; cbn in Hs; lia). subst g. cbn in St.
    inversion St as [|tr x trs' xs Hc _]; subst. destruct Hc as (lo & hi & E1 & E2 & Hb). cbn in E1, E2. injection E1 as <-. injection E2 as <-.
    cbn in Hb. destruct Hb as [[_ Hb] _]. vm_compute in Hb. contradiction Hb. reflexivity.
Qed.
Print Assumptions C22_late_entry_refuted.

(** ** Two variables

    Mode B, x in [0, 1]: the agent goes to C, and where x >= 1/2 it also sets x to 9.  Where x may be at least 1/2, verify
    considers doing both, and does not consider changing the mode alone. *)
Theorem C22_variables_refuted : exists ps N t modes qs h k h', v_unfolds ps N B 0 1 t /\
  v_execution ps N B 0 1 modes qs h k /\ h <= h' < N /\ v_waits ps modes qs h h' /\
  ~ alarm t /\ ~ shows 1 t modes h' (joint qs h' tt).
Proof.
  set (ps := [to_mode B C (-(100)) 100; {| tp_var := w "x"; tp_src := B; tp_lo := [1 # 2]; tp_hi := [100]; tp_dest := None; tp_set := Some (0%nat, 9) |}]%Q). exists ps, 4.
  destruct (grow (logic ps) 4 5 (v_root B 0 1)) as [t|] eqn:E; [|vm_compute in E; discriminate].
  exists t, [C], [mk_phase (line C (at_row (speed B) 0 0)) 0], 0, 1, 0.
  split; [apply (grow_unfolds _ _ _ _ E)|].
  split.
  { refine (@jump_line ps 4 B 0 1 B 0 0 0 0 0 (to_mode B C (-(100)) 100) (start_line _ _ _ _) _ _ _ _ _ _); [lra|lia|lia|intros i q a lg p Hi Hi'; lia|left; reflexivity|reflexivity|].
    split; [reflexivity|]. cbn. split; [|exact I]. split; vm_compute; discriminate. }
  split; [lia|]. split; [intros i q a lg p H1 H2; lia|]. vm_compute in E. injection E as <-. split.
  - intros (nd & r & asr & Ho). apply occurs_every in Ho. cbn in Ho. intuition congruence.
  - intros (nd & trs & asr & g & Ho & Hm & Hs & Hg & St). apply occurs_every in Ho. cbn in Ho.
    repeat (destruct Ho as [Ho|Ho]; [injection Ho as <- <- <-|]); try contradiction; cbn in Hm; try discriminate.
    cbn [n_start] in Hs. assert (g = 0) by (unfold Qeq in Hs; cbn in Hs; lia). subst g. cbn in St.
    inversion St as [|tr x trs' xs Hc _]; subst. destruct Hc as (lo & hi & E1 & E2 & Hb). cbn in E1, E2. injection E1 as <-. injection E2 as <-.
    cbn in Hb. destruct Hb as [[Hb _] _]. vm_compute in Hb. contradiction Hb. reflexivity.
Qed.
Print Assumptions C22_variables_refuted.

(** * A scenario that meets the conditions

    Mode A, x in [0, 1]; at x >= 2 the agent goes to B and stands still.  It may go in row 1 and must in row 2.  The
    execution from x = 1 goes to B in row 1: its state in row 2 is found in the tree. *)
Module Example_cover.
  Definition ps := [to_mode A B 2 100].
  Definition v_regular t := regular tp_var [logic ps] vtubes t_disc t_hyb t_cont t_certain t_reset no_map (inject_Z 3) t.
  Lemma leaves_A modes trs i bs0 bs : modes = [A] -> box_at trs 0 = Some bs0 -> box_at trs i = Some bs -> fst (t_cont modes bs 0 (to_mode A B 2 100)) = true ->
    may_leave [logic ps] t_disc t_hyb t_cont modes trs i.
  Proof. intros -> E0 E1 H. exists bs0, bs, 0, (logic ps), (to_mode A B 2 100). repeat split; try assumption. left. reflexivity. Qed.
  Lemma stays_B trs i : ~ may_leave [logic ps] t_disc t_hyb t_cont [B] trs i.
  Proof.
    intros (bs0 & bs & a & lg & p & _ & _ & [Ea _] & Hp & Hd & _). destruct a as [|[|a]]; cbn [nth_error] in Ea; [|discriminate Ea|discriminate Ea].
    injection Ea as <-. destruct Hp as [<-|[]]. vm_compute in Hd. discriminate.
  Qed.
  Example tree_regular : exists t, v_unfolds ps 3 A 0 1 t /\ v_regular t /\ ~ alarm t.
  Proof.
    destruct (grow (logic ps) 3 5 (v_root A 0 1)) as [t|] eqn:E; [|vm_compute in E; discriminate].
    exists t. split; [apply (grow_unfolds _ _ _ _ E)|]. vm_compute in E. injection E as <-. split.
    - intros nd r asr trs Ho Ef. apply occurs_every in Ho. cbn in Ho.
      destruct Ho as [Ho|[Ho|[]]]; injection Ho as <- <- <-; vm_compute in Ef; injection Ef as <-; (split; [|split]).
      + intros i j Hij Hj _. left. specialize (Hj _ (or_introl eq_refl)). cbn [length] in Hj.
        destruct j as [|[|[|j]]]; [lia| | |lia]; (eapply leaves_A; [reflexivity|vm_compute; reflexivity|vm_compute; reflexivity|vm_compute; reflexivity]).
      + intros i inits _ [<-|[]]. cbn [length]. lia.
      + intros ts Es. vm_compute in Es. injection Es as <-. intros t [<-|[]]. exists 1. reflexivity.
      + intros i j _ _ H. destruct (stays_B H).
      + intros i inits (bs0 & bs & a & lg & p & _ & _ & [Ea _] & Hp & Hd & _). destruct a as [|[|a]]; cbn [nth_error] in Ea; [|discriminate Ea|discriminate Ea].
        injection Ea as <-. destruct Hp as [<-|[]]. vm_compute in Hd. discriminate.
      + intros ts Es. vm_compute in Es. injection Es as <-. intros t [].
    - intros (nd & r & asr & Ho). apply occurs_every in Ho. cbn in Ho. intuition congruence.
  Qed.
  Example shown t : v_unfolds ps 3 A 0 1 t -> v_regular t -> ~ alarm t -> shows 1 t [B] 2 [[at_row 0 2 1]].
  Proof.
    intros U Hr Ha.
    destruct (@C22_covered_partial _ _ tp_var [logic ps] one vtubes t_disc t_hyb t_cont t_certain t_reset no_map unit vtraj t_enabled t_resets 1 (inject_Z 3) 3 10 None
      [A] [([0], [1])]%Q t) with (modes := [B]) (ps := [mk_phase (line B (at_row 1 1 1)) 1]) (h := 1) (k := 1) (h' := 2) (q := tt) as [H|H];
      try (destruct (C22_scenarios_sound ps 3) as (H1 & H2 & H3 & H4 & H5); assumption).
    - apply one_var. intros p [<-|[]]. reflexivity.
    - lia.
    - discriminate.
    - reflexivity.
    - reflexivity.
    - intros a b Eb. destruct a as [|[|a]]; cbn in Eb; try discriminate. injection Eb as <-. split; reflexivity.
    - refine (@jump_line ps 3 A 0 1 A 1 0 0 0 1 (to_mode A B 2 100) (start_line _ _ _ _) _ _ _ _ _ _); [lra|lia|lia| |left; reflexivity|reflexivity|].
      + intros i q a lg p H1 H2 [Hc _] Hp [Hsrc He]. destruct a as [|[|a]]; cbn [nth_error] in Hc; [|discriminate Hc|discriminate Hc]. injection Hc as <-. destruct Hp as [<-|[]].
        destruct i as [|i]; [|lia]. vm_compute in He. destruct He as [[E1 E2] _]. contradiction E1; reflexivity.
      + split; [reflexivity|]. cbn. split; [|exact I]. split; vm_compute; discriminate.
    - discriminate.
    - lia.
    - lia.
    - intros i q a lg p H1 H2 [Hc _] Hp [Hsrc He]. destruct a as [|[|a]]; cbn [nth_error] in Hc; [|discriminate Hc|discriminate Hc]. injection Hc as <-. destruct Hp as [<-|[]]. discriminate Hsrc.
    - contradiction.
  Qed.
End Example_cover.
