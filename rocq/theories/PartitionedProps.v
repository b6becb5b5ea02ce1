(** Partitioned verification: property C25.

    [pstep unsafe n dims nd remain] is what [Verifier.compute_full_reachtube_step_partitioned] makes of a node,
    splitting hitting sets [n]-fold in the dimensions [dims]. *)
From Coq Require Import Ascii String.
From Verif Require Import Base BaseFacts Dict PyText Boxes BoxesSpec Overlay OverlaySpec Scan ScanSpec ScanProofs TransProofs ScanMain Round Step StepSpec StepProofs.
From Verif Require Import Toy Partitioned PartitionedSpec PartitionedProofs.
From Coq Require Import Lqa.
Set Implicit Arguments.
Open Scope nat_scope.

Section Props.
  Variables path cond : Type.
  Variable pvar : path -> word.
  Variable agents : list (dlogic path cond).
  Variable part_tube : nat -> mode -> vec * vec -> Q -> option (list vec).
  Variable g_disc : list mode -> list (vec * vec) -> nat -> path -> bool.
  Variable g_hyb : list mode -> list (vec * vec) -> nat -> path -> bool.
  Variable g_cont : list mode -> list (vec * vec) -> nat -> path -> bool * bool.
  Variable g_certain : list mode -> list (vec * vec) -> nat -> cond -> bool.
  Variable g_reset : list mode -> list (vec * vec) -> nat -> list path -> option (list mode * (vec * vec)).
  Variable maph : option word -> option mode -> option mode -> option word.
  Variable p_reset : list mode -> list mode -> list (vec * vec) -> nat -> list path -> option (list mode * (vec * vec)).
  Variable digits : nat.

  Notation search := (search pvar agents g_disc g_hyb g_cont g_certain g_reset maph).
  Notation pfill := (pfill agents part_tube).
  Notation pstep := (pstep pvar agents part_tube g_disc g_hyb g_cont g_certain g_reset maph p_reset digits).

  (** [image modes future a ps s x]: agent [a], taking the paths [ps] in the joint state [s], ends up in [x]. *)
  Variable image : list mode -> list mode -> nat -> list path -> list vec -> vec -> Prop.

  (** The initial sets of the transiting agent in the child contain the reset image of the tubes at index [i]. *)
  Definition contains_image (nd : node) (trs : list (list vec)) (t : transition path (vec * vec)) (c : node) (i : nat) : Prop :=
    forall d s x, t_dest t = Some d -> state_at trs i s ->
      image (n_mode nd) (moved (n_mode nd) t d) (t_agent t) (t_paths t) s x ->
      exists inits, nth_error (n_init c) (t_agent t) = Some inits /\ starts_from inits x.

  (** C25, for the first index at which the transition can fire: one child per transition, in order, built like
      those of [verify] except that the agent starts from the reset images of the pieces of its hitting set; those
      contain the reset image of the tubes at that index, under the paths recorded with the transition.  Missing:
      the later indices ([C25_later_indices_refuted]) and other path combinations with the same destination
      ([C25_other_paths_refuted]). *)
  Theorem C25_first_index_partial unsafe n dims nd remain trs ts r :
    reset_covers image p_reset -> 1 <= n -> (forall tr row, In tr trs -> In row tr -> valid_dims (length row) dims) ->
    node_ok (length agents) nd -> rectangular trs -> timed trs ->
    pfill nd remain = Some trs -> search trs (n_mode nd) = Some (inr ts) -> pstep unsafe n dims nd remain = Some r ->
    r_asserts r = None /\
    Forall2 (fun t c => (exists inits, is_child digits nd trs (with_inits t inits) c) /\
                        forall i0, nth_error (t_idx t) 0 = Some i0 -> contains_image nd trs t c i0) ts (r_child r).
  Proof.
    intros HC Hn Hdims (_ & _ & Hm) HR HT EF ES Er. unfold Partitioned.pstep in Er. rewrite EF in Er. cbn [obind] in Er. rewrite ES in Er. cbn [obind] in Er.
    destruct (mapM _ ts) as [cs|] eqn:Ec; [|discriminate]. injection Er as <-. split; [reflexivity|]. cbn [r_child].
    assert (HL : length trs = length agents). { unfold Partitioned.pfill in EF. apply mapM_length in EF. rewrite seq_length in EF. exact EF. }
    pose proof (search_shape _ _ _ _ _ _ _ _ _ _ ES) as HS.
    assert (Hsrc : forall t, In t ts -> t_src t = nth (t_agent t) (n_mode nd) []).
    { intros t Ht. destruct (search_inv _ _ _ _ _ _ _ _ _ _ ES) as (l & bs & El & Eb & EG). destruct (gt_transitions _ _ _ _ _ _ _ _ _ _ EG) as (n' & g & _ & _ & _ & Hc & HT').
      edestruct transitions_shape as (A & _); [exact Hc|exact HT'|exact Ht|exact A]. }
    apply mapM_Forall2 in Ec. clear ES. induction Ec as [|t c ts cs E Ec IH]; constructor.
    - destruct (HS t (or_introl eq_refl)) as (A & (d & Ed) & Hne & _ & _ & HI). unfold Partitioned.pchild in E.
      destruct (pinits p_reset nd trs n dims t) as [inits|] eqn:EP; [|discriminate]. cbn [obind] in E.
      destruct (t_idx t) as [|i0 idx] eqn:Ei; [congruence|].
      assert (Hlen : forall tr, In tr trs -> 2 * i0 + 1 < length tr) by (intros tr Htr; apply HI; cbn; auto).
      destruct (@child_spec path digits nd trs (with_inits t inits) i0) as (c' & Ec' & Hc'); cbn [with_inits t_agent t_dest t_idx]; try (rewrite ?Ei; reflexivity); try assumption; try lia; [eauto|].
      rewrite Ec' in E. cbn [obind] in E. injection E as ->. split; [eauto|]. intros i1 [= <-].
      intros d' s x Ed' Hs Hx. exists inits. split.
      + destruct Hc' as (_ & _ & _ & _ & _ & _ & _ & _ & _ & _ & _ & _ & H & _). exact H.
      + assert (Hat : t_agent t < length trs) by lia. destruct (nth_error trs (t_agent t)) as [tr0|] eqn:Etr; [|apply nth_error_None in Etr; lia].
        eapply pinits_cover with (i0 := i0) (tr0 := tr0) (n := n) (dims := dims); try eassumption; try (rewrite Ei; reflexivity); [apply Hsrc; left; reflexivity|lia|].
        intros row Hrow. eapply Hdims; [eapply nth_error_In; exact Etr|exact Hrow].
    - apply IH; [intros; apply HS; cbn; auto|intros; apply Hsrc; cbn; auto].
  Qed.

  (** C25, when the transition fires at one index only: the property as stated. *)
  Theorem C25_single_index_partial unsafe n dims nd remain trs ts r :
    reset_covers image p_reset -> 1 <= n -> (forall tr row, In tr trs -> In row tr -> valid_dims (length row) dims) ->
    node_ok (length agents) nd -> rectangular trs -> timed trs ->
    pfill nd remain = Some trs -> search trs (n_mode nd) = Some (inr ts) -> pstep unsafe n dims nd remain = Some r ->
    Forall2 (fun t c => (forall i j, In i (t_idx t) -> In j (t_idx t) -> i = j) ->
                        forall i, In i (t_idx t) -> contains_image nd trs t c i) ts (r_child r).
  Proof.
    intros A B C D E F G H I. destruct (@C25_first_index_partial unsafe n dims nd remain trs ts r A B C D E F G H I) as [_ HF].
    clear - HF. induction HF as [|t c ts cs [_ Hc] HF IH]; constructor; [|exact IH]. intros Hone i Hi.
    destruct (t_idx t) as [|i0 idx]; [destruct Hi|]. rewrite (Hone i i0 Hi (or_introl eq_refl)). apply Hc. reflexivity.
  Qed.

  (** C25, the tubes: an agent with several initial sets gets a tube that covers the trajectories from each of them. *)
  Theorem C25_tubes (N : nat) (dim : nat -> nat) (flow : nat -> mode -> vec -> nat -> vec -> Prop) nd remain trs a m inits b s j s' :
    (forall b' tb, part_tube a m b' remain = Some tb -> tube_shape N (dim a) tb /\ sound_tube N (flow a m) tb b') ->
    pfill nd remain = Some trs -> a < length agents ->
    nth_error (n_trace nd) a = Some None -> nth_error (n_mode nd) a = Some m -> nth_error (n_init nd) a = Some inits ->
    In b inits -> in_box (fst b) (snd b) s -> flow a m s j s' -> j < N ->
    exists tr, nth_error trs a = Some tr /\ covers tr j s'.
  Proof.
    intros HP EF Ha Et Em Ei Hb Hs Hf Hj. unfold Partitioned.pfill in EF. apply mapM_Forall2 in EF.
    destruct (Forall2_nth_l a EF (nth_error_seq 0 Ha)) as (tr & Etr & E). exists tr. split; [exact Etr|]. cbn [Nat.add] in E.
    rewrite Et in E. cbn [obind] in E. rewrite Em in E. cbn [obind] in E. rewrite Ei in E. cbn [obind] in E.
    assert (G : exists u, (match inits with [b] => part_tube a m b remain | _ => do ts <- mapM (fun b => part_tube a m b remain) inits; union_traces ts end) = Some u /\ covers u j s').
    { destruct (match inits with [b] => part_tube a m b remain | _ => do ts <- mapM (fun b => part_tube a m b remain) inits; union_traces ts end) as [u|] eqn:Eu; [|discriminate].
      exists u. split; [reflexivity|].
      assert (U : forall ts, mapM (fun b => part_tube a m b remain) inits = Some ts -> union_traces ts = Some u -> covers u j s').
      { intros ts E1 E2. apply mapM_Forall2 in E1. destruct (Forall2_In_l _ E1 Hb) as (tb & Htb & Etb).
        destruct (@union_covers N (dim a) ts u) as [_ HU]; [intros ->; destruct Htb| |exact E2|].
        - intros t Ht. destruct (Forall2_In_r _ E1 Ht) as (b' & _ & Eb'). exact (proj1 (HP _ _ Eb')).
        - apply (HU tb j s' Htb). exact (proj2 (HP _ _ Etb) _ _ _ Hs Hf Hj). }
      destruct inits as [|b1 [|b2 rest]]; [destruct Hb| |].
      - destruct Hb as [->|[]]. exact (proj2 (HP _ _ Eu) _ _ _ Hs Hf Hj).
      - destruct (mapM (fun b => part_tube a m b remain) (b1 :: b2 :: rest)) as [ts|]; [|discriminate]. cbn [obind] in Eu. exact (U ts eq_refl Eu). }
    destruct G as (u & Eu & Hu). rewrite Eu in E. cbn [obind] in E. destruct u as [|row u]; [discriminate|]. injection E as <-.
    destruct Hu as (lo & hi & E1 & E2 & HB). exists (shift_row (n_start nd) lo), (shift_row (n_start nd) hi).
    change (shift_row (n_start nd) row :: map (shift_row (n_start nd)) u) with (map (shift_row (n_start nd)) (row :: u)).
    rewrite !nth_error_map, E1, E2. split; [reflexivity|]. split; [reflexivity|]. destruct lo, hi; exact HB.
  Qed.

  (** C25, the tubes of the finished node: cut right behind the last hit row, not at all without transitions. *)
  Theorem C25_cut unsafe n dims nd remain trs ts r :
    pfill nd remain = Some trs -> search trs (n_mode nd) = Some (inr ts) -> pstep unsafe n dims nd remain = Some r ->
    (ts = [] -> r_trace r = trs) /\
    (ts <> [] -> exists m, (exists t, In t ts /\ In m (t_idx t)) /\ (forall t i, In t ts -> In i (t_idx t) -> i <= m) /\
                           Forall2 (prefix_of (2 * (m + 1))) trs (r_trace r)).
  Proof.
    intros EF ES Er. unfold Partitioned.pstep in Er. rewrite EF in Er. cbn [obind] in Er. rewrite ES in Er. cbn [obind] in Er.
    destruct (mapM _ ts) as [cs|] eqn:Ec; [|discriminate]. injection Er as <-. cbn [r_trace]. split; [intros ->; reflexivity|].
    intros Hne. pose proof (search_shape _ _ _ _ _ _ _ _ _ _ ES) as HS.
    destruct (@max_end_spec path ts) as [M1 M2]; [intros t Ht; destruct (HS t Ht) as (_ & _ & A & _ & B & _); auto|].
    exists (max_end ts). destruct (M2 Hne) as (t & Ht & Hi). split; [exists t; auto|]. split; [exact M1|].
    destruct ts as [|t0 ts0] eqn:Ets; [congruence|]. rewrite <- Ets in *.
    replace (2 * (max_end ts + 1)) with ((max_end ts + 1) * 2) by lia. apply cut_prefix. intros tr Htr.
    destruct (HS t Ht) as (_ & _ & _ & _ & _ & HT). specialize (HT _ _ Hi Htr). lia.
  Qed.

  (** C25, reported assertions: no children, and the tubes end with the step of the violation. *)
  Theorem C25_assertion n dims nd remain trs asr i :
    pfill nd remain = Some trs -> search trs (n_mode nd) = Some (inl (asr, i)) ->
    exists r, pstep false n dims nd remain = Some r /\ r_asserts r = Some asr /\ r_child r = [] /\
      Forall2 (prefix_of (2 * (i + 1))) trs (r_trace r).
  Proof.
    intros EF ES. unfold Partitioned.pstep. rewrite EF. cbn [obind]. rewrite ES. cbn [obind].
    eexists. split; [reflexivity|]. cbn [r_asserts r_child r_trace]. split; [reflexivity|]. split; [reflexivity|].
    replace (2 * (i + 1)) with ((i + 1) * 2) by lia. apply cut_prefix. intros tr Htr.
    destruct (search_inv _ _ _ _ _ _ _ _ _ _ ES) as (l & bs & El & Eb & EG).
    destruct (gt_violation _ _ _ _ _ _ _ _ _ _ EG) as (Hi & _). pose proof (min_len_le _ _ El Htr). pose proof (Nat.mul_div_le l 2). lia.
  Qed.

  (** C26 for partitioned verification: with [unsafe_continue] a violated assertion does not fail the step, but
      nothing is explored behind it either: the node gets no child. *)
  Theorem C26_partitioned_no_children n dims nd remain trs asr i :
    pfill nd remain = Some trs -> search trs (n_mode nd) = Some (inl (asr, i)) ->
    exists r, pstep true n dims nd remain = Some r /\ r_asserts r = Some asr /\ r_child r = [] /\ r_trace r = trs.
  Proof. intros EF ES. unfold Partitioned.pstep. rewrite EF. cbn [obind]. rewrite ES. eexists. split; [reflexivity|]. repeat split. Qed.
End Props.
Print Assumptions C25_first_index_partial.
Print Assumptions C25_single_index_partial.
Print Assumptions C25_tubes.
Print Assumptions C25_cut.
Print Assumptions C25_assertion.
Print Assumptions C26_partitioned_no_children.

(** * Concrete scenarios *)
Definition p_toy_reset (modes future : list mode) (bs : list (vec * vec)) (a : nat) (ps : list tpath) : option (list mode * (vec * vec)) := t_reset modes bs a ps.
Definition t_assign (s : vec) (p : tpath) : vec := match tp_set p with Some (k, v) => set_nth k v s | None => s end.
Definition t_image (modes future : list mode) (a : nat) (ps : list tpath) (s : list vec) (x : vec) : Prop :=
  a < length s /\ x = fold_left t_assign ps (nth a s []).

Lemma in_box_set lo hi x k v : in_box lo hi x -> in_box (set_nth k v lo) (set_nth k v hi) (set_nth k v x).
Proof.
  revert hi x k. induction lo as [|l lo IH]; intros [|h hi] [|y x] [|k]; cbn; try tauto; intros [A B]; split; auto. split; lra.
Qed.

(** The resets of these scenarios cover their image. *)
Example ex_reset_covers : reset_covers t_image p_toy_reset.
Proof.
  intros modes future bs a ps ds r s x E Hs [Ha ->]. unfold p_toy_reset, t_reset in E. injection E as <- <-.
  pose proof (in_joint_own' a Hs) as H. revert H. generalize (own bs a). generalize (nth a s []). clear.
  induction ps as [|p ps IH]; intros x b H; cbn [fold_left]; [exact H|]. apply IH. unfold t_apply, t_assign. destruct (tp_set p) as [[k v]|]; [|exact H].
  apply in_box_set. exact H.
Qed.

Section Scenario.
  Variable lg : dlogic tpath (vec * vec).
  Variable part_tube : nat -> mode -> vec * vec -> Q -> option (list vec).
  Definition toy_psearch := search tp_var [lg] t_disc t_hyb t_cont t_certain t_reset (fun _ _ _ => None).
  Definition toy_pstep := pstep tp_var [lg] part_tube t_disc t_hyb t_cont t_certain t_reset (fun _ _ _ => None) p_toy_reset 10.
  Definition toy_pfill := pfill [lg] part_tube.
End Scenario.
Definition pstart (m : mode) (b : vec * vec) : node :=
  {| n_trace := [None]; n_init := [[b]]; n_mode := [m]; n_start := 0%Q; n_height := 0 |}.

(** An agent that moves right, one unit per step, and may leave for B between 2 and 5. *)
Definition rider : dlogic tpath (vec * vec) :=
  {| has_args := true; d_types := []; d_asserts := [];
     d_paths := [{| tp_var := w "mode"; tp_src := [w "A"]; tp_lo := [2]%Q; tp_hi := [5]%Q; tp_dest := Some [w "B"]; tp_set := None |}] |}.
Definition ride (n : nat) (a : nat) (m : mode) (b : vec * vec) (remain : Q) : option (list vec) :=
  Some (flat_map (fun k => let q := inject_Z (Z.of_nat k) in [q :: map (Qplus q) (fst b); (q + 1) :: map (Qplus (q + 1)) (snd b)]%Q) (seq 0 n)).

(** ** C25 is false for the later indices

    The tube is [0,1], [1,2], [2,3], ...: the transition may fire from step 1 on.  The child starts from the two
    halves of [1,2] only, so the state 3, at which the agent may leave in step 2, is in none of them. *)
Theorem C25_later_indices_refuted :
  exists lg nd trs ts t c i r x,
    node_ok 1 nd /\ rectangular trs /\ timed trs /\
    toy_pfill lg (ride 6) nd 6 = Some trs /\ toy_psearch lg trs (n_mode nd) = Some (inr ts) /\
    toy_pstep lg (ride 6) false 2 None nd 6 = Some r /\ ts = [t] /\ r_child r = [c] /\
    (** the transition can fire at index [i], in the state [x], whose reset image is [x] *)
    In i (t_idx t) /\ state_at trs i [x] /\ (forall p, In p (t_paths t) -> t_enabled (n_mode nd) 0 p [x]) /\
    t_image (n_mode nd) (n_mode nd) 0 (t_paths t) [x] x /\
    exists inits, nth_error (n_init c) 0 = Some inits /\ ~ starts_from inits x.
Proof.
  exists rider, (pstart [w "A"] ([0], [0])%Q). eexists. eexists. eexists. eexists. exists 2. eexists. exists [3]%Q.
  split; [repeat split; reflexivity|].
  match goal with |- ?A /\ ?B /\ ?C /\ ?D => assert (H : C /\ D); [|destruct H as [H1 H2]; split; [|split; [|split; [exact H1|exact H2]]]] end.
  { split; [vm_compute; reflexivity|]. split; [vm_compute; reflexivity|]. split; [vm_compute; reflexivity|]. split; [reflexivity|]. split; [reflexivity|].
    split; [cbn; auto|].
    split. { constructor; [|constructor]. eexists _, _. split; [reflexivity|]. split; [reflexivity|]. cbn. split; [split; discriminate|exact I]. }
    split. { intros p [<-|[]]. split; [reflexivity|]. cbn. split; [split; discriminate|exact I]. }
    split; [split; [cbn; lia|reflexivity]|]. eexists. split; [reflexivity|].
    intros (b & Hb & HI). cbn in Hb. destruct Hb as [<-|[<-|[]]]; cbn in HI; destruct HI as [[_ HI] _]; vm_compute in HI; exact (HI eq_refl). }
  - intros tr [<-|[]]. exists 1. intros row Hr. cbn in Hr. intuition; subst; reflexivity.
  - intros tr k lo hi [<-|[]] E1 E2. do 6 (destruct k as [|k]; [cbn in E1, E2; injection E1 as <-; injection E2 as <-; vm_compute; discriminate|]).
    replace (2 * S (S (S (S (S (S k)))))) with (12 + 2 * k) in E1 by lia. destruct k; discriminate E1.
Qed.
Print Assumptions C25_later_indices_refuted.

(** ** C25 is false for other path combinations with the same destination

    Leaving for B, the agent also resets x to 0 (below 5) or to 10 (above).  The hits are merged into one transition,
    which records the paths of one of them only. *)
Definition psplitter : dlogic tpath (vec * vec) :=
  {| has_args := true; d_types := []; d_asserts := [];
     d_paths := [{| tp_var := w "mode"; tp_src := [w "A"]; tp_lo := [0]%Q; tp_hi := [9]%Q; tp_dest := Some [w "B"]; tp_set := None |};
                 {| tp_var := w "x"; tp_src := [w "A"]; tp_lo := [0]%Q; tp_hi := [5]%Q; tp_dest := None; tp_set := Some (0, 0%Q) |};
                 {| tp_var := w "x"; tp_src := [w "A"]; tp_lo := [5]%Q; tp_hi := [9]%Q; tp_dest := None; tp_set := Some (0, 10%Q) |}] |}.
Definition hd_path (lg : dlogic tpath (vec * vec)) : tpath := nth 0 (d_paths lg) {| tp_var := []; tp_src := []; tp_lo := []; tp_hi := []; tp_dest := None; tp_set := None |}.
Definition stay (n : nat) (a : nat) (m : mode) (b : vec * vec) (remain : Q) : option (list vec) := Some (still_engine n b).

Theorem C25_other_paths_refuted :
  exists lg nd trs ts t c r ps x,
    toy_pfill lg (stay 3) nd 3 = Some trs /\ toy_psearch lg trs (n_mode nd) = Some (inr ts) /\
    toy_pstep lg (stay 3) false 2 None nd 3 = Some r /\ ts = [t] /\ r_child r = [c] /\
    (** two paths of the agent are enabled in the state [x] of the first hit row; together they lead to the destination
        of the transition *)
    nth_error (t_idx t) 0 = Some 0 /\ state_at trs 0 [x] /\
    (forall p, In p ps -> In p (d_paths lg) /\ t_enabled (n_mode nd) 0 p [x]) /\
    (exists m b, t_dest t = Some m /\ t_reset (n_mode nd) [(x, x)] 0 ps = Some ([m], b)) /\
    (** but what they do to the state is not in the child *)
    exists y, t_image (n_mode nd) (n_mode nd) 0 ps [x] y /\
      forall inits, nth_error (n_init c) 0 = Some inits -> ~ starts_from inits y.
Proof.
  exists psplitter, (pstart [w "A"] ([4], [6])%Q). eexists. eexists. eexists. eexists. eexists.
  exists [nth 0 (d_paths psplitter) (hd_path psplitter); nth 2 (d_paths psplitter) (hd_path psplitter)], [6]%Q.
  split; [vm_compute; reflexivity|]. split; [vm_compute; reflexivity|]. split; [vm_compute; reflexivity|]. split; [reflexivity|]. split; [reflexivity|].
  cbn [t_idx t_dest n_mode n_init]. split; [reflexivity|].
  split. { constructor; [|constructor]. eexists _, _. split; [reflexivity|]. split; [reflexivity|]. cbn. split; [split; discriminate|exact I]. }
  split. { intros p [<-|[<-|[]]]; (split; [cbn; auto|]); split; try reflexivity; cbn; (split; [split; discriminate|exact I]). }
  split. { eexists _, _. split; [reflexivity|]. vm_compute. reflexivity. }
  exists [10]%Q. split; [split; [cbn; lia|reflexivity]|].
  intros inits [= <-] (b & Hb & HI). destruct Hb as [<-|[<-|[]]]; cbn in HI; destruct HI as [[_ HI] _]; vm_compute in HI; exact (HI eq_refl).
Qed.
Print Assumptions C25_other_paths_refuted.

(** A node that meets the hypotheses of [C25_first_index_partial] and [C25_single_index_partial]: the agent may leave
    from step 2 on, where its tube is [2,3]; the child starts from the two halves. *)
Definition leaver2 : dlogic tpath (vec * vec) :=
  {| has_args := true; d_types := []; d_asserts := [];
     d_paths := [{| tp_var := w "mode"; tp_src := [w "A"]; tp_lo := [5 # 2]%Q; tp_hi := [9]%Q; tp_dest := Some [w "B"]; tp_set := None |}] |}.
Definition widen (n : nat) (a : nat) (m : mode) (b : vec * vec) (remain : Q) : option (list vec) :=
  Some (flat_map (fun k => let q := inject_Z (Z.of_nat k) in [q :: map (Qplus q) (fst b); (q + 1) :: map (Qplus q) (snd b)]%Q) (seq 0 n)).
Example ex_first_index : exists trs t r c,
  toy_pfill leaver2 (widen 6) (pstart [w "A"] ([0], [1])%Q) 6 = Some trs /\ rectangular trs /\ timed trs /\
  (forall tr row, In tr trs -> In row tr -> valid_dims (length row) None) /\ toy_psearch leaver2 trs [[w "A"]] = Some (inr [t]) /\ toy_pstep leaver2 (widen 6) false 2 None (pstart [w "A"] ([0], [1])%Q) 6 = Some r /\ t_idx t = [2; 3] /\ r_child r = [c] /\ n_mode c = [[w "B"]] /\ exists a1 b1 a2 b2, n_init c = [[([a1], [b1]); ([a2], [b2])]] /\ (a1 == 2 /\ b1 == 5 # 2 /\ a2 == 5 # 2 /\ b2 == 3)%Q.
Proof.
  eexists _, _, _, _. split; [vm_compute; reflexivity|].
  split. { intros tr [<-|[]]. exists 1. intros row Hr. cbn in Hr. intuition; subst; reflexivity. }
  split. { intros tr k lo hi [<-|[]] E1 E2. do 6 (destruct k as [|k]; [cbn in E1, E2; injection E1 as <-; injection E2 as <-; vm_compute; discriminate|]).
    replace (2 * S (S (S (S (S (S k)))))) with (12 + 2 * k) in E1 by lia. destruct k; discriminate E1. }
  split. { intros tr row _ _ ds E. discriminate. }
  split; [vm_compute; reflexivity|]. split; [vm_compute; reflexivity|]. split; [reflexivity|]. split; [reflexivity|]. split; [reflexivity|].
  eexists _, _, _, _. split; [reflexivity|]. repeat split; reflexivity.
Qed.

(** An agent that is certain to leave in the first step: one index. *)
Definition leaver1 : dlogic tpath (vec * vec) :=
  {| has_args := true; d_types := []; d_asserts := [];
     d_paths := [{| tp_var := w "mode"; tp_src := [w "A"]; tp_lo := [2]%Q; tp_hi := [9]%Q; tp_dest := Some [w "B"]; tp_set := None |}] |}.
Example ex_single_index : exists trs t, toy_pfill leaver1 (widen 6) (pstart [w "A"] ([2], [3])%Q) 6 = Some trs /\
  toy_psearch leaver1 trs [[w "A"]] = Some (inr [t]) /\ t_idx t = [0].
Proof. eexists _, _. split; [vm_compute; reflexivity|]. split; vm_compute; reflexivity. Qed.

(** Two initial sets: the tube is the union of their tubes. *)
Example ex_C25_tubes : exists tr, toy_pfill leaver1 (stay 2) {| n_trace := [None]; n_init := [[([0], [1]); ([3], [4])]]; n_mode := [[w "A"]]; n_start := 0; n_height := 0 |}%Q 2 = Some [tr] /\
  covers tr 1 [1 # 2]%Q /\ covers tr 1 [7 # 2]%Q.
Proof.
  eexists. split; [vm_compute; reflexivity|]. split; eexists _, _; (split; [reflexivity|split; [reflexivity|cbn; split; [split; discriminate|exact I]]]).
Qed.

(** A violated assertion under [unsafe_continue]. *)
Definition pwatcher : dlogic tpath (vec * vec) :=
  {| has_args := true; d_types := []; d_paths := []; d_asserts := [(w "safe", ([-(100)], [100]), ([-(100)], [1]))%Q] |}.
Example ex_C26_partitioned : exists trs asr, toy_pfill pwatcher (ride 4) (pstart [w "A"] ([0], [0])%Q) 4 = Some trs /\ toy_psearch pwatcher trs [[w "A"]] = Some (inl (asr, 1)).
Proof. eexists _, _. split; vm_compute; reflexivity. Qed.
