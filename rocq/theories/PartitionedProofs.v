(** Proofs about partitioned verification. *)
From Coq Require Import Ascii String.
From Verif Require Import Base BaseFacts Dict PyText Boxes BoxesSpec BoxesProofs BoxesProps Overlay OverlaySpec Scan ScanSpec ScanMain Round Step StepSpec StepProofs.
From Verif Require Import ResetProofs ScanProofs Partitioned PartitionedSpec.
From Coq Require Import Lqa.
Set Implicit Arguments.
Open Scope nat_scope.

Lemma in_box_tl p q x s : in_box p q (x :: s) -> in_box (tl p) (tl q) s.
Proof. destruct p, q; cbn; tauto. Qed.

Lemma in_box_valid lo hi x : in_box lo hi x -> valid_rect lo hi.
Proof.
  intros H. assert (L : length hi = length lo).
  { revert hi x H. induction lo as [|l lo IH]; intros [|h hi] [|y x]; cbn; try tauto. intros [_ H]. f_equal. eauto. }
  split; [exact L|]. intros i Hi. revert hi x i H L Hi. induction lo as [|l lo IH]; intros [|h hi] [|y x] i; cbn; try tauto; try lia.
  intros [[A B] C] L Hi. destruct i; [lra|]. eapply IH; eauto; lia.
Qed.

Lemma in_joint_set bs s a b x : in_joint bs s -> nth_error s a = Some x -> in_box (fst b) (snd b) x -> in_joint (set_nth a b bs) s.
Proof.
  unfold in_joint. intros H. revert a. induction H as [|b0 x0 bs s H0 HF IH]; intros [|a] E Hb; cbn in *; try discriminate.
  - injection E as ->. constructor; assumption.
  - constructor; [exact H0|]. apply IH; assumption.
Qed.

Lemma set_nth_moved (modes : list mode) a d : 
  set_nth a d modes = map (fun k => if k =? a then d else nth k modes []) (seq 0 (length modes)).
Proof.
  revert a. induction modes as [|m modes IH]; intros a; [destruct a; reflexivity|]. cbn [length seq map]. destruct a as [|a]; cbn [set_nth Nat.eqb nth].
  - f_equal. rewrite <- seq_shift, map_map. cbn [Nat.eqb nth]. clear. induction modes as [|m modes IH]; [reflexivity|]. cbn [length seq map nth]. f_equal. rewrite <- seq_shift, map_map. exact IH.
  - f_equal. rewrite <- seq_shift, map_map. cbn [Nat.eqb nth]. apply IH.
Qed.

Lemma set_nth_id {A} (l : list A) a d : nth_error l a = Some d -> set_nth a d l = l.
Proof. revert a. induction l as [|x l IH]; intros [|a] E; cbn in *; try discriminate; [congruence|]. f_equal. auto. Qed.

Section Inits.
  Variable path : Type.
  Variable p_reset : list mode -> list mode -> list box -> nat -> list path -> option (list mode * box).
  Variable image : list mode -> list mode -> nat -> list path -> list vec -> vec -> Prop.
  Hypothesis covers_image : reset_covers image p_reset.

  Lemma future_moved (nd : node) (t : transition path box) d : t_src t = nth (t_agent t) (n_mode nd) [] -> t_agent t < length (n_mode nd) ->
    (if mode_eqb (t_src t) d then n_mode nd else set_nth (t_agent t) d (n_mode nd)) = moved (n_mode nd) t d.
  Proof.
    intros Hs Ha. unfold moved. rewrite <- set_nth_moved. destruct (mode_eqb (t_src t) d) eqn:E; [|reflexivity].
    apply (proj1 (list_eqb_eq word_eqb word_eqb_eq _ _)) in E.
    symmetry. apply set_nth_id. rewrite (nth_error_nth' _ [] Ha). congruence.
  Qed.

  Lemma pinits_cover nd trs n dims (t : transition path box) inits i0 d s x tr0 :
    rectangular trs -> timed trs -> (forall tr, In tr trs -> 2 * i0 + 1 < length tr) ->
    t_src t = nth (t_agent t) (n_mode nd) [] -> t_agent t < length (n_mode nd) ->
    nth_error trs (t_agent t) = Some tr0 -> (forall row, In row tr0 -> valid_dims (length row) dims) -> 1 <= n ->
    nth_error (t_idx t) 0 = Some i0 -> t_dest t = Some d ->
    pinits p_reset nd trs n dims t = Some inits ->
    state_at trs i0 s -> image (n_mode nd) (moved (n_mode nd) t d) (t_agent t) (t_paths t) s x ->
    starts_from inits x.
  Proof.
    intros HR HT HL Hsrc Ham Etr Hdims Hn Ei Ed EP Hs Hx. unfold pinits in EP. rewrite Ei in EP. cbn [obind] in EP. rewrite Ed in EP. cbn [obind] in EP.
    rewrite Etr in EP. cbn [obind] in EP. pose proof (nth_error_In _ _ Etr) as Hin.
    destruct (firstn_skipn_two tr0 i0 (HL _ Hin)) as (lo & hi & E2 & Elo & Ehi). rewrite E2 in EP.
    destruct (HR _ Hin) as (w & Hw). pose proof (Hw _ (nth_error_In _ _ Elo)) as Llo. pose proof (Hw _ (nth_error_In _ _ Ehi)) as Lhi.
    rewrite (@combine_rect_two lo hi (S w) Llo Lhi) in EP. cbn [obind] in EP.
    unfold state_at in Hs. destruct (Forall2_nth_l (t_agent t) Hs Etr) as (sa & Esa & (lo' & hi' & F1 & F2 & HB)).
    rewrite Elo in F1. rewrite Ehi in F2. injection F1 as <-. injection F2 as <-.
    pose proof (HT _ _ _ _ Hin Elo Ehi) as Ht0.
    destruct lo as [|t1 lo]; [discriminate|]. destruct hi as [|t2 hi]; [discriminate|]. cbn [tl nth] in *.
    assert (Hbox : in_box (t1 :: lo) (t2 :: hi) (t1 :: sa)) by (cbn; split; [lra|exact HB]).
    destruct (@C24_partition_covers _ _ n dims _ (in_box_valid _ _ _ Hbox) (Hdims _ (nth_error_In _ _ Elo)) Hn Hbox) as (parts & p & Epp & Hp & Hpb).
    rewrite Epp in EP. cbn [obind] in EP. destruct (box_at trs i0) as [bs|] eqn:Eb; [|discriminate]. cbn [obind] in EP.
    rewrite (@future_moved _ _ _ Hsrc Ham) in EP. apply mapM_Forall2 in EP. destruct (Forall2_In_l _ EP Hp) as (r & Hr & Er).
    destruct (p_reset _ _ _ _ _) as [[ds rr]|] eqn:Erst; [|discriminate]. cbn [obind snd] in Er. injection Er as <-.
    exists rr. split; [exact Hr|]. refine (covers_image Erst _ Hx). eapply in_joint_set; [|exact Esa|].
    - exact (proj1 (@box_at_covers trs i0 bs s HR HL Eb) Hs).
    - cbn [fst snd]. eapply in_box_tl. exact Hpb.
  Qed.
End Inits.

(** ** Unions of tubes *)
Lemma tube_rows N : forall t : list vec, length t = 2 * N -> exists bs, t = rows_of bs /\ length bs = N.
Proof.
  induction N as [|N IH]; intros t H.
  - destruct t; [|discriminate]. exists []. auto.
  - destruct t as [|a [|b t]]; cbn in H; try lia. destruct (IH t) as (bs & -> & L); [lia|]. exists ((a, b) :: bs). cbn. auto.
Qed.

Lemma rows_list (ts : list (list vec)) N d : (forall t, In t ts -> tube_shape N d t) ->
  exists bss, ts = map rows_of bss /\ forall bs, In bs bss -> dim_ok (S d) bs /\ length bs = N.
Proof.
  induction ts as [|t ts IH]; intros H; [exists []; split; [reflexivity|intros ? []]|].
  destruct IH as (bss & -> & HB); [intros; apply H; cbn; auto|]. destruct (H t) as (HL & HR); [cbn; auto|].
  destruct (tube_rows N t HL) as (bs & -> & L). exists (bs :: bss). split; [reflexivity|]. intros b [<-|Hb]; [|auto].
  split; [|exact L]. intros c Hc. split; apply HR; apply In_rows_of; eauto.
Qed.

Lemma in_box_tl' lo hi s : length lo = length hi -> lo <> [] -> in_box (tl lo) (tl hi) s -> (nth 0 lo 0 <= nth 0 hi 0)%Q -> in_box lo hi (nth 0 lo 0%Q :: s).
Proof. destruct lo, hi; cbn; try congruence. intros _ _ H A. split; [lra|exact H]. Qed.

Lemma box_le_tl lo hi lo' hi' s : box_le lo hi lo' hi' -> in_box (tl lo) (tl hi) s -> in_box (tl lo') (tl hi') s.
Proof.
  destruct lo as [|l lo], hi as [|h hi], lo' as [|l' lo'], hi' as [|h' hi']; cbn; try tauto.
  intros H. intros Hs. eapply box_le_in_box; [|exact Hs]. tauto.
Qed.

Lemma union_covers N d ts u : ts <> [] -> (forall t, In t ts -> tube_shape N d t) -> union_traces ts = Some u ->
  length u = 2 * N /\ forall t r s, In t ts -> covers t r s -> covers u r s.
Proof.
  intros Hne H E. destruct (rows_list _ H) as (bss & -> & HB). destruct bss as [|b0 bss]; [cbn in Hne; congruence|].
  destruct (@union_traces_hull b0 bss (S d)) as (us & E' & Lu & HH).
  { intros b Hb. destruct (HB b Hb) as [A B]. destruct (HB b0 (or_introl eq_refl)) as [_ B0]. split; [exact A|lia]. }
  rewrite E in E'. injection E' as ->. destruct (HB b0 (or_introl eq_refl)) as [_ B0]. split; [rewrite rows_of_length; lia|].
  intros t r s Ht (lo & hi & E1 & E2 & Hs). apply in_map_iff in Ht. destruct Ht as (bs & <- & Hb). destruct (HB bs Hb) as [_ Lb].
  rewrite rows_of_nth_even in E1. rewrite rows_of_nth_odd in E2. destruct (nth_error bs r) as [[l h]|] eqn:Er; [|discriminate]. cbn in E1, E2. injection E1 as ->. injection E2 as ->.
  assert (Hr : r < length b0). { assert (r < length bs) by (apply nth_error_Some; congruence). lia. }
  destruct (HH r Hr) as (Hin & _). specialize (Hin (nth r bs ([], [])) (in_map (fun t => nth r t ([], [])) _ _ Hb)).
  rewrite (nth_error_nth _ _ ([], []) Er) in Hin. cbn [fst snd] in Hin.
  exists (fst (nth r us ([], []))), (snd (nth r us ([], []))). rewrite rows_of_nth_even, rows_of_nth_odd, (nth_error_nth' us ([], [])) by lia. cbn [option_map].
  split; [reflexivity|]. split; [reflexivity|]. eapply box_le_tl; eassumption.
Qed.

Lemma covers_shift q t r s : (forall row, In row t -> row <> []) -> covers t r s -> covers (map (shift_row q) t) r s.
Proof.
  intros Hr (lo & hi & E1 & E2 & H). exists (shift_row q lo), (shift_row q hi). rewrite !nth_error_map, E1, E2. split; [reflexivity|]. split; [reflexivity|].
  destruct lo, hi; exact H.
Qed.
