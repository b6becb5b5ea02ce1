(** A concrete scenario for CoverProps.v: one agent on a line, moving by one per row in mode A and standing still in
    the other modes.  Not a model of code in /repo; it gives concrete values to the parameters of the model. *)
From Coq Require Import Ascii String.
From Verif Require Import Base BaseFacts Dict PyText Boxes BoxesSpec BoxesProofs Overlay OverlaySpec OverlayProofs Scan ScanSpec ScanProofs
  Round RoundProofs Step StepSpec StepProofs StepProps Toy Scheduler SchedulerSpec CoverSpec CoverProofs.
From Coq Require Import Lqa Qround.
Set Implicit Arguments.
Open Scope nat_scope.

(** ** The time column of a tube for several initial sets is that of the first one *)
Definition heads (t : list vec) : list (option Q) := map (fun r => nth_error r 0) t.

Lemma overlay_row_head f r c : nth_error (overlay_row f r c) 0 = nth_error r 0.
Proof. destruct r as [|t r], c as [|u c]; reflexivity. Qed.
Lemma overlay_rows_heads : forall res cur t, overlay_rows res cur = Some t -> heads t = heads res.
Proof.
  fix IH 1. intros [|l [|h res]] cur t E; destruct cur as [|cl [|ch cur]]; cbn [overlay_rows] in E; try discriminate; [injection E as <-; reflexivity|].
  destruct (overlay_rows res cur) as [r|] eqn:Er; [|discriminate]. injection E as <-. unfold heads. cbn [map]. rewrite !overlay_row_head. do 2 f_equal. apply (IH _ _ _ Er).
Qed.
Lemma overlay_heads n k res cur t : overlay n k res cur = Some t -> heads t = heads res.
Proof.
  unfold overlay. destruct (overlay_rows _ _) as [r|] eqn:Er; [|discriminate]. intros E. injection E as <-. apply overlay_rows_heads in Er.
  unfold heads in *. rewrite map_app, Er. rewrite <- map_app, firstn_skipn. reflexivity.
Qed.
Lemma calc_loop_heads engine inits L : forall segs h a upd t st, nth_error h a = Some t ->
  calc_loop engine inits L segs (h, Some a, upd) = Some st -> exists h' upd' t', st = (h', Some a, upd') /\ nth_error h' a = Some t' /\ heads t' = heads t.
Proof.
  induction segs as [|k segs IH]; intros h a upd t st Ea E; cbn [calc_loop] in E; [injection E as <-; eauto 6|].
  destruct (seg_hull inits L k) as [b|]; [|discriminate]. cbn [obind] in E.
  assert (Ea1 : nth_error (h ++ [engine b]) a = Some t) by (rewrite nth_error_app1; [exact Ea|apply nth_error_Some; congruence]).
  rewrite Ea1 in E. cbn [obind] in E. destruct (length t <=? 2 * k); [injection E as <-; eauto 6|].
  destruct (overlay (length t) k t (engine b)) as [rt|] eqn:Eo; [|discriminate]. cbn [obind] in E.
  assert (Ea2 : nth_error (set_nth a rt (h ++ [engine b])) a = Some rt) by (apply set_nth_same; apply nth_error_Some; congruence).
  destruct (IH _ a _ rt _ Ea2 E) as (h' & upd' & t' & E1 & E2 & E3).
  exists h', upd', t'. split; [exact E1|]. split; [exact E2|]. rewrite E3. eapply overlay_heads; exact Eo.
Qed.
Lemma calc_full_plain_heads engine inits t b : nth_error inits 0 = Some b -> length (fst b) = length (snd b) ->
  calc_full_plain engine inits 1 = Some t -> heads t = heads (engine b).
Proof.
  intros Eb Hd. unfold calc_full_plain. destruct (seg_starts (length inits) 1) as [segs|] eqn:Es; [|discriminate]. cbn [obind].
  destruct (seg_starts_spec _ _ Es) as (_ & _ & _ & _ & H0 & _). destruct inits as [|b' inits]; [discriminate|]. injection Eb as ->.
  destruct (H0 ltac:(cbn; lia)) as (rest & ->). unfold calc_full. cbn [calc_loop].
  rewrite (@seg_hull_one (b :: inits) 0 b eq_refl Hd). cbn [obind app length].
  destruct (calc_loop engine (b :: inits) 1 rest _) as [st|] eqn:El; [|discriminate].
  destruct (@calc_loop_heads engine (b :: inits) 1 rest [engine b] 0 [(b, 0)] (engine b) st eq_refl El) as (h' & upd' & t' & -> & E2 & E3).
  cbn [obind]. rewrite E2. cbn [obind]. intros E. injection E as <-. exact E3.
Qed.

(** ** The agent *)
Definition speed (m : mode) : Q := if mode_eqb m [w "A"] then 1 else 0.
Definition at_row (v : Q) (x : Q) (k : nat) : Q := (x + v * inject_Z (Z.of_nat k))%Q.
Definition vengine (v : Q) (n : nat) (b : vec * vec) : list vec :=
  flat_map (fun k => [[inject_Z (Z.of_nat k); at_row v (nth 0 (fst b) 0%Q) k]; [inject_Z (Z.of_nat (S k)); at_row v (nth 0 (snd b) 0%Q) k]]) (seq 0 n).
Definition vtubes (a : nat) (m : mode) (inits : list (vec * vec)) (remain : Q) : option (list vec) :=
  calc_full_plain (vengine (speed m) (Z.to_nat (Qfloor remain))) inits 1.
Definition vtraj (a : nat) (m : mode) (x : vec) (tau : nat -> unit -> vec) : Prop :=
  exists x0, x = [x0] /\ forall j q, tau j q = [at_row (speed m) x0 j].
Definition t_resets (modes : list mode) (a : nat) (p : tpath) (s : list vec) (d : mode) (x : vec) : Prop :=
  d = t_move (nth a modes []) p /\ x = match tp_set p with Some (k, v) => set_nth k v (nth a s []) | None => nth a s [] end.
Definition one (_ : nat) : nat := 1.

Lemma vengine_nth v n b j : j < n ->
  nth_error (vengine v n b) (2 * j) = Some [inject_Z (Z.of_nat j); at_row v (nth 0 (fst b) 0%Q) j] /\
  nth_error (vengine v n b) (2 * j + 1) = Some [inject_Z (Z.of_nat (S j)); at_row v (nth 0 (snd b) 0%Q) j].
Proof.
  unfold vengine. intros H.
  assert (G : forall s, nth_error (flat_map (fun k => [[inject_Z (Z.of_nat k); at_row v (nth 0 (fst b) 0%Q) k]; [inject_Z (Z.of_nat (S k)); at_row v (nth 0 (snd b) 0%Q) k]]) (seq s n)) (2 * j)
      = Some [inject_Z (Z.of_nat (s + j)); at_row v (nth 0 (fst b) 0%Q) (s + j)] /\
    nth_error (flat_map (fun k => [[inject_Z (Z.of_nat k); at_row v (nth 0 (fst b) 0%Q) k]; [inject_Z (Z.of_nat (S k)); at_row v (nth 0 (snd b) 0%Q) k]]) (seq s n)) (2 * j + 1)
      = Some [inject_Z (Z.of_nat (S (s + j))); at_row v (nth 0 (snd b) 0%Q) (s + j)]).
  { revert j H. induction n as [|n IH]; intros j H s; [lia|]. cbn [seq flat_map].
    destruct j as [|j]; [rewrite Nat.add_0_r; split; reflexivity|].
    replace (2 * S j) with (S (S (2 * j))) by lia. cbn [app nth_error Nat.add]. replace (s + S j) with (S s + j) by lia. apply IH. lia. }
  apply (G 0).
Qed.
Lemma vengine_len v n b : length (vengine v n b) = 2 * n.
Proof.
  unfold vengine. rewrite <- (seq_length n 0) at 2. generalize (seq 0 n). intros l.
  induction l as [|k l IH]; [reflexivity|]. cbn [flat_map]. rewrite app_length, IH. cbn [length]. lia.
Qed.
Definition vflow (v : Q) (s : vec) (j : nat) (s' : vec) : Prop := exists x, s = [x] /\ s' = [at_row v x j].
Lemma vengine_sound v n : engine_sound n 1 (vflow v) (vengine v n).
Proof.
  intros [|l [|? ?]] [|h [|? ?]] H1 H2; try discriminate. split.
  - split; [apply vengine_len|]. intros row Hr. apply in_flat_map in Hr. destruct Hr as (k & _ & [<-|[<-|[]]]); reflexivity.
  - intros s j s' Hs Hj (x & -> & ->). cbn in Hs. destruct Hs as [[A B] _]. destruct (vengine_nth v ([l], [h]) Hj) as [E1 E2].
    eexists; eexists. split; [exact E1|]. split; [exact E2|]. cbn. unfold at_row. repeat split; lra.
Qed.

Lemma vtubes_sound N : tubes_sound one vtubes vtraj 1 N.
Proof.
  intros a m inits remain r Hr HN Er Hne Hd. unfold vtubes.
  assert (F : Z.to_nat (Qfloor remain) = r).
  { rewrite (Qfloor_comp remain (inject_Z (Z.of_nat r))) by (rewrite Er; ring). rewrite Qfloor_Z. apply Nat2Z.id. }
  rewrite F. destruct (@calc_full_plain_one r 1 (vflow (speed m)) (vengine (speed m) r) inits (vengine_sound _ _) Hd Hne) as (t & Et & Sh & Cv).
  exists t. split; [exact Et|]. split; [exact Sh|]. split.
  - intros k row Hk. destruct inits as [|b inits]; [congruence|].
    assert (Hh := calc_full_plain_heads (vengine (speed m) r) (b :: inits) (b := b) eq_refl ltac:(destruct (Hd b (or_introl eq_refl)); congruence) Et).
    assert (Hkr : k < r). { destruct Sh as [Sl _]. assert (2 * k < length t) by (apply nth_error_Some; congruence). lia. }
    destruct (vengine_nth (speed m) b Hkr) as [E1 _].
    assert (E2 : nth_error (heads t) (2 * k) = Some (nth_error row 0)) by (unfold heads; rewrite nth_error_map, Hk; reflexivity).
    rewrite Hh in E2. unfold heads in E2. rewrite nth_error_map, E1 in E2. cbn [option_map] in E2. injection E2 as E2. cbn in E2.
    exists (inject_Z (Z.of_nat k)). split; [symmetry; exact E2|ring].
  - intros k b x tau j q Eb Hb (x0 & -> & Ht) Hkj. rewrite Ht. eapply Cv; [exact Eb|exact Hb| |exact Hkj]. exists x0. auto.
Qed.

Lemma mode_eqb_iff (a b : mode) : mode_eqb a b = true <-> a = b.
Proof. apply list_eqb_eq. apply word_eqb_iff. Qed.
Lemma t_guards_sound : guards_sound t_disc t_hyb t_cont t_enabled.
Proof.
  split.
  - intros modes bs0 bs a p s Hs (E & Hp). split; [|split; [reflexivity|]].
    + unfold t_disc. apply mode_eqb_iff. exact E.
    + unfold t_cont. cbn [fst]. eapply meets_complete; [exact Hp|]. apply in_joint_own'. exact Hs.
  - intros modes bs0 bs a p s Hs Hd _ Hc. split.
    + unfold t_disc in Hd. apply mode_eqb_iff. exact Hd.
    + unfold t_cont in Hc. cbn [snd] in Hc. eapply inside_sound; [exact Hc|]. apply in_joint_own'. exact Hs.
Qed.

Lemma set_nth_box k v : forall lo hi s, in_box lo hi s -> in_box (set_nth k v lo) (set_nth k v hi) (set_nth k v s).
Proof.
  induction k as [|k IH]; intros [|l lo] [|h hi] [|x s] H; cbn in *; try tauto.
  - split; [split; apply Qle_refl|tauto].
  - split; [tauto|apply IH; tauto].
Qed.
Lemma t_resets_sound : resets_sound one t_reset t_enabled t_resets.
Proof.
  split.
  - intros modes bs a p s d x ds r E Hs _ (-> & ->). unfold t_reset in E. cbn [fold_left] in E. injection E as <- <-. split; [left; reflexivity|].
    assert (O := in_joint_own' a Hs). unfold t_apply. destruct (tp_set p) as [[k v]|]; cbn [fst snd]; [apply set_nth_box; exact O|exact O].
  - intros modes bs a ps ds r Ha Hd E. unfold t_reset in E. injection E as _ <-.
    assert (H : length (fst (own bs a)) = 1 /\ length (snd (own bs a)) = 1).
    { destruct (nth_error bs a) as [b|] eqn:Eb; [|apply nth_error_None in Eb; lia]. unfold own. rewrite (nth_error_nth _ _ ([], []) Eb). exact (Hd _ _ Eb). }
    revert H. generalize (own bs a). induction ps as [|p ps IH]; intros b H; cbn [fold_left]; [exact H|]. apply IH. unfold t_apply.
    destruct (tp_set p) as [[k v]|]; cbn [fst snd]; [|exact H]. rewrite !set_nth_len. exact H.
Qed.
Lemma t_map_permits (lg : dlogic tpath (vec * vec)) : d_types lg = [] -> map_permits [lg] t_reset no_map.
Proof.
  intros Ht a lg' modes bs ps ds r d E _ _. destruct a as [|[|a]]; cbn in E; try discriminate. injection E as <-. rewrite Ht. right. reflexivity.
Qed.
Lemma t_on_rows N digits : on_rows 1 (inject_Z (Z.of_nat N)) N digits.
Proof.
  split; [reflexivity|]. split; [ring|]. intros i _.
  assert (G : forall d, (py_round d (inject_Z (Z.of_nat i) * 1) == inject_Z (Z.of_nat i) * 1)%Q).
  { intros d. assert (P := pow10_pos d). assert (E : (inject_Z (Z.of_nat i) * 1 == inject_Z (Z.of_nat i * 10 ^ Z.of_nat d) / pow10 d)%Q).
    { rewrite inject_Z_mult. unfold pow10 in *. field. lra. }
    rewrite (py_round_comp d E). rewrite py_round_decimal. rewrite <- E. reflexivity. }
  split; apply G.
Qed.

(** ** Verifying it *)
Section Run.
  Variable lg : dlogic tpath (vec * vec).
  Variable N : nat.
  Definition v_expand := expand tp_var [lg] vtubes t_disc t_hyb t_cont t_certain t_reset no_map (inject_Z (Z.of_nat N)) 10 None.
  Definition v_skip := skip n_height n_start None (inject_Z (Z.of_nat N)).
  Fixpoint grow (fuel : nat) (nd : node) : option (tree node (list (list vec)) (option (dict nat (list word)))) :=
    match fuel with
    | 0 => None
    | S fuel' =>
      if v_skip nd then Some (Tree nd None None [])
      else do e <- v_expand nd; do ts <- mapM (grow fuel') (fst (fst e)); Some (Tree nd (Some (snd (fst e))) (Some (snd e)) ts)
    end.
  Lemma grow_unfolds fuel : forall nd t, grow fuel nd = Some t -> unfolds v_skip v_expand nd t.
  Proof.
    induction fuel as [|fuel IH]; intros nd t E; [discriminate|]. cbn [grow] in E. destruct (v_skip nd) eqn:Es; [injection E as <-; constructor; exact Es|].
    destruct (v_expand nd) as [[[cs r] h]|] eqn:Ee; [|discriminate]. cbn [obind fst snd] in E. destruct (mapM (grow fuel) cs) as [ts|] eqn:Em; [|discriminate].
    cbn [obind] in E. injection E as <-. apply U_node with (cs := cs); [exact Es|exact Ee|]. apply mapM_Forall2 in Em. clear Ee. induction Em; constructor; auto.
  Qed.
End Run.
Definition v_root (m : mode) (lo hi : Q) : node := {| n_trace := [None]; n_init := [[([lo], [hi])]]; n_mode := [m]; n_start := 0; n_height := 0 |}.

Fixpoint every {content trace hits : Type} (t : tree content trace hits) : list (content * option trace * option hits) :=
  match t with Tree c r h ts => (c, r, h) :: flat_map every ts end.
Lemma occurs_every {content trace hits : Type} (c : content) (r : option trace) (h : option hits) t : occurs c r h t -> In (c, r, h) (every t).
Proof. induction 1 as [ts|c' r' h' ts t Hin _ IH]; [left; reflexivity|right]. apply in_flat_map. exists t. auto. Qed.
