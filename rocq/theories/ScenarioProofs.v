(** Lemmas for scenario set-up: copies are fresh, faithful and stay so. *)
From Coq Require Import Ascii String.
From Verif Require Import Base BaseFacts PyText Dict ResetProofs Scenario ScenarioSpec.
Set Implicit Arguments.
Open Scope nat_scope.

Lemma nth_error_app_some {A} (l e : list A) k v : nth_error l k = Some v -> nth_error (l ++ e) k = Some v.
Proof. intros H. rewrite nth_error_app1; [exact H|]. apply nth_error_Some. congruence. Qed.

Lemma mapM_nth_ext {A} (inn inn' : list A) rows :
  (forall a, In a rows -> nth_error inn' a = nth_error inn a) -> mapM (nth_error inn') rows = mapM (nth_error inn) rows.
Proof.
  induction rows as [|a rows IH]; intros H; simpl; [reflexivity|].
  rewrite (H a) by (left; reflexivity). destruct (nth_error inn a); [|reflexivity]. cbn [obind].
  rewrite IH by (intros; apply H; right; assumption). reflexivity.
Qed.

(** ** Heaps only grow during calls *)
Definition ext (h h' : heap) : Prop :=
  (exists e, inner h' = inner h ++ e) /\ (exists e, outer h' = outer h ++ e).
Lemma ext_refl h : ext h h.
Proof. split; exists []; rewrite app_nil_r; reflexivity. Qed.
Lemma ext_trans h1 h2 h3 : ext h1 h2 -> ext h2 h3 -> ext h1 h3.
Proof.
  intros [[a A] [b B]] [[c C] [d D]]. split; [exists (a ++ c)|exists (b ++ d)].
  - rewrite C, A, app_assoc. reflexivity.
  - rewrite D, B, app_assoc. reflexivity.
Qed.
Lemma ext_len_in h h' : ext h h' -> length (inner h) <= length (inner h').
Proof. intros [[e E] _]. rewrite E, app_length. lia. Qed.
Lemma ext_len_out h h' : ext h h' -> length (outer h) <= length (outer h').
Proof. intros [_ [e E]]. rewrite E, app_length. lia. Qed.
Lemma ext_in h h' a : ext h h' -> a < length (inner h) -> nth_error (inner h') a = nth_error (inner h) a.
Proof. intros [[e E] _] H. rewrite E. apply nth_error_app1, H. Qed.
Lemma ext_out h h' a : ext h h' -> a < length (outer h) -> nth_error (outer h') a = nth_error (outer h) a.
Proof. intros [_ [e E]] H. rewrite E. apply nth_error_app1, H. Qed.

Lemma wf_rows h o rows : wf h -> nth_error (outer h) o = Some rows -> Forall (fun a => a < length (inner h)) rows.
Proof. intros W E. apply nth_error_In in E. unfold wf in W. rewrite Forall_forall in W. apply W, E. Qed.
Arguments wf_rows {h o rows}.
Lemma ext_read h h' o : wf h -> ext h h' -> o < length (outer h) -> read h' o = read h o.
Proof.
  intros W E H. unfold read. rewrite (@ext_out _ _ o E H).
  destruct (nth_error (outer h) o) as [rows|] eqn:R; [|reflexivity]. cbn [obind].
  apply mapM_nth_ext. intros a Ha. apply ext_in; [exact E|].
  assert (F := wf_rows W R). rewrite Forall_forall in F. apply F, Ha.
Qed.

Arguments ext_in {h h' a}. Arguments ext_out {h h' a}. Arguments ext_read {h h' o}.
(** ** [deepcopy] *)
Definition memo_ok (inn0 inn : list (list cell)) (memo : dict nat nat) : Prop :=
  forall a b, dget Nat.eqb a memo = Some b -> length inn0 <= b < length inn /\ nth_error inn b = nth_error inn0 a.

Lemma copy_rows_spec inn0 : forall rows memo inn e,
  inn = inn0 ++ e -> memo_ok inn0 inn memo -> Forall (fun a => a < length inn0) rows ->
  exists rows' inn', copy_rows memo rows inn = Some (rows', inn') /\
    (exists e', inn' = inn ++ e') /\
    Forall (fun b => length inn0 <= b < length inn') rows' /\
    mapM (nth_error inn') rows' = mapM (nth_error inn0) rows.
Proof.
  induction rows as [|a rows IH]; intros memo inn e E M F; simpl.
  - exists [], inn. split; [reflexivity|]. split; [exists []; rewrite app_nil_r; reflexivity|]. split; [constructor|reflexivity].
  - inversion F as [|? ? Ha F']; subst x l.
    destruct (dget Nat.eqb a memo) as [b|] eqn:D.
    + destruct (IH memo inn e E M F') as [rows' [inn' [C [[e' E'] [Fr R]]]]].
      rewrite C. cbn [obind fst snd]. exists (b :: rows'), inn'. split; [reflexivity|].
      destruct (M a b D) as [Hb Nb].
      split; [exists e'; exact E'|]. split.
      * constructor; [|exact Fr]. rewrite E', app_length. lia.
      * simpl. rewrite R. rewrite E', nth_error_app1 by lia. rewrite Nb. reflexivity.
    + destruct (nth_error inn a) as [l|] eqn:N.
      2:{ exfalso. apply nth_error_None in N. rewrite E, app_length in N. lia. }
      cbn [obind].
      assert (N0 : nth_error inn0 a = Some l) by (rewrite E, nth_error_app1 in N by exact Ha; exact N).
      destruct (IH ((a, length inn) :: memo) (inn ++ [l]) (e ++ [l])) as [rows' [inn' [C [[e' E'] [Fr R]]]]].
      * rewrite E, app_assoc. reflexivity.
      * intros x b. simpl. destruct (x =? a) eqn:Ex.
        -- apply Nat.eqb_eq in Ex. subst x. intros [= <-]. rewrite app_length. simpl. split; [rewrite E, app_length; lia|].
           rewrite nth_error_app2, Nat.sub_diag by lia. simpl. congruence.
        -- intros Db. destruct (M x b Db) as [Hb Nb]. rewrite app_length. simpl. split; [lia|].
           rewrite nth_error_app1 by lia. exact Nb.
      * exact F'.
      * rewrite C. cbn [obind fst snd]. exists (length inn :: rows'), inn'. split; [reflexivity|].
        split; [exists (l :: e'); rewrite E', <- app_assoc; reflexivity|]. split.
        -- constructor; [|exact Fr]. rewrite E', !app_length. simpl. rewrite E, app_length. lia.
        -- simpl. rewrite R, N0. rewrite E', <- app_assoc, nth_error_app2, Nat.sub_diag by lia. reflexivity.
Qed.

(** A list made since [h]: its address and its rows are new. *)
Definition fresh (h h' : heap) (o : nat) : Prop :=
  length (outer h) <= o < length (outer h') /\
  exists rows, nth_error (outer h') o = Some rows /\ Forall (fun b => length (inner h) <= b < length (inner h')) rows.
Definition fresh_flat (h h' : heap) (a : nat) : Prop := length (inner h) <= a < length (inner h').

Lemma fresh_mono h0 h h' h2 o : ext h0 h -> ext h' h2 -> fresh h h' o -> fresh h0 h2 o.
Proof.
  intros E1 E2 [Ho [rows [R F]]]. assert (A := ext_len_out E1). assert (B := ext_len_out E2).
  assert (C := ext_len_in E1). assert (D := ext_len_in E2).
  split; [lia|]. exists rows. split; [rewrite (@ext_out _ _ o E2) by lia; exact R|].
  eapply Forall_impl; [|exact F]. intros b. simpl. lia.
Qed.
Lemma fresh_flat_mono h0 h h' h2 a : ext h0 h -> ext h' h2 -> fresh_flat h h' a -> fresh_flat h0 h2 a.
Proof. intros E1 E2 H. unfold fresh_flat in *. assert (C := ext_len_in E1). assert (D := ext_len_in E2). lia. Qed.

Arguments fresh_mono {h0 h h' h2 o}. Arguments fresh_flat_mono {h0 h h' h2 a}.
Lemma wf_new_inner h l : wf h -> wf (fst (new_inner h l)).
Proof.
  unfold wf, new_inner. simpl. intros W. eapply Forall_impl; [|exact W]. intros rows F.
  eapply Forall_impl; [|exact F]. intros a Ha. cbv beta in *. rewrite app_length. lia.
Qed.
Lemma wf_new_outer h rows : wf h -> Forall (fun a => a < length (inner h)) rows -> wf (fst (new_outer h rows)).
Proof. unfold wf, new_outer. simpl. intros W F. apply Forall_app. split; [exact W|constructor; [exact F|constructor]]. Qed.
Lemma ext_new_inner h l : ext h (fst (new_inner h l)).
Proof. split; [exists [l]|exists []]; simpl; rewrite ?app_nil_r; reflexivity. Qed.
Lemma ext_new_outer h rows : ext h (fst (new_outer h rows)).
Proof. split; [exists []|exists [rows]]; simpl; rewrite ?app_nil_r; reflexivity. Qed.

Lemma deepcopy_spec h o : wf h -> o < length (outer h) ->
  exists h' o', deepcopy h o = Some (h', o') /\ ext h h' /\ wf h' /\ fresh h h' o' /\ read h' o' = read h o.
Proof.
  intros W Ho. unfold deepcopy. destruct (nth_error (outer h) o) as [rows|] eqn:R.
  2:{ apply nth_error_None in R. lia. }
  cbn [obind].
  destruct (@copy_rows_spec (inner h) rows [] (inner h) []) as [rows' [inn' [C [[e E] [F M]]]]].
  - rewrite app_nil_r. reflexivity.
  - intros a b. discriminate.
  - apply (wf_rows W R).
  - rewrite C. cbn [obind fst snd]. unfold new_outer. simpl.
    exists (mkheap inn' (outer h ++ [rows'])), (length (outer h)). split; [reflexivity|].
    split; [split; simpl; [exists e; exact E|exists [rows']; reflexivity]|].
    split; [unfold wf; simpl; apply Forall_app; split; [|constructor; [|constructor]]|split].
    + eapply Forall_impl; [|exact W]. intros r Fr. eapply Forall_impl; [|exact Fr]. intros a Ha. cbv beta in *.
      rewrite E, app_length. lia.
    + eapply Forall_impl; [|exact F]. intros a. simpl. lia.
    + split; simpl; [rewrite app_length; simpl; lia|]. exists rows'. split; [|exact F].
      rewrite nth_error_app2, Nat.sub_diag by lia. reflexivity.
    + unfold read. simpl. rewrite nth_error_app2, Nat.sub_diag by lia. simpl. rewrite M, R. reflexivity.
Qed.

Lemma deepcopy_flat_spec h a : wf h -> a < length (inner h) ->
  exists h' a', deepcopy_flat h a = Some (h', a') /\ ext h h' /\ wf h' /\ fresh_flat h h' a' /\ read_flat h' a' = read_flat h a.
Proof.
  intros W Ha. unfold deepcopy_flat. destruct (nth_error (inner h) a) as [l|] eqn:R.
  2:{ apply nth_error_None in R. lia. }
  cbn [obind]. exists (fst (new_inner h l)), (snd (new_inner h l)). split; [reflexivity|].
  split; [apply ext_new_inner|]. split; [apply wf_new_inner, W|].
  unfold fresh_flat, read_flat, new_inner. simpl. rewrite app_length, R. simpl. split; [lia|].
  rewrite nth_error_app2, Nat.sub_diag by lia. reflexivity.
Qed.

Arguments deepcopy_spec {h o}. Arguments deepcopy_flat_spec {h a}.
Lemma ext_flat h h' a : ext h h' -> a < length (inner h) -> read_flat h' a = read_flat h a.
Proof. apply ext_in. Qed.

Lemma read_some h o : wf h -> o < length (outer h) ->
  exists rows v, nth_error (outer h) o = Some rows /\ read h o = Some v /\ Forall2 (fun a p => nth_error (inner h) a = Some p) rows v.
Proof.
  intros W H. unfold read. destruct (nth_error (outer h) o) as [rows|] eqn:R; [|apply nth_error_None in R; lia].
  assert (F := wf_rows W R). exists rows. cbn [obind]. clear R.
  induction F as [|a rows Ha F IH]; simpl; [exists []; auto|].
  destruct IH as [v [_ [Ev Fv]]]. destruct (nth_error (inner h) a) as [p|] eqn:P; [|apply nth_error_None in P; lia].
  cbn [obind]. rewrite Ev. cbn [obind]. exists (p :: v). auto.
Qed.

Arguments ext_flat {h h' a}. Arguments read_some {h o}.
(** ** [add_agent] and [set_init_single] *)
Lemma update_keeps ag lanes : aid (update_agent_lane_mode ag lanes) = aid ag /\ has_logic (update_agent_lane_mode ag lanes) = has_logic ag /\
  first_def (update_agent_lane_mode ag lanes) = first_def ag /\
  init_cont (update_agent_lane_mode ag lanes) = init_cont ag /\ init_disc (update_agent_lane_mode ag lanes) = init_disc ag /\
  static_parameters (update_agent_lane_mode ag lanes) = static_parameters ag /\
  uncertain_parameters (update_agent_lane_mode ag lanes) = uncertain_parameters ag.
Proof. repeat split. Qed.

Lemma add_agent_spec s ag : wf (hp s) ->
  outer_ok (hp s) (init_cont ag) -> flat_ok (hp s) (static_parameters ag) -> outer_ok (hp s) (uncertain_parameters ag) ->
  exists s' i x u, add_agent s ag = Some s' /\ ext (hp s) (hp s') /\ wf (hp s') /\
    init_dict s' = match init_cont ag with Some _ => put (aid ag) i (init_dict s) | None => init_dict s end /\
    init_mode_dict s' = match init_disc ag with Some m => put (aid ag) m (init_mode_dict s) | None => init_mode_dict s end /\
    static_dict s' = put (aid ag) x (static_dict s) /\
    uncertain_param_dict s' = put (aid ag) u (uncertain_param_dict s) /\
    match init_cont ag with Some o => fresh (hp s) (hp s') i /\ read (hp s') i = read (hp s) o | None => True end /\
    fresh_flat (hp s) (hp s') x /\ read_flat (hp s') x = or_nil (do a <- static_parameters ag; read_flat (hp s) a) /\
    fresh (hp s) (hp s') u /\ read (hp s') u = or_nil (do o <- uncertain_parameters ag; read (hp s) o).
Proof.
  intros W Oi Os Ou.
  assert (C : exists h1 i, copy_opt (hp s) (init_cont ag) = Some (h1, match init_cont ag with Some _ => Some i | None => None end)
     /\ ext (hp s) h1 /\ wf h1 /\ match init_cont ag with Some o => fresh (hp s) h1 i /\ read h1 i = read (hp s) o | None => True end).
  { destruct (init_cont ag) as [o|]; simpl in *.
    - destruct (deepcopy_spec W Oi) as [h' [o' [D [E [W' [Fr R]]]]]]. rewrite D. cbn [obind fst snd].
      exists h', o'. auto.
    - exists (hp s), 0. split; [reflexivity|]. split; [apply ext_refl|auto]. }
  destruct C as [h1 [i [C [E1 [W1 P1]]]]].
  assert (St : exists h2 x, copy_flat_or_empty h1 (static_parameters ag) = Some (h2, x) /\ ext h1 h2 /\ wf h2 /\ fresh_flat h1 h2 x /\
     read_flat h2 x = or_nil (do a <- static_parameters ag; read_flat (hp s) a)).
  { destruct (static_parameters ag) as [a|]; simpl in *.
    - assert (Ha : a < length (inner h1)) by (assert (A := ext_len_in E1); lia).
      destruct (deepcopy_flat_spec W1 Ha) as [h' [a' [D [E [W' [Fr R]]]]]]. exists h', a'.
      split; [exact D|]. split; [exact E|]. split; [exact W'|]. split; [exact Fr|]. rewrite R, (ext_flat E1 Os).
      unfold read_flat. destruct (nth_error (inner (hp s)) a) eqn:N; [reflexivity|apply nth_error_None in N; lia].
    - exists (fst (new_inner h1 [])), (snd (new_inner h1 [])). split; [reflexivity|]. split; [apply ext_new_inner|].
      split; [apply wf_new_inner, W1|]. unfold fresh_flat, read_flat. simpl. rewrite app_length. simpl. split; [lia|].
      rewrite nth_error_app2, Nat.sub_diag by lia. reflexivity. }
  destruct St as [h2 [x [S2 [E2 [W2 [F2 R2]]]]]].
  assert (E02 := ext_trans E1 E2).
  assert (Un : exists h3 u, copy_or_empty h2 (uncertain_parameters ag) = Some (h3, u) /\ ext h2 h3 /\ wf h3 /\ fresh h2 h3 u /\
     read h3 u = or_nil (do o <- uncertain_parameters ag; read (hp s) o)).
  { destruct (uncertain_parameters ag) as [o|]; simpl in *.
    - assert (Ho : o < length (outer h2)) by (assert (A := ext_len_out E02); lia).
      destruct (deepcopy_spec W2 Ho) as [h' [a' [D [E [W' [Fr R]]]]]]. exists h', a'.
      split; [exact D|]. split; [exact E|]. split; [exact W'|]. split; [exact Fr|]. rewrite R, (ext_read W E02 Ou).
      destruct (read_some W Ou) as [rows [v [_ [Rv _]]]]. rewrite Rv. reflexivity.
    - exists (fst (new_outer h2 [])), (snd (new_outer h2 [])). split; [reflexivity|]. split; [apply ext_new_outer|].
      split; [apply wf_new_outer; [exact W2|constructor]|]. unfold fresh, read. simpl. rewrite app_length. simpl.
      rewrite nth_error_app2, Nat.sub_diag by lia. simpl. split; [split; [lia|exists []; auto]|reflexivity]. }
  destruct Un as [h3 [u [S3 [E3 [W3 [F3 R3]]]]]].
  assert (E13 := ext_trans E2 E3).
  unfold add_agent. set (ag' := match map_lanes s with Some lanes => update_agent_lane_mode ag lanes | None => ag end).
  assert (K : aid ag' = aid ag /\ init_cont ag' = init_cont ag /\ init_disc ag' = init_disc ag /\
              static_parameters ag' = static_parameters ag /\ uncertain_parameters ag' = uncertain_parameters ag).
  { unfold ag'. destruct (map_lanes s); repeat split. }
  destruct K as [K1 [K2 [K3 [K4 K5]]]]. rewrite K2, C. cbn [obind fst snd]. rewrite K4, S2. cbn [obind fst snd].
  rewrite K5, S3. cbn [obind fst snd].
  eexists. exists i, x, u. split; [reflexivity|]. cbn [hp init_dict init_mode_dict static_dict uncertain_param_dict].
  rewrite K1, K3.
  split; [exact (ext_trans E02 E3)|]. split; [exact W3|].
  split; [destruct (init_cont ag); reflexivity|]. split; [reflexivity|]. split; [reflexivity|]. split; [reflexivity|].
  split.
  { destruct (init_cont ag) as [o|]; [|exact I]. destruct P1 as [Fr R].
    split; [apply (fresh_mono (ext_refl _) E13 Fr)|].
    rewrite (ext_read W1 E13); [exact R|]. destruct Fr as [? _]. lia. }
  split; [apply (fresh_flat_mono E1 E3 F2)|].
  split; [rewrite (ext_flat E3); [exact R2|unfold fresh_flat in F2; lia]|].
  split; [apply (fresh_mono E02 (ext_refl _) F3)|exact R3].
Qed.

Lemma truthy_flat h a : wf h ->
  match truthy (inner h) a with
  | Some x => a = Some x /\ x < length (inner h)
  | None => flat_ok h a -> (do x <- a; read_flat h x) = None /\ a = None \/ (do x <- a; read_flat h x) = Some []
  end.
Proof.
  intros W. unfold truthy, read_flat. destruct a as [x|]; simpl; [|auto].
  destruct (nth_error (inner h) x) as [[|c l]|] eqn:E.
  - auto.
  - split; [reflexivity|]. apply nth_error_Some. congruence.
  - intros Hx. apply nth_error_None in E. lia.
Qed.
Lemma truthy_outer h a : wf h ->
  match truthy (outer h) a with
  | Some x => a = Some x /\ x < length (outer h)
  | None => outer_ok h a -> (do x <- a; read h x) = None /\ a = None \/ (do x <- a; read h x) = Some []
  end.
Proof.
  intros W. unfold truthy, read. destruct a as [x|]; simpl; [|auto].
  destruct (nth_error (outer h) x) as [[|c l]|] eqn:E.
  - auto.
  - split; [reflexivity|]. apply nth_error_Some. congruence.
  - intros Hx. apply nth_error_None in E. lia.
Qed.

Lemma store_spec s id ag o rows mode static uncertain v : wf (hp s) ->
  nth_error (outer (hp s)) o = Some rows -> read (hp s) o = Some v ->
  flat_ok (hp s) static -> outer_ok (hp s) uncertain ->
  exists s' i x u, store_init s id ag o rows mode static uncertain = Some s' /\ ext (hp s) (hp s') /\ wf (hp s') /\
    init_dict s' = put id i (init_dict s) /\ init_mode_dict s' = put id mode (init_mode_dict s) /\
    static_dict s' = put id x (static_dict s) /\ uncertain_param_dict s' = put id u (uncertain_param_dict s) /\
    (exists ag', agent_dict s' = put id ag' (agent_dict s) /\ aid ag' = aid ag /\ has_logic ag' = has_logic ag /\
        first_def ag' = first_def ag /\ mode_defs ag' = mode_defs ag) /\
    map_lanes s' = map_lanes s /\
    fresh (hp s) (hp s') i /\ read (hp s') i = Some (as_box v) /\
    fresh_flat (hp s) (hp s') x /\ read_flat (hp s') x = or_nil (do a <- static; read_flat (hp s) a) /\
    fresh (hp s) (hp s') u /\ read (hp s') u = or_nil (do a <- uncertain; read (hp s) a).
Proof.
  intros W R Rv Os Ou.
  assert (Ho : o < length (outer (hp s))) by (apply nth_error_Some; congruence).
  assert (Frows := wf_rows W R).
  assert (B : exists h0 i0, (if length rows =? 1 then new_outer (hp s) (rows ++ rows) else (hp s, o)) = (h0, i0) /\
     ext (hp s) h0 /\ wf h0 /\ i0 < length (outer h0) /\ read h0 i0 = Some (as_box v)).
  { destruct (length rows =? 1) eqn:L.
    - apply Nat.eqb_eq in L. destruct rows as [|r [|? ?]]; simpl in L; try discriminate.
      exists (fst (new_outer (hp s) [r; r])), (length (outer (hp s))). split; [reflexivity|].
      split; [apply ext_new_outer|]. split; [apply wf_new_outer; [exact W|inversion Frows; subst; repeat constructor; assumption]|].
      simpl. rewrite app_length. simpl. split; [lia|]. unfold read. simpl.
      rewrite nth_error_app2, Nat.sub_diag by lia. simpl.
      unfold read in Rv. rewrite R in Rv. simpl in Rv. destruct (nth_error (inner (hp s)) r) as [p|]; [|discriminate].
      simpl in *. injection Rv as <-. reflexivity.
    - exists (hp s), o. split; [reflexivity|]. split; [apply ext_refl|]. split; [exact W|]. split; [exact Ho|].
      rewrite Rv. f_equal. unfold read in Rv. rewrite R in Rv. cbn [obind] in Rv. apply mapM_length in Rv.
      destruct v as [|p [|q v]]; try reflexivity. exfalso. simpl in Rv. rewrite <- Rv in L. discriminate. }
  destruct B as [h0 [i0 [B [E0 [W0 [Hi0 R0]]]]]].
  destruct (deepcopy_spec W0 Hi0) as [h1 [i [D1 [E1 [W1 [F1 R1]]]]]].
  assert (Hi1 : i0 < length (outer h1)) by (assert (A := ext_len_out E1); lia).
  destruct (deepcopy_spec W1 Hi1) as [h2 [ia [D2 [E2 [W2 [F2 R2]]]]]].
  assert (E02 : ext (hp s) h2) by (exact (ext_trans E0 (ext_trans E1 E2))).
  assert (Os2 : flat_ok h2 static) by (destruct static; simpl in *; [assert (A := ext_len_in E02); lia|exact I]).
  assert (RS : (do a <- static; read_flat h2 a) = (do a <- static; read_flat (hp s) a)).
  { destruct static as [a|]; [|reflexivity]. simpl. apply (ext_flat E02 Os). }
  assert (St : exists h3 x xa, (match truthy (inner h2) static with
           | Some x => do p <- deepcopy_flat h2 x; do q <- deepcopy_flat (fst p) x; Some (fst q, snd p, Some (snd q))
           | None => let (h, p) := new_inner h2 [] in Some (h, p, None)
           end) = Some (h3, x, xa) /\ ext h2 h3 /\ wf h3 /\ fresh_flat h2 h3 x /\
     read_flat h3 x = or_nil (do a <- static; read_flat (hp s) a)).
  { assert (T := truthy_flat static W2). destruct (truthy (inner h2) static) as [x|].
    - destruct T as [-> Hx]. destruct (deepcopy_flat_spec W2 Hx) as [h' [a' [D [E [W' [Fr Rf]]]]]].
      rewrite D. cbn [obind fst snd].
      assert (Hx' : x < length (inner h')) by (assert (A := ext_len_in E); lia).
      destruct (deepcopy_flat_spec W' Hx') as [h'' [a'' [D' [E' [W'' [Fr' Rf']]]]]].
      rewrite D'. cbn [obind fst snd]. exists h'', a', (Some a''). split; [reflexivity|].
      split; [exact (ext_trans E E')|]. split; [exact W''|]. split; [apply (fresh_flat_mono (ext_refl _) E' Fr)|].
      rewrite (ext_flat E') by (unfold fresh_flat in Fr; lia). rewrite Rf. simpl in RS. cbn [obind]. rewrite <- RS.
      unfold read_flat. destruct (nth_error (inner h2) x) eqn:N; [reflexivity|apply nth_error_None in N; lia].
    - specialize (T Os2). exists (fst (new_inner h2 [])), (snd (new_inner h2 [])), None. split; [reflexivity|].
      split; [apply ext_new_inner|]. split; [apply wf_new_inner, W2|].
      unfold fresh_flat, read_flat at 1. simpl. rewrite app_length. simpl. split; [lia|].
      rewrite nth_error_app2, Nat.sub_diag by lia. simpl. rewrite RS in T. destruct T as [[T _]|T]; rewrite T; reflexivity. }
  destruct St as [h3 [x [xa [S3 [E3 [W3 [F3 R3]]]]]]].
  assert (E03 := ext_trans E02 E3).
  assert (Ou3 : outer_ok h3 uncertain) by (destruct uncertain; simpl in *; [assert (A := ext_len_out E03); lia|exact I]).
  assert (RU : (do a <- uncertain; read h3 a) = (do a <- uncertain; read (hp s) a)).
  { destruct uncertain as [a|]; [|reflexivity]. simpl. apply (ext_read W E03 Ou). }
  assert (Un : exists h4 u ua, (match truthy (outer h3) uncertain with
           | Some x => do p <- deepcopy h3 x; do q <- deepcopy (fst p) x; Some (fst q, snd p, Some (snd q))
           | None => let (h, p) := new_outer h3 [] in Some (h, p, None)
           end) = Some (h4, u, ua) /\ ext h3 h4 /\ wf h4 /\ fresh h3 h4 u /\
     read h4 u = or_nil (do a <- uncertain; read (hp s) a)).
  { assert (T := truthy_outer uncertain W3). destruct (truthy (outer h3) uncertain) as [y|].
    - destruct T as [-> Hy]. destruct (deepcopy_spec W3 Hy) as [h' [a' [D [E [W' [Fr Rf]]]]]].
      rewrite D. cbn [obind fst snd].
      assert (Hy' : y < length (outer h')) by (assert (A := ext_len_out E); lia).
      destruct (deepcopy_spec W' Hy') as [h'' [a'' [D' [E' [W'' [Fr' Rf']]]]]].
      rewrite D'. cbn [obind fst snd]. exists h'', a', (Some a''). split; [reflexivity|].
      split; [exact (ext_trans E E')|]. split; [exact W''|]. split; [apply (fresh_mono (ext_refl _) E' Fr)|].
      rewrite (ext_read W' E') by (destruct Fr; lia). rewrite Rf. simpl in RU. cbn [obind]. rewrite <- RU.
      destruct (read_some W3 Hy) as [? [v' [_ [Rv' _]]]]. rewrite Rv'. reflexivity.
    - specialize (T Ou3). exists (fst (new_outer h3 [])), (snd (new_outer h3 [])), None. split; [reflexivity|].
      split; [apply ext_new_outer|]. split; [apply wf_new_outer; [exact W3|constructor]|].
      unfold fresh, read at 1. simpl. rewrite app_length. simpl.
      rewrite nth_error_app2, Nat.sub_diag by lia. simpl. split; [split; [lia|exists []; auto]|].
      rewrite RU in T. destruct T as [[T _]|T]; rewrite T; reflexivity. }
  destruct Un as [h4 [u [ua [S4 [E4 [W4 [F4 R4]]]]]]].
  unfold store_init. rewrite B, D1. cbn [obind fst snd]. rewrite D2. cbn [obind fst snd]. rewrite S3. cbn [obind fst snd].
  rewrite S4. cbn [obind fst snd].
  eexists. exists i, x, u. split; [reflexivity|]. cbn [hp init_dict init_mode_dict static_dict uncertain_param_dict agent_dict map_lanes].
  assert (E24 := ext_trans E3 E4). assert (E14 := ext_trans E2 E24).
  split; [exact (ext_trans E03 E4)|]. split; [exact W4|].
  split; [reflexivity|]. split; [reflexivity|]. split; [reflexivity|]. split; [reflexivity|].
  split; [eexists; split; [reflexivity|repeat split]|]. split; [reflexivity|].
  split; [apply (fresh_mono E0 E14 F1)|].
  split; [rewrite (ext_read W1 E14) by (destruct F1; lia); rewrite R1; exact R0|].
  split; [apply (fresh_flat_mono E02 E4 F3)|].
  split; [rewrite (ext_flat E4); [exact R3|unfold fresh_flat in F3; lia]|].
  split; [apply (fresh_mono E03 (ext_refl _) F4)|exact R4].
Qed.
