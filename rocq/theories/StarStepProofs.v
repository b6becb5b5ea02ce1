(** Proofs about steps with star sets. *)
From Coq Require Import Ascii String.
From Verif Require Import Base BaseFacts Dict PyText Scan ScanSpec ScanProofs TransProofs ScanMain ScanProps Round Step StepProofs Star StarSpec StarStep StarStepSpec.
From Coq Require Import Permutation Sorted.
Set Implicit Arguments.
Open Scope nat_scope.

Section Proofs.
  Variables path cond : Type.
  Variable pvar : path -> word.
  Variable agents : list (dlogic path cond).
  Variable tube_of : nat -> mode -> list star -> Q -> option stube.
  Variable g_disc : list mode -> list (Q * star) -> nat -> path -> bool.
  Variable g_hyb : list mode -> list (Q * star) -> nat -> path -> bool.
  Variable g_cont : list mode -> list (Q * star) -> nat -> path -> bool * bool.
  Variable g_certain : list mode -> list (Q * star) -> nat -> cond -> bool.
  Variable g_reset : list mode -> list (Q * star) -> nat -> list path -> option (list mode * star).
  Variable maph : option word -> option mode -> option mode -> option word.
  Variable digits : nat.

  Notation star_search := (star_search pvar agents g_disc g_hyb g_cont g_certain g_reset maph).
  Definition at_step (js : list (list (Q * star))) (i : nat) : list (Q * star) := nth i js [].

  Lemma fill_agents nd remain trs : star_fill agents tube_of nd remain = Some trs -> length trs = length agents.
  Proof. intros H. apply mapM_length in H. rewrite seq_length in H. exact H. Qed.

  Lemma search_joint trs modes res : star_search trs modes = Some res -> exists l js, min_len trs = Some l /\ length js = l /\
    (forall i, i < l -> joint_at trs i = Some (at_step js i)) /\
    get_transitions pvar agents (g_disc modes (at_step js 0)) (fun a p i => g_hyb modes (at_step js i) a p) (fun a p i => g_cont modes (at_step js i) a p)
      (fun a c i => g_certain modes (at_step js i) a c) (fun a i ps => g_reset modes (at_step js i) a ps) maph modes None l = Some res.
  Proof.
    unfold StarStep.star_search. destruct (min_len trs) as [l|]; [|discriminate]. cbn [obind]. destruct (mapM (joint_at trs) (seq 0 l)) as [js|] eqn:E; [|discriminate]. cbn [obind]. intros H.
    exists l, js. split; [reflexivity|]. split; [apply mapM_length in E; rewrite seq_length in E; exact E|]. split; [|exact H].
    intros i Hi. destruct (@mapM_seq_nth _ _ _ _ i E Hi) as (b & Eb & Ej). unfold at_step. rewrite (nth_error_nth _ _ _ Eb). exact Ej.
  Qed.

  Lemma joint_in trs i js s : joint_at trs i = Some js -> star_state_at trs i s -> in_stars js s.
  Proof.
    unfold joint_at, star_state_at, in_stars. intros E H. revert js E. induction H as [|tr x trs s (e & Ee & He) H IH]; intros js E; cbn [mapM] in E.
    - injection E as <-. constructor.
    - rewrite Ee in E. cbn [obind] in E. destruct (mapM _ trs) as [js'|]; [|discriminate]. cbn [obind] in E. injection E as <-. constructor; [exact He|]. apply IH. reflexivity.
  Qed.

  Lemma nth_skipn {A} (l : list A) n k : nth_error (skipn n l) k = nth_error l (n + k).
  Proof. revert l. induction n as [|n IH]; intros [|x l]; cbn [skipn Nat.add nth_error]; try reflexivity; [destruct k; reflexivity|apply IH]. Qed.

  Lemma child_enters nd trs (t : transition path star) c d : length (s_mode nd) = length trs -> t_agent t < length trs -> t_dest t = Some d ->
    star_child digits nd trs t = Some (Some c) ->
    exists i0, nth_error (t_idx t) 0 = Some i0 /\ enters digits nd trs (t_agent t) d i0 c /\ nth_error (s_init c) (t_agent t) = Some (map One (t_inits t)).
  Proof.
    intros Lm La Ed. unfold star_child. destruct (nth_error (t_idx t) 0) as [i0|] eqn:Ei; [|discriminate]. cbn [obind]. rewrite Ed.
    destruct (nth_error (map (skipn i0) trs) 0) as [t0|] eqn:E0; [|discriminate]. cbn [obind]. destruct (nth_error t0 0) as [e0|] eqn:Ee; [|discriminate]. cbn [obind].
    destruct (mapM _ (seq 0 (length trs))) as [inits|] eqn:Em; [|discriminate]. cbn [obind]. intros X. injection X as <-. exists i0. split; [reflexivity|]. split.
    - rewrite nth_error_map in E0. destruct (nth_error trs 0) as [tr0|] eqn:Et0; [|discriminate]. cbn [option_map] in E0. injection E0 as <-. rewrite nth_skipn in Ee. rewrite Nat.add_0_r in Ee.
      split; [exists tr0, e0; cbn [s_start]; auto|]. split; [reflexivity|]. cbn [s_mode s_trace]. split; [apply set_nth_same; lia|]. split; [intros b Hb; apply set_nth_other; exact Hb|]. split.
      + rewrite nth_error_map. destruct (nth_error trs (t_agent t)) as [tr|] eqn:Etr; [|apply nth_error_None in Etr; lia].
        rewrite (@nth_error_combine _ _ (seq 0 (length trs)) (map (skipn i0) trs) (t_agent t) (t_agent t) (skipn i0 tr)); [|rewrite nth_error_seq by exact La; reflexivity|rewrite nth_error_map, Etr; reflexivity]. cbn [option_map fst]. rewrite Nat.eqb_refl. reflexivity.
      + intros b tr Hb Etr. assert (Hl : b < length trs) by (apply nth_error_Some; congruence). exists (skipn i0 tr). rewrite nth_error_map.
        rewrite (@nth_error_combine _ _ (seq 0 (length trs)) (map (skipn i0) trs) b b (skipn i0 tr)); [|rewrite nth_error_seq by exact Hl; reflexivity|rewrite nth_error_map, Etr; reflexivity]. cbn [option_map fst snd]. destruct (Nat.eqb_spec b (t_agent t)); [congruence|]. split; [reflexivity|]. intros k. apply nth_skipn.
    - cbn [s_init]. destruct (@mapM_seq_nth _ _ _ _ (t_agent t) Em La) as (b & Eb & Ef). rewrite Nat.eqb_refl in Ef. rewrite Eb. symmetry. exact Ef.
  Qed.

  Lemma somes_In {A} (l : list (option A)) a : In (Some a) l -> In a (somes l).
  Proof. induction l as [|[x|] l IH]; intros H; [destruct H| |]; cbn [somes]; destruct H as [H|H]; try discriminate; [left; congruence|right; apply IH; exact H|apply IH; exact H]. Qed.
End Proofs.
