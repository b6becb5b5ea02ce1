(** Searching a verified tube for transitions: properties C16, C33 (verify) and C66.

    [get_transitions ... None len] is what [Verifier.get_transition_verify_opt] returns for a node whose
    tube has [len] time intervals, without a previous run: [inl (asserts, i)] or [inr transitions].  What the
    sensor, the guard, the assertion and the reset evaluation answer is arbitrary. *)
From Coq Require Import Ascii String.
From Verif Require Import Base BaseFacts Dict PyText Scan ScanSpec ScanProofs TransProofs ScanMain.
From Coq Require Import Permutation Sorted.
Set Implicit Arguments.
Open Scope nat_scope.

Section Props.
  Variables path cond rect : Type.
  Variable pvar : path -> word.
  Variable agents : list (dlogic path cond).
  Variable disc : nat -> path -> bool.
  Variable hyb : nat -> path -> nat -> bool.
  Variable cont : nat -> path -> nat -> bool * bool.
  Variable certain : nat -> cond -> nat -> bool.
  Variable reset : nat -> nat -> list path -> option (list mode * rect).
  Variable maph : option word -> option mode -> option mode -> option word.
  Variable src : list mode.

  Notation verify_transitions := (get_transitions pvar agents disc hyb cont certain reset maph src None).
  Notation visited := (visited agents disc hyb cont certain).
  Notation ends := (ends agents disc hyb cont certain).
  Notation violation := (violation agents certain).
  Notation violates := (violates agents certain).
  Notation broken := (broken certain).
  Notation checked := (checked agents).
  Notation choice := (choice pvar agents disc hyb cont).
  Notation moves := (moves pvar agents disc hyb cont certain reset maph src).

  (** C16, assertions: a reported violation is at the first index of the scan where some assertion is broken;
      the report lists exactly the agents with a broken assertion, each with exactly their labels. *)
  Theorem C16_assert_report len asr i : verify_transitions len = Some (inl (asr, i)) ->
    i < len /\ visited i /\ violation i /\
    (forall a, (exists ls, In (a, ls) asr) <-> violates a i) /\
    (forall a ls lg l, In (a, ls) asr -> checked a lg ->
       (In l ls <-> exists x, In x (d_asserts lg) /\ broken a i x /\ fst (fst x) = l)).
  Proof.
    intros H. destruct (gt_violation _ _ _ _ _ _ _ _ _ _ H) as (H1 & H2 & H3 & H4).
    split; [exact H1|]. split; [exact H2|]. split; [exact H3|]. split.
    - intros a. split; [intros (ls & Hl); apply H4 in Hl; tauto|].
      intros Hv. destruct Hv as (lg & x & Hc & Hx & Hb). exists (asserts_at certain lg a i). apply H4. split; [exists lg, x; auto|eauto].
    - intros a ls lg l Hin Hc. apply H4 in Hin. destruct Hin as (_ & lg' & Hc' & ->).
      assert (lg' = lg) by (destruct Hc, Hc'; congruence). subst lg'. apply asserts_at_In.
  Qed.

  (** C16, transitions: they are collected from a prefix of the indices, without violations, that stops
      nowhere but at the end of the tube, at an index where a guard is certain, or at a gap after a hit.  Every
      entry of a returned transition is a possible move at an index of the prefix, and every possible choice
      of enabled paths at every index of the prefix is represented, at its index. *)
  Theorem C16_transitions len ts : verify_transitions len = Some (inr ts) ->
    exists n, n <= len /\ visited n /\ ends n len /\
      (forall t i r, In t ts -> has_entry t i r -> i < n /\ exists c d, t_dest t = Some d /\ moves (t_agent t) i c d r) /\
      (forall a i c, i < n -> choice a i c -> ~ violates a i ->
         exists c' ds r, Permutation c c' /\ reset a i c' = Some (ds, r) /\ ds <> [] /\
           forall d, moves a i c' d r -> exists t, In t ts /\ t_agent t = a /\ t_dest t = Some d /\ has_entry t i r).
  Proof.
    intros H. destruct (gt_transitions _ _ _ _ _ _ _ _ _ _ H) as (n & gh & Hn & Hv & He & Hc & HT).
    exists n. split; [exact Hn|]. split; [exact Hv|]. split; [exact He|]. split.
    - intros t i r. apply transitions_sound with (gh := gh); assumption.
    - intros a i c. apply transitions_complete with (gh := gh); assumption.
  Qed.

  (** C16: the search gives a result unless some reset of a possible choice fails or has no destination. *)
  Theorem C16_defined len :
    (forall a i c, i < len -> choice a i c -> exists ds r, reset a i c = Some (ds, r) /\ ds <> []) ->
    exists res, verify_transitions len = Some res.
  Proof.
    intros H. destruct (verify_transitions len) as [res|] eqn:E; [eauto|]. exfalso.
    destruct (gt_none _ _ _ _ _ _ _ _ _ _ E) as (a & i & c & Hi & Hc & HR).
    destruct (H a i c Hi Hc) as (ds & r & Er & Hne). destruct HR as [HR|(r' & HR)]; congruence.
  Qed.

  (** C16: no violation in the visited prefix is left unreported. *)
  Theorem C16_no_violation_missed len ts i : verify_transitions len = Some (inr ts) -> violation i -> i < len ->
    exists n, n <= i /\ visited n /\
      ((0 < n /\ surely agents disc hyb cont certain (pred n)) \/
       (~ violation n /\ ~ fires agents disc hyb cont certain n /\ exists j, j < n /\ fires agents disc hyb cont certain j)).
  Proof.
    intros H Hvi Hi. destruct (gt_transitions _ _ _ _ _ _ _ _ _ _ H) as (n & gh & Hn & Hv & He & Hc & HT).
    exists n. assert (n <= i). { destruct (Nat.le_gt_cases n i) as [|Hlt]; [assumption|]. exfalso. destruct Hv as (V & _). apply (V i Hlt Hvi). }
    split; [assumption|]. split; [exact Hv|]. destruct He as [->|[He|He]]; [lia|tauto|tauto].
  Qed.

  (** C33, verify: every transition that is kept is permitted by the map; a possible destination that the
      map permits is kept (second part of [C16_transitions]), one it does not permit is not. *)
  Theorem C33_verify_respects_map len ts t : verify_transitions len = Some (inr ts) -> In t ts ->
    exists d lg, t_dest t = Some d /\ nth_error agents (t_agent t) = Some lg /\ permitted (d_types lg) maph (nth (t_agent t) src []) d.
  Proof.
    intros H Ht. destruct (gt_transitions _ _ _ _ _ _ _ _ _ _ H) as (n & gh & Hn & Hv & He & Hc & HT).
    edestruct transitions_shape as (_ & Hl & Hne & _); [exact Hc|exact HT|exact Ht|].
    destruct (t_idx t) as [|i idx] eqn:Ei; [congruence|]. destruct (t_inits t) as [|r rs] eqn:Er; [discriminate|].
    assert (Hent : has_entry t i r) by (exists 0; rewrite Ei, Er; auto).
    edestruct transitions_sound as (_ & c & d & Ed & (_ & _ & ds & lg & _ & _ & El & Hp)); [exact Hc|exact HT|exact Ht|exact Hent|].
    exists d, lg. auto.
  Qed.

  Theorem C33_verify_keeps_permitted len ts : verify_transitions len = Some (inr ts) ->
    exists n, visited n /\ ends n len /\ forall a i c lg, i < n -> choice a i c -> ~ violates a i -> nth_error agents a = Some lg ->
      exists c' ds r, Permutation c c' /\ reset a i c' = Some (ds, r) /\
        forall d, In d ds -> permitted (d_types lg) maph (nth a src []) d -> exists t, In t ts /\ t_agent t = a /\ t_dest t = Some d.
  Proof.
    intros H. destruct (C16_transitions _ H) as (n & _ & Hv & He & _ & HC). exists n. split; [exact Hv|]. split; [exact He|].
    intros a i c lg Hi Hch Hnv El. destruct (HC a i c Hi Hch Hnv) as (c' & ds & r & HP & Er & _ & HM).
    exists c', ds, r. split; [exact HP|]. split; [exact Er|]. intros d Hd Hp.
    destruct (HM d) as (t & Ht & Ha & Hdd & _); [|eauto].
    assert (Hch' : choice a i c').
    { destruct Hch as (A & B & C & D). split; [|split; [|split]].
      - intros ->. apply Permutation_sym, Permutation_nil in HP. contradiction.
      - eapply Permutation_NoDup; [apply Permutation_map; exact HP|exact B].
      - intros p Hin. apply C. eapply Permutation_in; [apply Permutation_sym; exact HP|exact Hin].
      - intros p Hm. destruct (D p Hm) as (q & Hq & Eq). exists q. split; [eapply Permutation_in; eauto|exact Eq]. }
    split; [exact Hch'|]. split; [exact Hnv|]. exists ds, lg. auto.
  Qed.

  (** C66: the returned transitions are well formed and one per agent, destination and number of resets. *)
  Theorem C66_transitions_grouped len ts : verify_transitions len = Some (inr ts) ->
    NoDup (map (fun t => (t_agent t, t_dest t, length (t_paths t))) ts) /\
    forall t, In t ts -> t_src t = nth (t_agent t) src [] /\ length (t_inits t) = length (t_idx t) /\
                         t_idx t <> [] /\ StronglySorted le (t_idx t).
  Proof.
    intros H. destruct (gt_transitions _ _ _ _ _ _ _ _ _ _ H) as (n & gh & Hn & Hv & He & Hc & HT). split.
    - eapply transitions_nodup. exact HT.
    - intros t Ht. eapply transitions_shape; eauto.
  Qed.
End Props.

(** * A concrete tube of seven indices, one agent with three paths and one assertion

    Path 0 (to mode B) may fire at 2, 3, 4 and is certain at 4; path 1 (resets x) may fire at 3; path 2 (to
    mode C) may fire at 3 and 4, but the map does not permit C.  The map has no tracks. *)
Module Example_scan.
  Definition logic : dlogic nat nat :=
    {| has_args := true; d_asserts := [(w "safe", 0, 1)]; d_paths := [0; 1; 2]; d_types := [w "M"; w "TrackMode"] |}.
  Definition pvar (p : nat) : word := if p =? 1 then w "x" else w "mode".
  Definition disc (a p : nat) := true.
  Definition hyb (a p i : nat) := true.
  Definition cont (a p i : nat) : bool * bool :=
    match p with
    | 0 => ((2 <=? i) && (i <=? 4), i =? 4)
    | 1 => (i =? 3, false)
    | _ => ((3 <=? i) && (i <=? 4), false)
    end.
  Definition ok (bad : nat) (a c i : nat) := match c with 0 => true | _ => negb (i =? bad) end.
  Definition reset (a i : nat) (c : list nat) : option (list mode * (nat * list nat)) :=
    Some ([[if existsb (Nat.eqb 2) c then w "C" else w "B"; w "T0"]], (i, c)).
  Definition maph (_ : option word) (_ d : option mode) : option word :=
    match d with Some [m] => if word_eqb m (w "B") then Some (w "T0") else None | _ => None end.
  Definition src : list mode := [[w "A"; w "T0"]].
  Definition result (bad len : nat) := get_transitions pvar [logic] disc hyb cont (ok bad) reset maph src None len.

  (** Stops after the certain index 4; the transitions to C are dropped; the entries with and without the
      reset of x are two transitions. *)
  Example ex_transitions : result 9 7 = Some (inr
    [{| t_agent := 0; t_src := [w "A"; w "T0"]; t_dest := Some [w "B"; w "T0"];
        t_inits := [(2, [0]); (4, [0])]; t_idx := [2; 4]; t_paths := [0] |};
     {| t_agent := 0; t_src := [w "A"; w "T0"]; t_dest := Some [w "B"; w "T0"];
        t_inits := [(3, [0; 1])]; t_idx := [3]; t_paths := [0; 1] |}]).
  Proof. reflexivity. Qed.

  (** A violation at index 3 is reported; one at index 5, after the certain index, is not visited. *)
  Example ex_violation : result 3 7 = Some (inl ([(0, [w "safe"])], 3)).
  Proof. reflexivity. Qed.
  Example ex_not_visited : exists ts, result 5 7 = Some (inr ts).
  Proof. eexists. reflexivity. Qed.
  Example ex_nothing : result 9 2 = Some (inr []).
  Proof. reflexivity. Qed.

  (** The hypotheses of [C16_transitions] and of [moves] are met. *)
  Example ex_choice : choice pvar [logic] disc hyb cont 0 3 [0; 1].
  Proof.
    split; [discriminate|]. split; [repeat constructor; simpl; intuition discriminate|]. split.
    - intros p Hp. split; [exists logic; split; [split; reflexivity|]|].
      + simpl in *. tauto.
      + destruct Hp as [<-|[<-|[]]]; auto.
    - intros p ((lg & (E & _) & Hp) & _). injection E as <-. simpl in Hp.
      destruct Hp as [<-|[<-|[<-|[]]]]; [exists 0|exists 1|exists 0]; simpl; auto.
  Qed.
  Example ex_C16_defined : forall a i c, i < 7 -> choice pvar [logic] disc hyb cont a i c -> exists ds r, reset a i c = Some (ds, r) /\ ds <> [].
  Proof. intros. unfold reset. eexists _, _. split; [reflexivity|discriminate]. Qed.
  Example ex_permitted : permitted [w "M"; w "TrackMode"] maph [w "A"; w "T0"] [w "B"; w "T0"] /\
                         ~ permitted [w "M"; w "TrackMode"] maph [w "A"; w "T0"] [w "C"; w "T0"].
  Proof. split; [right; reflexivity|]. intros [[E _]|E]; vm_compute in E; discriminate. Qed.
End Example_scan.

Print Assumptions C16_assert_report.
Print Assumptions C16_transitions.
Print Assumptions C16_defined.
Print Assumptions C16_no_violation_missed.
Print Assumptions C33_verify_respects_map.
Print Assumptions C33_verify_keeps_permitted.
Print Assumptions C66_transitions_grouped.
