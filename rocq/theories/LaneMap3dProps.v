(** C54: lane adjacency stays symmetric.  C71: physical lane names. *)
From Coq Require Import Ascii String.
From Verif Require Import Base PyText Dict ResetProofs LaneMap3d LaneMap3dSpec LaneMap3dProofs.
Set Implicit Arguments.
Open Scope nat_scope.

Section Props.
  Variables (L : Type) (lid : L -> word).

  (** C54 (part proved).  After every history of [add_lanes] and [pair_lanes] calls in which no lane is added
      again once paired and every pairing succeeds, [b] is registered as an [r]-neighbour of [a] exactly as
      often as [a] is registered as an opposite neighbour of [b].
      Missing: histories that add a paired lane again or whose pairings fail ([C54_readding_refuted],
      [C54_failing_pair_refuted] show the claim is false for them). *)
  Theorem C54_symmetric_partial (init : list L) (calls : list (call L)) :
    orderly lid init calls ->
    forall r a b, registered r (run lid init calls) a b = registered (opposite r) (run lid init calls) b a.
  Proof.
    intros O r a b. unfold registered. rewrite !(run_lists O). apply named_sym_all.
  Qed.

  (** C54: in such a history each list is exactly the sequence of neighbours the calls named, in call order. *)
  Theorem C54_lists_partial (init : list L) (calls : list (call L)) :
    orderly lid init calls ->
    forall r a, neighbours r (run lid init calls) a = flat_map (named_by r a) calls.
  Proof. intros O r a. apply run_lists, O. Qed.

  (** C54: after any history at all, a pairing succeeds exactly when both lanes have been added and the relation
      is one of the four. *)
  Theorem C54_pair_succeeds (init : list L) (calls : list (call L)) s d x :
    snd (pair_lanes (run lid init calls) s d x) = true <->
    added lid init calls s /\ added lid init calls d /\ exists r, x = rel_name r.
  Proof.
    destruct (rel_of x) as [r|] eqn:E.
    - apply rel_of_inv in E. subst x. rewrite (pair_ok s d r (run_keys lid init calls)).
      rewrite andb_true_iff, !run_known. split; [intros [A B]; eauto|intros [A [B _]]; auto].
    - split.
      + unfold pair_lanes. rewrite E. discriminate.
      + intros [_ [_ [r ->]]]. rewrite rel_of_name in E. discriminate.
  Qed.

  (** C54: after any history, a failing [pair_lanes] call leaves every lane other than its source exactly as it
      was, and of its source only the list of the named direction can have changed, by the destination. *)
  Theorem C54_failing_call_local (init : list L) (calls : list (call L)) s d x m' :
    pair_lanes (run lid init calls) s d x = (m', false) ->
    (forall a, added lid init calls a <-> dmem word_eqb a (lane_dict m') = true) /\
    (forall r a, a <> s -> neighbours r m' a = neighbours r (run lid init calls) a) /\
    (forall r, neighbours r m' s = neighbours r (run lid init calls) s \/
               x = rel_name r /\ ~ added lid init calls d /\ neighbours r m' s = neighbours r (run lid init calls) s ++ [d]).
  Proof.
    intros P. assert (M : m' = fst (pair_lanes (run lid init calls) s d x)) by (rewrite P; reflexivity).
    assert (Ok : snd (pair_lanes (run lid init calls) s d x) = false) by (rewrite P; reflexivity).
    set (m := run lid init calls) in *. assert (K : same_keys m) by apply run_keys.
    split; [intros a; rewrite M, pair_lanes_dict; unfold m; rewrite run_known; tauto|].
    destruct (rel_of x) as [r|] eqn:E.
    - apply rel_of_inv in E. subst x. rewrite (pair_ok s d r K) in Ok.
      destruct (dmem word_eqb s (lane_dict m)) eqn:Es.
      + simpl in Ok.
        assert (N : forall r' a, neighbours r' m' a = neighbours r' m a ++ (if rel_eqb r' r && word_eqb a s then [d] else [])).
        { intros r' a. rewrite M, (pair_nb s d r r' a K Es), Ok, andb_false_r, app_nil_r. reflexivity. }
        split.
        * intros r' a Ha. rewrite N. rewrite (proj2 (word_eqb_neq a s) Ha), andb_false_r, app_nil_r. reflexivity.
        * intros r'. rewrite N, word_eqb_refl, andb_true_r. destruct (rel_eqb r' r) eqn:Er.
          -- right. apply rel_eqb_eq in Er. subst r'. split; [reflexivity|]. split; [|reflexivity].
             intros A. apply run_known in A. unfold m in Ok. congruence.
          -- left. apply app_nil_r.
      + assert (N : forall r' a, neighbours r' m' a = neighbours r' m a).
        { intros r' a. rewrite M, pair_eq. assert (A := append_nb r s d r' a m).
          assert (O := append_ok r s d m). destruct (append_to r s d m) as [m2 ok]. simpl in *.
          rewrite (K r), Es in A, O. subst ok. rewrite andb_false_r in A. exact A. }
        split; [intros; apply N|intros; left; apply N].
    - assert (m' = m) by (rewrite M; unfold pair_lanes; rewrite E; reflexivity).
      split; [intros r a _; rewrite H; reflexivity|intros r; left; rewrite H; reflexivity].
  Qed.

  (** C54: after any history the queries never raise for an added lane that has a neighbour, [has_<r>] answers
      whether one is registered, and [<r>_lane] returns the first one registered; of a lane never added the
      first answers False and the second raises. *)
  Theorem C54_queries (init : list L) (calls : list (call L)) r a :
    let m := run lid init calls in
    (added lid init calls a ->
       has r m a = Some (match neighbours r m a with [] => false | _ => true end) /\
       the_lane r m a = hd_error (neighbours r m a)) /\
    (~ added lid init calls a -> has r m a = Some false /\ the_lane r m a = None).
  Proof.
    intros m. assert (K : same_keys m) by apply run_keys.
    assert (D : dmem word_eqb a match r with Right => right_lane_dict m | _ => left_lane_dict m end
                = dmem word_eqb a (lane_dict m)).
    { destruct r; [apply (K Left)|apply (K Right)|apply (K Left)|apply (K Left)]. }
    assert (Kr := K r a).
    split; intros A.
    - apply run_known in A. fold m in A. unfold has, the_lane, neighbours. rewrite D.
      rewrite A in *.
      assert (F := forall_known lid init calls r). fold m in F. rewrite F. unfold dmem in Kr.
      destruct (dget word_eqb a (dict_of r m)) as [l|]; [|discriminate].
      split; [destruct l; reflexivity|reflexivity].
    - assert (F : dmem word_eqb a (lane_dict m) = false).
      { destruct (dmem word_eqb a (lane_dict m)) eqn:E; [|reflexivity]. apply run_known in E. contradiction. }
      unfold has, the_lane. rewrite D, F. split; [reflexivity|].
      destruct (forallb _ _); reflexivity.
  Qed.
End Props.
Print Assumptions C54_symmetric_partial.
Print Assumptions C54_lists_partial.
Print Assumptions C54_pair_succeeds.
Print Assumptions C54_failing_call_local.
Print Assumptions C54_queries.

Module Example_lanes.
  Definition t (s : string) : word := w s.
  Definition init := [t "T0"; t "T1"].
  Definition calls : list (call word) :=
    [PairLanes (t "T0") (t "T1") (t "left"); AddLanes [t "T2"]; PairLanes (t "T2") (t "T1") (t "right");
     PairLanes (t "T2") (t "T0") (t "up")].

  Lemma calls_orderly : orderly (fun x => x) init calls.
  Proof.
    split.
    - intros pre ls post E l s d r Hl Hp. unfold calls in E.
      destruct pre as [|c1 pre]; [discriminate|]. injection E as <- E.
      destruct pre as [|c2 pre].
      + injection E as <- _. destruct Hl as [<-|[]]. destruct Hp as [Hp|[]]. inversion Hp; subst. split; discriminate.
      + exfalso. injection E as <- E. destruct pre as [|c3 pre]; [discriminate|]. injection E as <- E.
        destruct pre as [|c4 pre]; [discriminate|]. injection E as <- E. destruct pre; discriminate.
    - intros pre s d x post E. unfold calls in E.
      assert (A0 : forall p, added (fun x : word => x) init p (t "T0")) by (intros; left; exists (t "T0"); simpl; auto).
      assert (A1 : forall p, added (fun x : word => x) init p (t "T1")) by (intros; left; exists (t "T1"); simpl; auto).
      assert (A2 : forall p, In (AddLanes [t "T2"]) p -> added (fun x : word => x) init p (t "T2"))
        by (intros p Hp; right; exists [t "T2"], (t "T2"); simpl; auto).
      destruct pre as [|c1 pre].
      { injection E as <- <- <- _. split; [apply A0|split; [apply A1|exists Left; reflexivity]]. }
      injection E as <- E. destruct pre as [|c2 pre]; [discriminate|]. injection E as <- E.
      destruct pre as [|c3 pre].
      { injection E as <- <- <- _. split; [apply A2; simpl; auto|split; [apply A1|exists Right; reflexivity]]. }
      injection E as <- E. destruct pre as [|c4 pre].
      { injection E as <- <- <- _. split; [apply A2; simpl; auto|split; [apply A0|exists Up; reflexivity]]. }
      injection E as <- E. destruct pre; discriminate.
  Qed.

  (** [T1] is left of [T0] and right of [T2]; [T0] is above [T2]. *)
  Example lists : neighbours Left (run (fun x => x) init calls) (t "T1") = [t "T2"] /\
                  neighbours Right (run (fun x => x) init calls) (t "T1") = [t "T0"] /\
                  neighbours Right (run (fun x => x) init calls) (t "T2") = [t "T1"] /\
                  the_lane Down (run (fun x => x) init calls) (t "T0") = Some (t "T2").
  Proof. vm_compute. auto. Qed.
  Example symmetric r a b :
    registered r (run (fun x => x) init calls) a b = registered (opposite r) (run (fun x => x) init calls) b a.
  Proof. apply C54_symmetric_partial, calls_orderly. Qed.
  (** A failing call: the destination does not exist. *)
  Example fails : snd (pair_lanes (run (fun x => x) init calls) (t "T0") (t "T9") (t "left")) = false.
  Proof. reflexivity. Qed.
End Example_lanes.

(** C54 (refuted).  A pairing with a lane that was never added raises, yet registers it on the source side. *)
Theorem C54_failing_pair_refuted :
  exists (init : list word) (calls : list (call word)) a b,
    registered Left (run (fun x => x) init calls) a b <> registered Right (run (fun x => x) init calls) b a /\
    has Left (run (fun x => x) init calls) a = Some true.
Proof.
  exists [w "T0"], [PairLanes (w "T0") (w "T9") (w "left")], (w "T0"), (w "T9").
  vm_compute. split; [discriminate|reflexivity].
Qed.
Print Assumptions C54_failing_pair_refuted.

(** C54 (refuted).  Adding a paired lane again empties its lists and leaves the partner's as they were. *)
Theorem C54_readding_refuted :
  exists (init : list word) (calls : list (call word)) a b,
    (forall c, In c calls -> match c with PairLanes s d x => s = a /\ d = b /\ x = w "left" | AddLanes ls => ls = [a] end) /\
    registered Left (run (fun x => x) init calls) a b <> registered Right (run (fun x => x) init calls) b a.
Proof.
  exists [w "T0"; w "T1"], [PairLanes (w "T0") (w "T1") (w "left"); AddLanes [w "T0"]], (w "T0"), (w "T1").
  split; [|vm_compute; discriminate].
  intros c [<-|[<-|[]]]; auto.
Qed.
Print Assumptions C54_readding_refuted.

(** ** C71: the physical lane of a name *)

(** C71.  A name [M] followed by two digits denotes the lane numbered by the first of them. *)
Theorem C71_highway (i j : ascii) : is_digit i = true -> is_digit j = true ->
  get_phys_lane (w "M" ++ [i; j]) = w "T" ++ [i].
Proof. intros Hi Hj. unfold get_phys_lane. simpl. rewrite Hi, Hj. reflexivity. Qed.
Print Assumptions C71_highway.

(** C71.  At an intersection, [<road>_<i>_<j>] denotes the lane [<road>_<i>]. *)
Theorem C71_intersection (road i j : word) : uppers road -> digits i -> digits j ->
  get_phys_lane (road ++ w "_" ++ i ++ w "_" ++ j) = road ++ w "_" ++ i.
Proof.
  intros [Nr Hr] [Ni Hi] [Nj Hj].
  assert (V : virt_lane (road ++ w "_" ++ i ++ w "_" ++ j) = false).
  { destruct Hr as [|c r Hc Hr]; [congruence|]. destruct Hr as [|c2 r Hc2 Hr].
    - simpl. destruct i; [congruence|]. simpl. rewrite andb_false_r. reflexivity.
    - simpl. destruct (r ++ "_"%char :: i ++ "_"%char :: j) as [|c3 r3] eqn:E; [reflexivity|].
      assert (is_digit c2 = false).
      { unfold is_upper, is_digit in *. apply andb_true_iff in Hc2. destruct Hc2 as [H1 H2].
        apply Nat.leb_le in H1. apply andb_false_iff. right. apply Nat.leb_gt. lia. }
      rewrite H, andb_false_r. reflexivity. }
  assert (I : intersect_virt_lane (road ++ w "_" ++ i ++ w "_" ++ j) = true).
  { unfold intersect_virt_lane.
    rewrite plus_all by (try assumption; reflexivity). cbn [obind].
    change (w "_" ++ i ++ w "_" ++ j) with ("_"%char :: i ++ w "_" ++ j). unfold lit at 1. rewrite Ascii.eqb_refl. cbn [obind].
    rewrite plus_all by (try assumption; reflexivity). cbn [obind].
    change (w "_" ++ j) with ("_"%char :: j). unfold lit. rewrite Ascii.eqb_refl. cbn [obind].
    rewrite <- (app_nil_r j). rewrite plus_all by (try assumption; exact I). reflexivity. }
  unfold get_phys_lane. rewrite V, I. unfold rsplit_head.
  change (w "_" ++ i ++ w "_" ++ j) with (w "_" ++ (i ++ "_"%char :: j)).
  rewrite !app_assoc, (before_last_split ((road ++ w "_") ++ i) Hj). reflexivity.
Qed.
Print Assumptions C71_intersection.

(** C71.  Physical names denote themselves: [T<i>], and [<road>_<i>]. *)
Theorem C71_physical (s : word) :
  (exists i, s = w "T" ++ i) /\ ~ In "_"%char s \/ (exists road i, uppers road /\ digits i /\ s = road ++ w "_" ++ i) ->
  get_phys_lane s = s.
Proof.
  intros H. unfold get_phys_lane.
  assert (V : virt_lane s = false).
  { destruct H as [[[i ->] _]|[road [i [[Nr Hr] [[Ni Hi] ->]]]]].
    - destruct i as [|a [|b i]]; reflexivity.
    - destruct Hr as [|c r Hc Hr]; [congruence|]. destruct Hr as [|c2 r Hc2 Hr].
      + simpl. destruct i; [congruence|]. rewrite andb_false_r. reflexivity.
      + simpl. destruct (r ++ "_"%char :: i) as [|c3 r3] eqn:E; [reflexivity|].
        assert (is_digit c2 = false).
        { unfold is_upper, is_digit in *. apply andb_true_iff in Hc2. destruct Hc2 as [H1 H2].
          apply Nat.leb_le in H1. apply andb_false_iff. right. apply Nat.leb_gt. lia. }
        rewrite H, andb_false_r. reflexivity. }
  rewrite V.
  assert (I : intersect_virt_lane s = false); [|rewrite I; reflexivity].
  destruct H as [[_ Hs]|[road [i [[Nr Hr] [[Ni Hi] ->]]]]].
  - unfold intersect_virt_lane. destruct (plus is_upper s) as [s1|] eqn:E1; [|reflexivity]. cbn [obind].
    assert (S1 : incl s1 s).
    { unfold plus in E1. destruct s as [|c s']; [discriminate|]. destruct (is_upper c); [|discriminate].
      injection E1 as <-. intros x Hx. right. clear -Hx.
      induction s' as [|b s' IH]; simpl in *; [exact Hx|]. destruct (is_upper b); [right; auto|exact Hx]. }
    destruct s1 as [|c s1]; [reflexivity|]. simpl. destruct (Ascii.eqb c "_") eqn:Ec; [|reflexivity].
    apply Ascii.eqb_eq in Ec. subst c. exfalso. apply Hs, S1. left. reflexivity.
  - unfold intersect_virt_lane. rewrite plus_all by (try assumption; reflexivity). cbn [obind].
    change (w "_" ++ i) with ("_"%char :: i). unfold lit at 1. rewrite Ascii.eqb_refl. cbn [obind].
    rewrite <- (app_nil_r i). rewrite plus_all by (try assumption; exact I). reflexivity.
Qed.
Print Assumptions C71_physical.

(** C71 (refuted).  The patterns are matched at the start of the name only: a three-digit name [M123] is read as
    a transition from lane 1, and the two maps disagree on which digit of a transition's name counts. *)
Theorem C71_longer_names_refuted :
  get_phys_lane (w "M123") = w "T1" /\
  get_phys_lane (get_phys_lane (w "A_1_2_3")) <> get_phys_lane (w "A_1_2_3") /\
  exists n, is_digit "0" = true /\ is_digit "1" = true /\ n = w "M" ++ ["0"; "1"]%char /\
            trans_func n <> Some (get_phys_lane n).
Proof.
  split; [reflexivity|split; [vm_compute; discriminate|]].
  eexists. split; [reflexivity|split; [reflexivity|split; [reflexivity|vm_compute; discriminate]]].
Qed.
Print Assumptions C71_longer_names_refuted.

Module Example_names.
  Example highway : get_phys_lane (w "M01") = w "T0". Proof. reflexivity. Qed.
  Example crossing : get_phys_lane (w "NE_10_2") = w "NE_10" /\ uppers (w "NE") /\ digits (w "10") /\ digits (w "2").
  Proof. split; [reflexivity|]. unfold uppers, digits. repeat split; try discriminate; repeat constructor. Qed.
End Example_names.
