(** Properties C10, C11, C12 and C13 (the guard part): checking a guard on a box of states.

    [geval] (GuardSpec.v) is the value of a guard in a state, as Python would compute it; [guard_check] is the pair
    (satisfiable, contained) the verifier computes for a box; [unroll] replaces any/all. *)
From Coq Require Import Ascii String ClassicalDescription.
From Verif Require Import Base BaseFacts Dict PyText Guard GuardSpec GuardProofs.
Set Implicit Arguments.
Open Scope nat_scope.

Section Props.
  (** The numbers, with the arithmetic and the comparisons of guards. *)
  Variable num : Type.
  Variable of_q : Q -> num.
  Variable n_neg : num -> num.
  Variable n_bin : binop -> num -> num -> num.
  Variable n_cmp : cmpop -> num -> num -> bool.
  Hypothesis agree : numbers_agree of_q n_neg n_cmp.
  (** Functions with discrete arguments; true lane coordinates; lane names. *)
  Variable call : word -> list dval -> option dval.
  Variable coord : bool -> word -> num -> num -> option num.
  Variable phys : word -> word.
  Notation value := (geval of_q n_neg n_bin n_cmp call coord phys).
  Notation true_in E g := (value E g = Some (VB num true)).
  Notation false_in E g := (value E g = Some (VB num false)).
  (** The values of the discrete variables, the box, the lengths of the lists of agents. *)
  Variable dd : dict word word.
  Variable cd : dict word (num * num).
  Variable len : word -> option nat.
  (** The state with values [s] of the continuous variables. *)
  Notation state s := (agents dd (map fst cd) len s).
  (** The interval computed for a lane coordinate on a box, and the solver. *)
  Variable coord_set : bool -> word -> num * num -> num * num -> option (num * num).
  Variable solve : list word -> form -> dict word (num * num) -> verdict.
  Notation check g := (do g' <- unroll len g; guard_check call dd phys coord_set solve cd g').

  (** C10: without lane coordinates the answer is exact. *)
  Theorem C10_box_exact : forall g sat con,
    well_named n_cmp dd cd -> lane_free g = true ->
    solver_right of_q n_neg n_bin n_cmp solve -> (forall ks f bs, solve ks f bs <> Unknown) ->
    (forall s, inside n_cmp cd s -> exists b, value (state s) g = Some (VB num b)) ->
    check g = Some (sat, con) ->
    (sat = true <-> exists s, inside n_cmp cd s /\ true_in (state s) g) /\
    (con = true <-> forall s, inside n_cmp cd s -> true_in (state s) g).
  Proof.
    intros g sat con wn Hf Hr Hd Hall Hc. destruct (unroll len g) as [g'|] eqn:Eu; [|discriminate]. cbn [obind] in Hc.
    destruct (unroll_shape _ _ Eu) as [Hn Hf']. specialize (Hf' Hf).
    assert (V : forall s b, value (state s) g = Some (VB num b) -> value (flat dd (map fst cd) s) g' = Some (VB num b)).
    { intros s b Hb. rewrite <- (@geval_flat num of_q n_neg n_bin n_cmp call coord phys dd (map fst cd) len s g' Hn). exact (unroll_sound of_q n_neg n_bin n_cmp call coord phys (agents_named dd (map fst cd) len s) _ Eu Hb). }
    assert (V' : forall s b, inside n_cmp cd s -> value (flat dd (map fst cd) s) g' = Some (VB num b) -> value (state s) g = Some (VB num b)).
    { intros s b Hi Hb. destruct (Hall s Hi) as (b' & Hb'). rewrite (V _ _ Hb') in Hb. congruence. }
    assert (Hg : guard_check call dd phys (fun _ _ _ _ => None) solve cd g' = Some (sat, con)).
    { clear - Hc Hf'. revert Hc. unfold guard_check. destruct (disc call dd g') as [p|] eqn:Ep; [|discriminate]. cbn [obind]. destruct (truthy (fst p)); [|auto].
      rewrite (hyb_free_any phys dd coord_set (fun _ _ _ _ => None) (snd p) cd (disc_free _ _ _ Hf' Ep)). auto. }
    assert (cs : coord_sound n_cmp coord (fun _ _ _ _ => None)) by (unfold coord_sound; discriminate).
    destruct (check_exact call phys agree wn cs Hr Hd g' Hf' (fun s Hi => let (b, Hb) := Hall s Hi in ex_intro _ b (V s b Hb)) Hg) as [X1 X2].
    assert (Over : forall s b, inside n_cmp cd s -> value (state s) g = Some (VB num b) -> (b = true -> sat = true) /\ (con = true -> b = true)).
    { intros s b Hi Hb. exact (check_over call phys agree wn cs Hr Hd g' Hi (V _ _ Hb) Hg). }
    split; split.
    - intros Hs. destruct (X1 Hs) as (s & Hi & Hb). exists s. split; [exact Hi|exact (V' _ _ Hi Hb)].
    - intros (s & Hi & Hb). destruct (Over s true Hi Hb) as [A _]. exact (A eq_refl).
    - intros Hs s Hi. destruct (Hall s Hi) as (b & Hb). destruct (Over s b Hi Hb) as [_ A]. rewrite (A Hs) in Hb. exact Hb.
    - intros Ha. destruct con; [reflexivity|]. destruct (X2 eq_refl) as (s & Hi & Hb). apply V' in Hb; [|exact Hi]. rewrite (Ha s Hi) in Hb. discriminate.
  Qed.

  (** C10: a positive answer can be relied upon even if the solver leaves queries open. *)
  Theorem C10_box_sure : forall g sat con,
    well_named n_cmp dd cd -> lane_free g = true -> solver_right of_q n_neg n_bin n_cmp solve ->
    (forall s, inside n_cmp cd s -> exists b, value (state s) g = Some (VB num b)) ->
    check g = Some (sat, con) ->
    (sat = true -> exists s, inside n_cmp cd s /\ true_in (state s) g) /\
    (con = true -> forall s, inside n_cmp cd s -> true_in (state s) g).
  Proof.
    intros g sat con wn Hf Hr Hall Hc. destruct (unroll len g) as [g'|] eqn:Eu; [|discriminate]. cbn [obind] in Hc.
    destruct (unroll_shape _ _ Eu) as [Hn Hf']. specialize (Hf' Hf).
    assert (V : forall s b, value (state s) g = Some (VB num b) -> value (flat dd (map fst cd) s) g' = Some (VB num b)).
    { intros s b Hb. rewrite <- (@geval_flat num of_q n_neg n_bin n_cmp call coord phys dd (map fst cd) len s g' Hn). exact (unroll_sound of_q n_neg n_bin n_cmp call coord phys (agents_named dd (map fst cd) len s) _ Eu Hb). }
    assert (Hg : guard_check call dd phys (fun _ _ _ _ => None) solve cd g' = Some (sat, con)).
    { clear - Hc Hf'. revert Hc. unfold guard_check. destruct (disc call dd g') as [p|] eqn:Ep; [|discriminate]. cbn [obind]. destruct (truthy (fst p)); [|auto].
      rewrite (hyb_free_any phys dd coord_set (fun _ _ _ _ => None) (snd p) cd (disc_free _ _ _ Hf' Ep)). auto. }
    assert (cs : coord_sound n_cmp coord (fun _ _ _ _ => None)) by (unfold coord_sound; discriminate).
    split; intros ->.
    - destruct (check_witness call phys agree wn cs Hr g' Hf' (fun s Hi => let (b, Hb) := Hall s Hi in ex_intro _ b (V s b Hb)) Hg) as (s & Hi & Hb).
      exists s. split; [exact Hi|]. destruct (Hall s Hi) as (b & Hb'). rewrite (V _ _ Hb') in Hb. congruence.
    - intros s Hi. destruct (Hall s Hi) as (b & Hb). rewrite (check_sure call phys agree wn cs Hr g' Hi (V _ _ Hb) Hg) in Hb. exact Hb.
  Qed.

  (** C13: with lane coordinates, intervals that contain the coordinates of the positions in a box give an answer that
      discards no guard some state satisfies, and claims containment only if every state satisfies it. *)
  Theorem C13_guard_over : forall g sat con s b,
    well_named n_cmp dd cd -> coord_sound n_cmp coord coord_set ->
    solver_right of_q n_neg n_bin n_cmp solve -> (forall ks f bs, solve ks f bs <> Unknown) ->
    check g = Some (sat, con) ->
    inside n_cmp cd s -> value (state s) g = Some (VB num b) ->
    (b = true -> sat = true) /\ (b = false -> con = false).
  Proof.
    intros g sat con s b wn cs Hr Hd Hc Hi Hb. destruct (unroll len g) as [g'|] eqn:Eu; [|discriminate]. cbn [obind] in Hc.
    destruct (unroll_shape _ _ Eu) as [Hn _].
    assert (Hb' : value (flat dd (map fst cd) s) g' = Some (VB num b)).
    { rewrite <- (@geval_flat num of_q n_neg n_bin n_cmp call coord phys dd (map fst cd) len s g' Hn). exact (unroll_sound of_q n_neg n_bin n_cmp call coord phys (agents_named dd (map fst cd) len s) _ Eu Hb). }
    destruct (check_over call phys agree wn cs Hr Hd g' Hi Hb' Hc) as [A B]. split; [exact A|]. intros E0. destruct con; [rewrite (B eq_refl) in E0; discriminate|reflexivity].
  Qed.

  (** C11: the discrete part keeps the value of the guard in every state with these modes, and answers False only if the
      guard is false in all of them. *)
  Theorem C11_disc_preserves : forall g v g' E b,
    (forall r m, dget word_eqb (text r) dd = Some m -> look E r = Some (VS num m)) ->
    (forall r u, dget word_eqb (text r) dd = None -> look E r = Some u -> exists x, u = VN x) ->
    disc call dd g = Some (v, g') ->
    value E g = Some (VB num b) ->
    value E g' = Some (VB num b) /\ (truthy v = false -> b = false).
  Proof.
    intros g v g' E b H1 H2 Hd Hb. pose proof (@disc_sound num of_q n_neg n_bin n_cmp call coord phys agree dd E H1 H2 g _ _ Hd Hb) as Hp. apply dsound_bool in Hp.
    destruct Hp as (Hp & c & Ec & Hc). cbn [fst snd] in *. subst v. split; [exact Hp|exact Hc].
  Qed.

  (** C12: unrolling keeps the value of a guard ... *)
  Theorem C12_unroll_preserves : forall E g g' u,
    lists_named len E -> unroll len g = Some g' -> value E g = Some u -> value E g' = Some u.
  Proof. intros E g g' u HL Hu Hv. exact (unroll_sound of_q n_neg n_bin n_cmp call coord phys HL g Hu Hv). Qed.

  (** ... and any/all over a list is true when one (all) of the instances, each agent in turn, is true. *)
  Theorem C12_unroll_reduction : forall E ex body x iter items g' b,
    lists_named len E -> e_list E iter = Some items -> no_red body = true ->
    unroll len (GRed ex body x iter) = Some g' ->
    (value E g' = Some (VB num b) <->
     exists bs, Forall2 (fun it c => value (bind E x it) body = Some (VB num c)) items bs /\
                b = if ex then existsb id bs else forallb id bs).
  Proof.
    intros E ex body x iter items g' b HL Hi Hr Hu. cbn in Hu. rewrite Hr in Hu.
    rewrite (unroll_red_iff of_q n_neg n_bin n_cmp call coord phys ex body x iter b HL Hi Hr Hu). destruct ex; reflexivity.
  Qed.
  Corollary C12_no_agents : forall E ex body x iter g',
    lists_named len E -> e_list E iter = Some [] -> no_red body = true ->
    unroll len (GRed ex body x iter) = Some g' -> value E g' = Some (VB num (negb ex)).
  Proof.
    intros E ex body x iter g' HL Hi Hr Hu. apply (C12_unroll_reduction ex body x iter (negb ex) HL Hi Hr Hu). exists []. split; [constructor|]. destruct ex; reflexivity.
  Qed.
End Props.

(** ** A case: rational numbers, an agent and two others *)
Module Example_guard.
  Definition n_bin (o : binop) (a b : Q) : Q := match o with Add => a + b | Sub => a - b | Mul => a * b end.
  Definition of_q (q : Q) : Q := Qred q.
  Definition n_neg (q : Q) : Q := Qred (- q).
  Lemma agree : numbers_agree of_q n_neg qcmp.
  Proof.
    assert (L : forall a b, Qle_bool (Qred a) (Qred b) = Qle_bool a b).
    { intros a b. apply eq_iff_eq_true. rewrite !Qle_bool_iff, !Qred_correct. reflexivity. }
    assert (Eq : forall a b, Qeq_bool (Qred a) (Qred b) = Qeq_bool a b).
    { intros a b. apply eq_iff_eq_true. rewrite !Qeq_bool_iff, !Qred_correct. reflexivity. }
    split; [|split].
    - intros [] a b; unfold of_q; cbn; rewrite ?L, ?Eq; reflexivity.
    - intros q. unfold n_neg, of_q. apply Qred_complete. rewrite Qred_correct. ring.
    - intros x. cbn. apply Qle_bool_iff, Qle_refl.
  Qed.
  (** A solver that is right exists. *)
  Definition solve (ks : list word) (f : form) (bs : dict word (Q * Q)) : verdict :=
    if excluded_middle_informative (exists m, inside qcmp bs m /\ holds of_q n_neg n_bin qcmp ks m f = Some true) then Sat else Unsat.
  Lemma right : solver_right of_q n_neg n_bin qcmp solve.
  Proof.
    intros ks f bs. unfold solve. destruct (excluded_middle_informative _) as [H|H]; [exact H|]. intros m Hm Hh. apply H. exists m. auto.
  Qed.
  Lemma decides : forall ks f bs, solve ks f bs <> Unknown.
  Proof. intros ks f bs. unfold solve. destruct (excluded_middle_informative _); discriminate. Qed.

  (** [ego.mode == "N" and ego.x > 3 and any(o.x - ego.x < 5 and o.mode != "N" for o in others)] *)
  Definition guard : gex :=
    GBoolOp true
      [ GCmp OEq (GVar (RAttr (w "ego") (w "mode"))) (GStr (w "N"));
        GCmp OGt (GVar (RAttr (w "ego") (w "x"))) (GNum 3);
        GRed true (GBoolOp true [ GCmp OLt (GBin Sub (GVar (RAttr (w "o") (w "x"))) (GVar (RAttr (w "ego") (w "x")))) (GNum 5);
                                  GCmp ONe (GVar (RAttr (w "o") (w "mode"))) (GStr (w "N")) ]) (w "o") (w "others") ].
  Definition len (l : word) : option nat := if word_eqb l (w "others") then Some 2 else None.
  Definition dd : dict word word := [(w "ego.mode", w "N"); (w "others_0.mode", w "N"); (w "others_1.mode", w "L")].
  Definition cd : dict word (Q * Q) := [(w "ego.x", (2, 6)); (w "others_0.x", (3, 4)); (w "others_1.x", (7, 9))]%Q.
  Definition call (f : word) (a : list dval) : option dval := None.
  Definition coord (l : bool) (k : word) (x y : Q) : option Q := None.
  Definition coord_set (l : bool) (k : word) (x y : Q * Q) : option (Q * Q) := None.
  Definition phys (k : word) : word := k.

  Lemma named : well_named qcmp dd cd.
  Proof.
    assert (D : forall a b, ~ In "."%char (w a) -> ~ In "."%char (w b) -> dotted (w a ++ w "." ++ w b)) by (intros a b Ha Hb; exists (w a), (w b); auto).
    constructor.
    - cbn [map fst cd In]. intros k [<-|[<-|[<-|[]]]]; [apply (D "ego"%string "x"%string)|apply (D "others_0"%string "x"%string)|apply (D "others_1"%string "x"%string)]; cbn; intuition discriminate.
    - cbn [map fst dd In]. intros k [<-|[<-|[<-|[]]]]; [apply (D "ego"%string "mode"%string)|apply (D "others_0"%string "mode"%string)|apply (D "others_1"%string "mode"%string)]; cbn; intuition discriminate.
    - cbn. repeat constructor; cbn; intuition discriminate.
    - cbn [map fst cd dd In app]. intros k [<-|[<-|[<-|[<-|[<-|[<-|[]]]]]]]; reflexivity.
    - cbn [cd In]. intros k lo hi [[= <- <- <-]|[[= <- <- <-]|[[= <- <- <-]|[]]]]; reflexivity.
  Qed.
  Notation value := (geval of_q n_neg n_bin qcmp call coord phys).
  Notation state s := (agents dd (map fst cd) len s).
  Lemma guard_value s : value (state s) guard =
    Some (VB Q (qcmp OGt (s (w "ego.x")) 3 && qcmp OLt (s (w "others_1.x") - s (w "ego.x")) 5)).
  Proof.
    transitivity (Some (VB Q (qcmp OGt (s (w "ego.x")) 3 && ((qcmp OLt (s (w "others_0.x") - s (w "ego.x")) 5 && false || (qcmp OLt (s (w "others_1.x") - s (w "ego.x")) 5 && true || false)) && true)))).
    - reflexivity.
    - rewrite !andb_false_r, !andb_true_r, !orb_false_r. reflexivity.
  Qed.
  Lemma checked : exists sat con, (do g' <- unroll len guard; guard_check call dd phys coord_set solve cd g') = Some (sat, con).
  Proof.
    remember solve as sv eqn:Esv. vm_compute. destruct (sv _ _ _); eauto.
  Qed.
  (** The guard holds in some states of the box but not in all. *)
  Example ex_C10 : forall sat con, (do g' <- unroll len guard; guard_check call dd phys coord_set solve cd g') = Some (sat, con) -> sat = true /\ con = false.
  Proof.
    intros sat con Hc. destruct (@C10_box_exact Q of_q n_neg n_bin qcmp agree call coord phys dd cd len coord_set solve guard sat con named eq_refl right decides) as [H1 H2].
    - intros s _. rewrite guard_value. eauto.
    - exact Hc.
    - split.
      + apply H1. exists (fun k => if word_eqb k (w "ego.x") then 5 else if word_eqb k (w "others_0.x") then 3 else 8)%Q. split; [|reflexivity].
        cbn [cd]. intros k lo hi [[= <- <- <-]|[[= <- <- <-]|[[= <- <- <-]|[]]]]; split; reflexivity.
      + destruct con; [|reflexivity]. destruct H2 as [H2 _]. specialize (H2 eq_refl (fun k => if word_eqb k (w "ego.x") then 2 else if word_eqb k (w "others_0.x") then 3 else 8)%Q).
        discriminate H2. cbn [cd]. intros k lo hi [[= <- <- <-]|[[= <- <- <-]|[[= <- <- <-]|[]]]]; split; reflexivity.
  Qed.
  Example ex_C10_sure : forall sat con, (do g' <- unroll len guard; guard_check call dd phys coord_set solve cd g') = Some (sat, con) ->
    sat = true -> exists s, inside qcmp cd s /\ value (state s) guard = Some (VB Q true).
  Proof.
    intros sat con Hc. apply (@C10_box_sure Q of_q n_neg n_bin qcmp agree call coord phys dd cd len coord_set solve guard sat con named eq_refl right); [|exact Hc].
    intros s _. rewrite guard_value. eauto.
  Qed.
  (** The discrete part decides the modes. *)
  Example ex_C11 : exists g' v p, unroll len guard = Some g' /\ disc call dd g' = Some (v, p) /\ truthy v = true /\
    forall s b, value (flat dd (map fst cd) s) g' = Some (VB Q b) -> value (flat dd (map fst cd) s) p = Some (VB Q b).
  Proof.
    assert (X : exists g' v p, unroll len guard = Some g' /\ disc call dd g' = Some (v, p) /\ truthy v = true).
    { eexists _, _, _. split; [reflexivity|]. split; [vm_compute; reflexivity|]. reflexivity. }
    destruct X as (g' & v & p & Hu & Hd & Ht). exists g', v, p. split; [exact Hu|]. split; [exact Hd|]. split; [exact Ht|]. intros s b Hb.
    apply (@C11_disc_preserves Q of_q n_neg n_bin qcmp agree call coord phys dd g' v p _ b); [| |exact Hd|exact Hb].
    - intros r m H. rewrite flat_look. unfold value_of. rewrite H. reflexivity.
    - intros r u H. rewrite flat_look. unfold value_of. rewrite H. destruct (existsb _ _); [|discriminate]. intros [= <-]. eauto.
  Qed.
  Example ex_C12 : forall s g', unroll len guard = Some g' ->
    value (state s) g' = Some (VB Q (qcmp OGt (s (w "ego.x")) 3 && qcmp OLt (s (w "others_1.x") - s (w "ego.x")) 5)).
  Proof.
    intros s g' Hu. apply (@C12_unroll_preserves Q of_q n_neg n_bin qcmp call coord phys len (state s) guard g' _ (agents_named _ _ _ _) Hu). apply guard_value.
  Qed.
End Example_guard.

(** C10: a query the solver leaves open counts as unsatisfiable, so that a transition some state of the box takes is
    discarded: verse/automaton/guard.py:231-249. *)
Theorem C10_unknown_refuted : exists (dd : dict word word) cd len solve g s,
  solver_right Example_guard.of_q Example_guard.n_neg Example_guard.n_bin qcmp solve /\ well_named qcmp dd cd /\ lane_free g = true /\
  inside qcmp cd s /\
  geval Example_guard.of_q Example_guard.n_neg Example_guard.n_bin qcmp Example_guard.call Example_guard.coord Example_guard.phys
    (agents dd (map fst cd) len s) g = Some (VB Q true) /\
  (do g' <- unroll len g; guard_check Example_guard.call dd Example_guard.phys Example_guard.coord_set solve cd g') = Some (false, false).
Proof.
  exists Example_guard.dd, Example_guard.cd, Example_guard.len, (fun _ _ _ => Unknown), Example_guard.guard,
    (fun k => if word_eqb k (w "ego.x") then 5 else if word_eqb k (w "others_0.x") then 3 else 8)%Q.
  split; [intros ks f bs; exact I|]. split; [exact Example_guard.named|]. split; [reflexivity|]. split.
  - cbn [Example_guard.cd]. intros k lo hi [[= <- <- <-]|[[= <- <- <-]|[[= <- <- <-]|[]]]]; split; reflexivity.
  - split; vm_compute; reflexivity.
Qed.

Print Assumptions C10_box_sure.
Print Assumptions C10_unknown_refuted.
Print Assumptions C10_box_exact.
Print Assumptions C11_disc_preserves.
Print Assumptions C12_unroll_preserves.
Print Assumptions C12_unroll_reduction.
Print Assumptions C12_no_agents.
Print Assumptions C13_guard_over.
