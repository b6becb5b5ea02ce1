(** One verification step with star sets.  Theorems for C113. *)
From Coq Require Import Ascii String.
From Verif Require Import Base BaseFacts Dict PyText Scan ScanSpec ScanProofs TransProofs ScanMain ScanProps Round Step StepProofs Star StarSpec StarProps StarStep StarStepSpec StarStepProofs.
From Coq Require Import Permutation Sorted Lqa.
Set Implicit Arguments.
Open Scope nat_scope.

Section Props.
  Variables path cond : Type.
  Variable pvar : path -> word.
  Variable agents : list (dlogic path cond).
  Variable tube_of : nat -> mode -> list star -> Q -> option stube.
  Variable g_disc : list mode -> list (Q * star) -> nat -> path -> bool.
  Variable g_hyb : list mode -> list (Q * star) -> nat -> path -> bool.
  Variable g_cont : list mode -> list (Q * star) -> nat -> path -> bool * bool.
  Variable g_certain : list mode -> list (Q * star) -> nat -> cond -> bool.
  Variable g_reset : list mode -> list (Q * star) -> nat -> list path -> option (list mode * star).
  Variable maph : option word -> option mode -> option mode -> option word.
  Variable digits : nat.
  Variable enabled : list mode -> nat -> path -> list vec -> Prop.
  Variable resets : list mode -> nat -> path -> list vec -> mode -> vec -> Prop.

  Notation star_fill := (star_fill agents tube_of).
  Notation star_step := (star_step pvar agents tube_of g_disc g_hyb g_cont g_certain g_reset maph digits).

  (** The tubes of a node: an inherited tube is kept; the other agents get the tube of their mode from all stars of their
      initial set over the remaining time, beginning at the start time of the node. *)
  Theorem C113_tubes nd remain trs : star_fill nd remain = Some trs ->
    length trs = length agents /\
    forall a tr, nth_error trs a = Some tr ->
      nth_error (s_trace nd) a = Some (Some tr) \/
      nth_error (s_trace nd) a = Some None /\ exists m stars t, nth_error (s_mode nd) a = Some m /\ nth_error (s_init nd) a = Some (map One stars) /\
        tube_of a m stars remain = Some t /\ t <> [] /\ Forall2 (fun e e' => fst e' = (fst e + s_start nd)%Q /\ snd e' = snd e) t tr.
  Proof.
    intros EF. split; [exact (@fill_agents _ _ _ _ _ _ _ EF)|]. intros a tr Ha. pose proof (@fill_agents _ _ _ _ _ _ _ EF) as L. assert (Hl : a < length agents) by (rewrite <- L; apply nth_error_Some; congruence).
    destruct (@mapM_seq_nth _ _ _ _ a EF Hl) as (tr' & Etr & H). rewrite Ha in Etr. injection Etr as <-.
    destruct (nth_error (s_trace nd) a) as [[t|]|]; [left; cbn [obind] in H; congruence| |discriminate]. right. split; [reflexivity|]. cbn [obind] in H.
    destruct (nth_error (s_mode nd) a) as [m|]; [|discriminate]. cbn [obind] in H. destruct (nth_error (s_init nd) a) as [i|]; [|discriminate]. cbn [obind] in H.
    destruct (mapM plain i) as [stars|] eqn:Ei; [|discriminate]. cbn [obind] in H. destruct (tube_of a m stars remain) as [t|] eqn:Et; [|discriminate]. cbn [obind] in H. exists m, stars, t. split; [reflexivity|]. split.
    - f_equal. clear - Ei. revert stars Ei. induction i as [|[s|s s'] i IH]; intros stars Ei; cbn [mapM plain obind] in Ei; [injection Ei as <-; reflexivity| |discriminate]. destruct (mapM plain i) as [r|]; [|discriminate]. injection Ei as <-. cbn [map]. f_equal. apply IH. reflexivity.
    - split; [exact Et|]. destruct t as [|e t]; [discriminate|]. split; [discriminate|]. assert (X : map (fun e => ((fst e + s_start nd)%Q, snd e)) (e :: t) = tr) by congruence. rewrite <- X. clear.
      induction (e :: t) as [|x l IH]; cbn [map]; constructor; [split; reflexivity|exact IH].
  Qed.

  (** A step without an assertion violation visits the first [n] entries of the tubes.  A state there that enables a path
      of an agent is followed into a child: its reset state is in one of the initial stars of the agent, and the child takes
      over the tubes of the others from a step not later than the state's. *)
  Theorem C113_covered unsafe max_height nd remain r :
    guards_found g_disc g_hyb g_cont enabled -> star_resets_sound g_reset enabled resets -> same_variable pvar agents -> star_map_permits agents g_reset maph ->
    length (s_mode nd) = length agents -> (forall h, max_height = Some h -> s_height nd < h) ->
    star_step unsafe max_height nd remain = Some r -> s_asserts r = None ->
    exists trs js n, star_fill nd remain = Some trs /\ (forall i, i < length js -> joint_at trs i = Some (nth i js [])) /\ min_len trs = Some (length js) /\
      ends agents (g_disc (s_mode nd) (nth 0 js [])) (fun a p i => g_hyb (s_mode nd) (nth i js []) a p) (fun a p i => g_cont (s_mode nd) (nth i js []) a p)
        (fun a c i => g_certain (s_mode nd) (nth i js []) a c) n (length js) /\
      forall i s a lg p d x, i < n -> star_state_at trs i s -> checked agents a lg -> In p (d_paths lg) -> enabled (s_mode nd) a p s -> resets (s_mode nd) a p s d x ->
        exists c i0 l st, In c (s_child r) /\ i0 <= i /\ enters digits nd trs a d i0 c /\ nth_error (s_init c) a = Some l /\ In (One st) l /\ in_star st x.
  Proof.
    intros HG HR HV HM Lm Hh Es Ea. unfold StarStep.star_step in Es. destruct (star_fill nd remain) as [trs|] eqn:EF; [|discriminate]. cbn [obind] in Es.
    destruct (star_search pvar agents g_disc g_hyb g_cont g_certain g_reset maph trs (s_mode nd)) as [res|] eqn:ES; [|discriminate]. cbn [obind] in Es.
    destruct res as [[asr i]|ts]; [destruct unsafe; [discriminate|injection Es as <-; discriminate]|].
    assert (Hb : match max_height with Some h => h <=? s_height nd | None => false end = false) by (destruct max_height as [h|]; [apply Nat.leb_gt; apply Hh; reflexivity|reflexivity]). rewrite Hb in Es.
    destruct (mapM (star_child digits nd trs) ts) as [cs|] eqn:Ec; [|discriminate]. cbn [obind] in Es. injection Es as <-. cbn [s_child s_asserts] in *.
    destruct (@search_joint _ _ _ _ _ _ _ _ _ _ _ _ _ ES) as (l & js & El & Lj & Hj & EG). subst l. pose proof (@fill_agents _ _ _ _ _ _ _ EF) as Ltr.
    destruct (@C16_transitions _ _ _ _ _ _ _ _ _ _ _ _ _ _ EG) as (n & Hn & Hv & He & Hs & Hc). exists trs, js, n. split; [reflexivity|]. split; [exact Hj|]. split; [exact El|]. split; [exact He|].
    intros i s a lg p d x Hi St Ck Hp En Rs. pose proof (@joint_in _ _ _ _ (Hj i ltac:(lia)) St) as In_. destruct (HG (s_mode nd) (nth 0 js []) (nth i js []) a p s In_ En) as (G1 & G2 & G3).
    assert (Ch : choice pvar agents (g_disc (s_mode nd) (at_step js 0)) (fun a p i => g_hyb (s_mode nd) (at_step js i) a p) (fun a p i => g_cont (s_mode nd) (at_step js i) a p) a i [p]).
    { split; [discriminate|]. split; [constructor; [intros []|constructor]|]. split; [intros q [<-|[]]; split; [exists lg; auto|auto]|].
      intros q ((lg' & Ck' & Hq) & _). exists p. split; [left; reflexivity|]. destruct Ck as [E1 _], Ck' as [E2 _]. rewrite E1 in E2. injection E2 as <-. apply (HV a lg p q E1 Hp Hq). }
    assert (Nv : ~ violates agents (fun a c i => g_certain (s_mode nd) (at_step js i) a c) a i) by (intros X; apply (proj1 Hv i Hi); exists a; exact X).
    destruct (Hc a i [p] Hi Ch Nv) as (c' & ds & st & Pm & Er & _ & Mv). apply Permutation_length_1_inv in Pm. subst c'.
    destruct (HR (s_mode nd) (at_step js i) a p s d x ds st Er In_ En Rs) as [Dd Dx].
    assert (Mo : moves pvar agents (g_disc (s_mode nd) (at_step js 0)) (fun a p i => g_hyb (s_mode nd) (at_step js i) a p) (fun a p i => g_cont (s_mode nd) (at_step js i) a p)
      (fun a c i => g_certain (s_mode nd) (at_step js i) a c) (fun a i ps => g_reset (s_mode nd) (at_step js i) a ps) maph (s_mode nd) a i [p] d st).
    { split; [exact Ch|]. split; [exact Nv|]. exists ds, lg. split; [exact Er|]. split; [exact Dd|]. split; [exact (proj1 Ck)|]. apply (HM a lg (s_mode nd) (at_step js i) [p] ds st d (proj1 Ck) Er Dd). }
    destruct (Mv d Mo) as (t & Ht & <- & Ed & (k & K1 & K2)).
    destruct (@C66_transitions_grouped _ _ _ _ _ _ _ _ _ _ _ _ _ _ EG) as [_ Gr]. destruct (Gr t Ht) as (_ & Ll & _ & Srt).
    apply mapM_Forall2 in Ec. destruct (In_nth_error _ _ Ht) as [m Hm]. destruct (@Forall2_nth_l _ _ _ _ _ _ _ Ec Hm) as (oc & Eo & Eoc).
    assert (La : t_agent t < length trs) by (rewrite Ltr; destruct Ck as [Ck _]; apply nth_error_Some; congruence).
    assert (Ex : exists c, oc = Some c). { unfold star_child in Eoc. rewrite Ed in Eoc. destruct (nth_error (t_idx t) 0); [|discriminate]. cbn [obind] in Eoc. destruct (nth_error (map (skipn n0) trs) 0) as [t0|]; [|discriminate]. cbn [obind] in Eoc. destruct (nth_error t0 0); [|discriminate]. cbn [obind] in Eoc. destruct (mapM _ (seq 0 (length trs))); [|discriminate]. cbn [obind] in Eoc. injection Eoc as <-. eexists. reflexivity. }
    destruct Ex as [c ->]. destruct (@child_enters _ _ _ _ _ _ _ (eq_trans Lm (eq_sym Ltr)) La Ed Eoc) as (i0 & Ei0 & Ent & Ini). exists c, i0, (map One (t_inits t)), st.
    split; [apply (@somes_In _ _ _); exact (nth_error_In _ _ Eo)|]. split.
    - destruct (t_idx t) as [|j js']; [discriminate|]. injection Ei0 as ->. destruct k as [|k]; [injection K1 as ->; lia|]. cbn [nth_error] in K1. apply StronglySorted_inv in Srt. destruct Srt as [_ F]. rewrite Forall_forall in F. apply F. exact (nth_error_In _ _ K1).
    - split; [exact Ent|]. split; [exact Ini|]. split; [apply in_map; exact (nth_error_In _ _ K2)|exact Dx].
  Qed.

  (** A reported assertion ends the tubes with the step of the violation; there are no children. *)
  Theorem C113_assertion max_height nd remain r asr : star_step false max_height nd remain = Some r -> s_asserts r = Some asr ->
    s_child r = [] /\ exists trs i, star_fill nd remain = Some trs /\
      Forall2 (fun tr tr' => length tr' = i + 1 /\ forall k, k <= i -> nth_error tr' k = nth_error tr k) trs (s_traces r) /\
      exists js, joint_at trs i = Some js /\ exists a, violates agents (fun a c _ => g_certain (s_mode nd) js a c) a i.
  Proof.
    unfold StarStep.star_step. destruct (star_fill nd remain) as [trs|] eqn:EF; [|discriminate]. cbn [obind]. destruct (star_search pvar agents g_disc g_hyb g_cont g_certain g_reset maph trs (s_mode nd)) as [res|] eqn:ES; [|discriminate]. cbn [obind].
    destruct res as [[asr' i]|ts]; [|destruct (match max_height with Some h => h <=? s_height nd | None => false end); [intros X; injection X as <-; discriminate|destruct (mapM (star_child digits nd trs) ts); [|discriminate]; intros X; injection X as <-; discriminate]].
    intros X. injection X as <-. cbn [s_child s_traces s_asserts]. intros X. injection X as ->. split; [reflexivity|]. exists trs, i. split; [reflexivity|].
    destruct (@search_joint _ _ _ _ _ _ _ _ _ _ _ _ _ ES) as (l & js & El & Lj & Hj & EG). destruct (@C16_assert_report _ _ _ _ _ _ _ _ _ _ _ _ _ _ _ EG) as (Hi & _ & (a & Va) & _). split.
    - assert (Len : forall tr, In tr trs -> l <= length tr) by (intros tr; apply min_len_le; exact El). clear - Len Hi. induction trs as [|tr trs IH]; cbn [map]; constructor; [|apply IH; intros tr' H; apply Len; right; exact H].
      specialize (Len tr (or_introl eq_refl)). split; [rewrite firstn_length; lia|]. intros k Hk. clear - Hk. revert k tr Hk. induction i as [|i IH]; intros [|k] [|e tr] Hk; cbn [Nat.add firstn nth_error]; try reflexivity; try lia. apply IH. lia.
    - exists (at_step js i). split; [apply Hj; exact Hi|]. exists a. exact Va.
  Qed.
End Props.
Print Assumptions C113_tubes.
Print Assumptions C113_covered.
Print Assumptions C113_assertion.

(** ** Examples

    An agent on a line, in mode A with speed 1 and in mode B with speed 10; in A it may go to B where [x >= 1]. *)
Module Example_speeds.
  Definition A : mode := [w "A"].
  Definition B : mode := [w "B"].
  Definition speed (m : mode) : Q := if list_eqb word_eqb m A then 1%Q else 10%Q.
  Definition lg : dlogic nat unit := {| has_args := true; d_asserts := []; d_paths := [0]; d_types := [w "M"] |}.
  Definition agents : list (dlogic nat unit) := [lg].
  Definition pvar (p : nat) : word := w "m".
  Definition maph (t : option word) (m d : option mode) : option word := t.

  (** The bounds of a star with one generator. *)
  Definition bounds (s : star) : option (Q * Q) :=
    match center s, basis s, C s, g s with
    | [c], [[v]], [[a]; [b]], [h; l] => if Qeq_bool a 1 && Qeq_bool b (-(1)) && Qeq_bool v 1 then Some (c - l, c + h)%Q else None
    | _, _, _, _ => None
    end.
  Lemma bounds_in s lo hi x : bounds s = Some (lo, hi) -> in_star s x -> exists y, x = [y] /\ (lo <= y <= hi)%Q.
  Proof.
    destruct s as [cs bs Cm gs]. unfold bounds. cbn [center basis C g]. destruct cs as [|c [|? ?]]; try discriminate. destruct bs as [|[|v [|? ?]] [|? ?]]; try discriminate.
    destruct Cm as [|[|a [|? ?]] [|[|b [|? ?]] [|? ?]]]; try discriminate. destruct gs as [|h [|l [|? ?]]]; try discriminate.
    destruct (Qeq_bool a 1) eqn:Ea; [|discriminate]. destruct (Qeq_bool b (-(1))) eqn:Eb; [|discriminate]. destruct (Qeq_bool v 1) eqn:Ev; [|discriminate]. cbn [andb]. intros X. injection X as <- <-.
    apply Qeq_bool_iff in Ea, Eb, Ev. intros (al & La & O & Lx & P). cbn in Lx. destruct x as [|y [|? ?]]; try discriminate. destruct al as [|z [|? ?]]; try discriminate. exists y. split; [reflexivity|].
    unfold obeys in O. cbn [C g] in O. repeat match goal with H : Forall2 _ (_ :: _) _ |- _ => inversion H; clear H; subst end. specialize (P 0 ltac:(cbn; lia)). cbn in *. nra.
  Qed.

  Fixpoint hull (l : list (Q * Q)) : option (Q * Q) :=
    match l with
    | [] => None
    | [b] => Some b
    | b :: r => match hull r with Some h => Some (Qmin (fst b) (fst h), Qmax (snd b) (snd h)) | None => None end
    end.
  (** The intervals one second apart from the hull of the initial stars. *)
  Definition tube_of (a : nat) (m : mode) (stars : list star) (remain : Q) : option stube :=
    do bs <- mapM bounds stars; do h <- hull bs;
    mapM (fun k => let d := (speed m * inject_Z (Z.of_nat k))%Q in do s <- rect_to_star [fst h + d]%Q [snd h + d]%Q; Some (inject_Z (Z.of_nat k), s)) (seq 0 4).
  Definition g_disc (modes : list mode) (js : list (Q * star)) (a : nat) (p : nat) : bool := list_eqb word_eqb (nth a modes []) A.
  Definition g_hyb (modes : list mode) (js : list (Q * star)) (a : nat) (p : nat) : bool := true.
  Definition g_cont (modes : list mode) (js : list (Q * star)) (a : nat) (p : nat) : bool * bool :=
    match nth_error js a with
    | Some e => match bounds (snd e) with Some (lo, hi) => (Qle_bool 1 hi, Qle_bool 1 lo) | None => (true, false) end
    | None => (true, false)
    end.
  Definition g_certain (modes : list mode) (js : list (Q * star)) (a : nat) (c : unit) : bool := false.
  Definition g_reset (modes : list mode) (js : list (Q * star)) (a : nat) (ps : list nat) : option (list mode * star) :=
    match nth_error js a with Some e => Some ([B], snd e) | None => None end.
  Definition enabled (modes : list mode) (a : nat) (p : nat) (s : list vec) : Prop := nth a modes [] = A /\ exists x, nth_error s a = Some [x] /\ (1 <= x)%Q.
  Definition resets (modes : list mode) (a : nat) (p : nat) (s : list vec) (d : mode) (x : vec) : Prop := d = B /\ nth_error s a = Some x.

  Lemma found : guards_found g_disc g_hyb g_cont enabled.
  Proof.
    intros modes js0 js a p s Hs (Hm & x & Hx & Le). split; [unfold g_disc; rewrite Hm; reflexivity|]. split; [reflexivity|]. unfold g_cont. destruct (nth_error js a) as [e|] eqn:Ee; [|reflexivity].
    destruct (@Forall2_nth_l _ _ _ _ _ _ _ Hs Ee) as (y & Ey & Hy). rewrite Hx in Ey. injection Ey as <-. destruct (bounds (snd e)) as [[lo hi]|] eqn:Eb; [|reflexivity]. destruct (@bounds_in _ _ _ _ Eb Hy) as (z & Ez & Hz). injection Ez as <-. cbn [fst]. apply Qle_bool_iff. lra.
  Qed.
  Lemma reset_sound : star_resets_sound g_reset enabled resets.
  Proof.
    intros modes js a p s d x ds r Er Hs _ [-> Hx]. unfold g_reset in Er. destruct (nth_error js a) as [e|] eqn:Ee; [|discriminate]. injection Er as <- <-. split; [left; reflexivity|].
    destruct (@Forall2_nth_l _ _ _ _ _ _ _ Hs Ee) as (y & Ey & Hy). rewrite Hx in Ey. injection Ey as <-. exact Hy.
  Qed.
  Lemma one_var : same_variable pvar agents.
  Proof. intros a l p q _ _ _. reflexivity. Qed.
  Lemma any_map : star_map_permits agents g_reset maph.
  Proof. intros a l modes js ps ds r d Hl _ _. right. destruct a as [|[|a]]; try discriminate. injection Hl as <-. unfold maph, get_track. cbn [d_types lg]. destruct d as [|? [|? ?]], (nth 0 modes []) as [|? [|? ?]]; reflexivity. Qed.

  Definition unit_star : star := match rect_to_star [0]%Q [1]%Q with Some s => s | None => Star [] [] [] [] end.
  Definition root : snode := mk_snode [None] [[One unit_star]] [A] 0 0.
  Definition step := star_step pvar agents tube_of g_disc g_hyb g_cont g_certain g_reset maph 4.

  (** [x + speed * t] of the members of all initial stars is in the tube. *)
  Definition follows (speed : mode -> Q) (tube_of : nat -> mode -> list star -> Q -> option stube) : Prop :=
    forall a m stars remain t st x k e, tube_of a m stars remain = Some t -> In st stars -> in_star st [x] -> nth_error t k = Some e ->
      (fst e == inject_Z (Z.of_nat k))%Q /\ in_star (snd e) [x + speed m * inject_Z (Z.of_nat k)]%Q.
  Lemma hull_in l h b : hull l = Some h -> In b l -> (fst h <= fst b /\ snd b <= snd h)%Q.
  Proof.
    revert h. induction l as [|c [|d l] IH]; intros h E I; [destruct I| |].
    - cbn in E. injection E as <-. destruct I as [<-|[]]. lra.
    - change (match hull (d :: l) with Some h => Some (Qmin (fst c) (fst h), Qmax (snd c) (snd h)) | None => None end = Some h) in E. destruct (hull (d :: l)) as [h'|]; [|discriminate]. injection E as <-. cbn [fst snd].
      pose proof (Q.le_min_l (fst c) (fst h')). pose proof (Q.le_min_r (fst c) (fst h')). pose proof (Q.le_max_l (snd c) (snd h')). pose proof (Q.le_max_r (snd c) (snd h')).
      destruct I as [<-|I]; [lra|]. destruct (IH h' eq_refl I). lra.
  Qed.
  Lemma tube_follows : follows speed tube_of.
  Proof.
    intros a m stars remain t st x k e. unfold tube_of. destruct (mapM bounds stars) as [bs|] eqn:Eb; [|discriminate]. cbn [obind]. destruct (hull bs) as [h|] eqn:Eh; [|discriminate]. cbn [obind]. intros Et Hs Hx He.
    destruct (In_nth_error _ _ Hs) as [j Hj]. apply mapM_Forall2 in Eb. destruct (@Forall2_nth_l _ _ _ _ _ _ _ Eb Hj) as ([lo hi] & Ej & Ebj). destruct (@bounds_in _ _ _ _ Ebj Hx) as (y & Ey & Hy). injection Ey as <-.
    destruct (hull_in _ _ Eh (nth_error_In _ _ Ej)) as [H1 H2]. cbn [fst snd] in H1, H2. apply mapM_Forall2 in Et. destruct (@Forall2_nth_r _ _ _ _ _ _ _ Et He) as (k' & Ek & H).
    assert (Hk : k' = k). { assert (Lk : k < 4) by (rewrite <- (seq_length 4 0); apply nth_error_Some; congruence). rewrite nth_error_seq in Ek by exact Lk. cbn [Nat.add] in Ek. congruence. } subst k'.
    set (d := (speed m * inject_Z (Z.of_nat k))%Q) in *. destruct (@C48_box [fst h + d]%Q [snd h + d]%Q) as (s & Es & _ & _ & Hm); [discriminate|reflexivity|]. rewrite Es in H. cbn [obind] in H. injection H as <-. cbn [fst snd]. split; [reflexivity|]. apply Hm. cbn. split; [|exact I]. lra.
  Qed.
  Lemma unit_in x : (0 <= x <= 1)%Q -> in_star unit_star [x].
  Proof. intros H. exists [x]. split; [reflexivity|]. split; [repeat constructor; cbn; lra|]. split; [reflexivity|]. intros [|j] Hj; cbn in *; [lra|lia]. Qed.

  (** From [x = 0] the agent can go to B after one second, in [x = 1]. *)
  Example ex_C113_covered : exists r trs c l st, step false None root 3 = Some r /\ star_fill agents tube_of root 3 = Some trs /\ star_state_at trs 1 [[1%Q]] /\
    In c (s_child r) /\ nth_error (s_mode c) 0 = Some B /\ nth_error (s_init c) 0 = Some l /\ In (One st) l /\ in_star st [1%Q].
  Proof.
    destruct (step false None root 3) as [r|] eqn:E; [|vm_compute in E; discriminate]. assert (Ea : s_asserts r = None) by (vm_compute in E; injection E as <-; reflexivity).
    destruct (@C113_covered _ _ pvar agents tube_of g_disc g_hyb g_cont g_certain g_reset maph 4 enabled resets false None root 3 r found reset_sound one_var any_map eq_refl ltac:(discriminate) E Ea)
      as (trs & js & n & Ef & Hj & El & He & Hc). exists r, trs. assert (St : star_state_at trs 1 [[1%Q]]).
    { destruct (@C113_tubes _ _ agents tube_of _ _ _ Ef) as [Lt Ht]. destruct trs as [|tr [|? ?]]; try discriminate. constructor; [|constructor]. destruct (Ht 0 tr eq_refl) as [X|(_ & m & stars & t & Em & Ei & Et & _ & F)]; [discriminate|].
      cbn in Em, Ei. injection Em as <-. destruct stars as [|s1 [|? ?]]; try discriminate. injection Ei as <-.
      destruct (nth_error t 1) as [e|] eqn:Ee; [|vm_compute in Et; injection Et as <-; discriminate Ee]. destruct (@Forall2_nth_l _ _ _ _ _ _ _ F Ee) as (e' & Ee' & _ & Es). exists e'. split; [exact Ee'|]. rewrite Es.
      exact (proj2 (@tube_follows _ _ _ _ _ _ 0%Q _ _ Et (or_introl eq_refl) (@unit_in 0%Q ltac:(lra)) Ee)). }
    assert (Hn : 1 < n).
    { assert (Lj : 4 = length js) by (clear - Ef El; vm_compute in Ef; injection Ef as <-; change (Some 4 = Some (length js)) in El; congruence).
      destruct n as [|[|n]]; [| |lia]; exfalso; vm_compute in Ef; injection Ef as <-.
      - destruct He as [He|[[He _]|(_ & _ & _ & i & Hi & _)]]; [lia|lia|lia].
      - destruct He as [He|[[_ Hs]|(_ & _ & Nf & _)]]; [lia| |].
        + destruct Hs as (a & p & (Hx & _ & _ & Hm) & _). pose proof (Hj 0 ltac:(lia)) as J. cbn [pred] in Hm. remember (nth 0 js []) as j0 eqn:Ej. clear Ej. vm_compute in J. injection J as J.
          destruct Hx as (lg' & [Ck _] & Hp). destruct a as [|[|a]]; try discriminate. unfold g_cont in Hm. rewrite <- J in Hm. vm_compute in Hm. discriminate.
        + apply Nf. pose proof (Hj 1 ltac:(lia)) as J. exists 0, 0. remember (nth 1 js []) as j1 eqn:Ej. vm_compute in J. injection J as J. split; [split; [exists lg; repeat split; left; reflexivity|]; split; [reflexivity|]; split; [reflexivity|]; rewrite <- Ej; unfold g_cont; rewrite <- J; reflexivity|]. intros (lg' & x & [Ck _] & Hx & _). injection Ck as <-. destruct Hx. }
    destruct (Hc 1 [[1%Q]] 0 lg 0 B [1%Q] Hn St (conj eq_refl eq_refl) (or_introl eq_refl)) as (c & i0 & l & st & Ic & _ & En & Ei & Is & Hi); [split; [reflexivity|exists 1%Q; split; [reflexivity|lra]]|split; reflexivity|].
    exists c, l, st. split; [reflexivity|]. split; [exact Ef|]. split; [exact St|]. split; [exact Ic|]. destruct En as (_ & _ & Em & _). auto.
  Qed.
End Example_speeds.

(** *** The reset stars of later steps start too early

    With tubes that follow every initial star and with sound guards and resets: from [x = 0] the agent is in [x = 1] after
    one second, goes to B, and one second later is in [x = 11].  The child starts all its initial stars in the first
    second in which the agent may leave, and has no such state two seconds after the start; nor has the tube of A. *)
Theorem C113_time_refuted : exists agents (speed : mode -> Q) tube_of g_disc g_hyb g_cont g_certain g_reset maph enabled resets root r c,
  Example_speeds.follows speed tube_of /\ guards_found g_disc g_hyb g_cont enabled /\ star_resets_sound g_reset enabled resets /\
  same_variable (fun _ : nat => w "m") agents /\ star_map_permits agents g_reset maph /\
  star_step (cond := unit) (fun _ : nat => w "m") agents tube_of g_disc g_hyb g_cont g_certain g_reset maph 4 false None root 3 = Some r /\
  s_asserts r = None /\ s_child r = [c] /\
  (exists st, nth_error (s_init root) 0 = Some [One st] /\ in_star st [0%Q]) /\ (s_start root == 0)%Q /\
  enabled (s_mode root) 0 0 [[0 + speed (nth 0 (s_mode root) []) * 1]%Q] /\ resets (s_mode root) 0 0 [[0 + speed (nth 0 (s_mode root) []) * 1]%Q] (nth 0 (s_mode c) []) [1%Q] /\
  exists trs, star_fill agents tube_of c 3 = Some trs /\
    forall tr e, In tr (trs ++ s_traces r) -> In e tr -> (fst e == 2)%Q -> ~ in_star (snd e) [1 + speed (nth 0 (s_mode c) []) * 1]%Q.
Proof.
  exists Example_speeds.agents, Example_speeds.speed, Example_speeds.tube_of, Example_speeds.g_disc, Example_speeds.g_hyb, Example_speeds.g_cont, Example_speeds.g_certain,
    Example_speeds.g_reset, Example_speeds.maph, Example_speeds.enabled, Example_speeds.resets, Example_speeds.root.
  eexists. eexists. split; [exact Example_speeds.tube_follows|]. split; [exact Example_speeds.found|]. split; [exact Example_speeds.reset_sound|]. split; [exact Example_speeds.one_var|]. split; [exact Example_speeds.any_map|].
  split; [vm_compute; reflexivity|]. split; [reflexivity|]. split; [reflexivity|]. split; [exists Example_speeds.unit_star; split; [reflexivity|apply Example_speeds.unit_in; lra]|]. split; [reflexivity|].
  split; [split; [reflexivity|]; exists (0 + 1 * 1)%Q; split; [reflexivity|lra]|]. split; [split; reflexivity|]. eexists. split; [vm_compute; reflexivity|].
  intros tr e Ht He Hf Hin. cbn [app s_traces] in Ht.
  destruct Ht as [<-|[<-|[]]]; repeat (destruct He as [<-|He]; [try (vm_compute in Hf; discriminate Hf)|]); try destruct He.
  edestruct Example_speeds.bounds_in as (y & Ey & Hy); [|exact Hin|]; [vm_compute; reflexivity|]. injection Ey as <-. vm_compute in Hy. destruct Hy as [Hy _]. apply Hy. reflexivity.
Qed.
Print Assumptions C113_time_refuted.

(** *** A transition in the last step

    Another agent is added, and the first starts in [x = -2].  It may, and must, leave A in the last step of the tube. *)
Module Example_last.
  Import Example_speeds.
  Definition pair : list (dlogic nat unit) := [lg; {| has_args := false; d_asserts := []; d_paths := []; d_types := [w "M"] |}].
  Definition start : star := match rect_to_star [-(2)]%Q [-(2)]%Q with Some s => s | None => Star [] [] [] [] end.
  Definition two : snode := mk_snode [None; None] [[One start]; [One unit_star]] [A; B] 0 0.
  Lemma any_map2 : star_map_permits pair g_reset maph.
  Proof.
    intros a l modes js ps ds r d Hl _ _. right. destruct a as [|[|[|a]]]; try discriminate; injection Hl as <-; unfold maph, get_track; cbn [d_types lg];
    [destruct d as [|? [|? ?]], (nth 0 modes []) as [|? [|? ?]]; reflexivity|destruct d as [|? [|? ?]], (nth 1 modes []) as [|? [|? ?]]; reflexivity].
  Qed.
End Example_last.
Theorem C113_last_step_refuted : exists agents (speed : mode -> Q) tube_of g_disc g_hyb g_cont g_certain g_reset maph enabled resets nd trs s,
  Example_speeds.follows speed tube_of /\ guards_found g_disc g_hyb g_cont enabled /\ star_resets_sound g_reset enabled resets /\
  same_variable (fun _ : nat => w "m") agents /\ star_map_permits agents g_reset maph /\
  star_fill agents tube_of nd 3 = Some trs /\ min_len trs = Some 4 /\ star_state_at trs 3 s /\ enabled (s_mode nd) 0 0 s /\
  star_search (cond := unit) (fun _ : nat => w "m") agents g_disc g_hyb g_cont g_certain g_reset maph trs (s_mode nd) <> None /\
  star_step (cond := unit) (fun _ : nat => w "m") agents tube_of g_disc g_hyb g_cont g_certain g_reset maph 4 false None nd 3 = None.
Proof.
  exists Example_last.pair, Example_speeds.speed, Example_speeds.tube_of, Example_speeds.g_disc, Example_speeds.g_hyb, Example_speeds.g_cont, Example_speeds.g_certain,
    Example_speeds.g_reset, Example_speeds.maph, Example_speeds.enabled, Example_speeds.resets, Example_last.two.
  destruct (star_fill Example_last.pair Example_speeds.tube_of Example_last.two 3) as [trs|] eqn:E; [|vm_compute in E; discriminate]. exists trs, [[1]; [30]]%Q.
  split; [exact Example_speeds.tube_follows|]. split; [exact Example_speeds.found|]. split; [exact Example_speeds.reset_sound|]. split; [intros a l p q _ _ _; reflexivity|]. split; [exact Example_last.any_map2|]. split; [reflexivity|].
  vm_compute in E. injection E as <-. split; [reflexivity|]. split.
  - constructor; [|constructor; [|constructor]]; (eexists; split; [reflexivity|]); cbn [snd].
    + exists [1%Q]. split; [reflexivity|]. split; [repeat constructor; cbn; lra|]. split; [reflexivity|]. intros [|j] Hj; cbn in *; [lra|lia].
    + exists [30%Q]. split; [reflexivity|]. split; [repeat constructor; cbn; lra|]. split; [reflexivity|]. intros [|j] Hj; cbn in *; [lra|lia].
  - split; [split; [reflexivity|]; exists 1%Q; split; [reflexivity|lra]|]. split; [vm_compute; discriminate|vm_compute; reflexivity].
Qed.
Print Assumptions C113_last_step_refuted.

(** The assertion that the agent stays below 2 may fail from step 1 on. *)
Module Example_assert.
  Import Example_speeds.
  Definition lga : dlogic nat bool := {| has_args := true; d_asserts := [(w "low", true, false)]; d_paths := []; d_types := [w "M"] |}.
  Definition certain (modes : list mode) (js : list (Q * star)) (a : nat) (c : bool) : bool :=
    if c then true else match nth_error js a with Some e => match bounds (snd e) with Some (_, hi) => negb (Qle_bool 2 hi) | None => false end | None => false end.
  Example ex_C113_assertion : exists r asr, star_step pvar [lga] tube_of g_disc g_hyb g_cont certain g_reset maph 4 false None root 3 = Some r /\ s_asserts r = Some asr /\
    s_child r = [] /\ map (@length _) (s_traces r) = [2].
  Proof. eexists. eexists. split; [vm_compute; reflexivity|]. split; [reflexivity|]. split; reflexivity. Qed.
  (** The hypotheses of [C113_tubes], and a child that keeps the tube of the other agent. *)
  Example ex_C113_tubes : exists trs, star_fill agents tube_of root 3 = Some trs /\ map (@length _) trs = [4].
  Proof. eexists. split; [vm_compute; reflexivity|reflexivity]. Qed.
  Example ex_C113_other : exists r c, star_step pvar Example_last.pair tube_of g_disc g_hyb g_cont g_certain g_reset maph 4 false None
      (mk_snode [None; None] [[One unit_star]; [One unit_star]] [A; B] 0 0) 3 = Some r /\ s_child r = [c] /\
    s_mode c = [B; B] /\ map (option_map (@length _)) (s_trace c) = [None; Some 4].
  Proof. eexists. eexists. split; [vm_compute; reflexivity|]. split; [reflexivity|]. split; reflexivity. Qed.
End Example_assert.
