(** Star sets: properties C48-C50, C69, C70.

    [in_star s x] (StarSpec.v) says that [x] is a point of the set the star [s] represents. *)
From Coq Require Import Lqa.
From Verif Require Import Base BaseFacts Star StarSpec StarProofs StarMain StarTube.
Set Implicit Arguments.
Open Scope nat_scope.

(** * C48: construction *)

(** [rect_to_star] represents exactly the box. *)
Theorem C48_box lo hi : lo <> [] -> length lo = length hi ->
  exists s, rect_to_star lo hi = Some s /\ wf_star s /\ dim s = length lo /\ forall x, in_star s x <-> in_box lo hi x.
Proof.
  intros NE L. assert (NE' : combine lo hi <> []) by (destruct lo, hi; cbn in *; try discriminate; contradiction).
  destruct (box_star NE') as (s & E & W & D & _ & H). exists s. unfold rect_to_star. rewrite L, Nat.eqb_refl. split; [exact E|]. split; [exact W|]. split; [rewrite D, combine_length; lia|].
  intros x. rewrite H. assert (M : map fst (combine lo hi) = lo /\ map snd (combine lo hi) = hi). { clear - L. revert hi L. induction lo as [|a lo IH]; intros [|b hi] H; cbn in *; try lia; [auto|]. destruct (IH hi ltac:(lia)) as [-> ->]. auto. }
  destruct M as [-> ->]. reflexivity.
Qed.
Print Assumptions C48_box.

(** [from_poly A b] represents exactly the polyhedron [A x <= b]. *)
Theorem C48_polytope n A b : A <> [] -> (forall r, In r A -> length r = n) -> length b = length A ->
  exists s, from_poly A b = Some s /\ wf_star s /\ dim s = n /\ forall x, in_star s x <-> length x = n /\ obeys A b x.
Proof. intros NE R L. destruct (@from_poly_exact n A b NE R L) as (s & E & W & D & _ & H). exists s. auto. Qed.
Print Assumptions C48_polytope.

(** [post_cont] and [apply_reset] of an affine map represent exactly the image. *)
Theorem C48_affine_image f s : wf_star s -> affine (dim s) f ->
  exists s', image f s = Some s' /\ wf_star s' /\ dim s' = dim s /\ forall y, in_star s' y <-> exists x z, in_star s x /\ f x = Some z /\ same y z.
Proof. intros W A. destruct (@image_exact (dim s) f s W eq_refl A) as (s' & E & W' & D & _ & H). exists s'. auto. Qed.
Print Assumptions C48_affine_image.

(** Star [k] of the tube of a simulation that is affine in its initial state represents exactly the states at step [k]. *)
Theorem C48_linear_tube N tm sim s : wf_star s -> affine_sim (dim s) N tm sim ->
  exists tube, calc_reach_tube_linear sim s = Some tube /\ length tube = N /\
    forall k, k < N -> exists s', nth_error tube k = Some (tm k, s') /\ wf_star s' /\
      forall y, in_star s' y <-> exists x z, in_star s x /\ nth_error (sim x) k = Some (tm k :: z) /\ same y z.
Proof.
  intros W Sm. destruct (linear_tube_image W eq_refl Sm) as (tube & E & L & H). exists tube. split; [exact E|]. split; [exact L|]. intros k Hk. destruct (H k Hk) as (s' & E1 & E2).
  destruct (Sm (center s) eq_refl) as [_ A]. destruct (A k Hk) as [A1 _]. destruct (C48_affine_image W A1) as (s'' & E3 & W3 & _ & H3). rewrite E2 in E3. injection E3 as <-.
  exists s'. split; [exact E1|]. split; [exact W3|]. intros y. rewrite H3. split; intros (x & z & B1 & B2 & B3); exists x, z; (split; [exact B1|split; [|exact B3]]).
  - assert (Lx : length x = dim s) by (destruct B1 as (al & _ & _ & P & _); exact P). destruct (Sm x Lx) as [_ A']. destruct (A' k Hk) as [_ (y' & Ey)]. unfold state_at in B2. rewrite Ey in *. injection B2 as ->. reflexivity.
  - unfold state_at. rewrite B2. reflexivity.
Qed.
Print Assumptions C48_linear_tube.

(** Intersection with a half-space is exact when the matrix of generators is square and symmetric, as for the stars
    [rect_to_star] builds. *)
Theorem C48_halfspace_partial s a b : wf_star s -> 0 < dim s -> gens s = dim s -> symmetric (basis s) -> length a = dim s ->
  exists s', halfspace_intersection s a b = Some s' /\ wf_star s' /\ dim s' = dim s /\ forall x, in_star s' x <-> in_star s x /\ (inner a x <= b)%Q.
Proof.
  intros W N0 G Sy L. destruct (@poly_exact s [a] [b] W N0 G Sy) as (s' & E & W' & D & _ & H); [intros r [<-|[]]; exact L|reflexivity|].
  exists s'. split; [exact E|]. split; [exact W'|]. split; [exact D|]. intros x. rewrite H. unfold obeys. split; intros [P Q]; (split; [exact P|]); [inversion Q; assumption|constructor; [exact Q|constructor]].
Qed.
Print Assumptions C48_halfspace_partial.

(** In general it is not: the generators are used transposed.  The star with generators (1,0), (1,1) and parameters in the
    unit box lies in the half-space [y <= 1], but the intersection with it loses the point (2,1). *)
Module Example_slant.
  Definition s : star := Star [0; 0]%Q [[1; 0]; [1; 1]]%Q [[1; 0]; [0; 1]; [-(1); 0]; [0; -(1)]]%Q [1; 1; 0; 0]%Q.
  Lemma wf : wf_star s.
  Proof. split; [|split; [|reflexivity]]; intros v Hv; cbn in Hv; repeat (destruct Hv as [<-|Hv]; [reflexivity|]); destruct Hv. Qed.
  Lemma pts x y : in_star s [x; y] <-> (0 <= y <= 1 /\ 0 <= x - y <= 1)%Q.
  Proof.
    split.
    - intros (al & La & O & _ & P). destruct al as [|a1 [|a2 [|? ?]]]; try discriminate. unfold obeys in O. cbn [C g s] in O.
      repeat match goal with H : Forall2 _ (_ :: _) _ |- _ => inversion H; clear H; subst end. pose proof (P 0 ltac:(cbn; lia)) as P0. pose proof (P 1 ltac:(cbn; lia)) as P1. cbn in *. lra.
    - intros H. exists [x - y; y]%Q. split; [reflexivity|]. split; [unfold obeys; cbn; repeat constructor; cbn; lra|]. split; [reflexivity|]. intros [|[|j]] Hj; cbn in *; try lia; lra.
  Qed.
End Example_slant.
Theorem C48_halfspace_refuted : exists s s' a b x, wf_star s /\ gens s = dim s /\ length a = dim s /\ halfspace_intersection s a b = Some s' /\
  in_star s x /\ (inner a x <= b)%Q /\ ~ in_star s' x.
Proof.
  exists Example_slant.s. eexists. exists [0; 1]%Q, 1%Q, [2; 1]%Q. split; [exact Example_slant.wf|]. split; [reflexivity|]. split; [reflexivity|]. split; [vm_compute; reflexivity|].
  split; [apply Example_slant.pts; lra|]. split; [cbn; lra|].
  intros (al & La & O & _ & P). destruct al as [|a1 [|a2 [|? ?]]]; try discriminate. unfold obeys in O. cbn [C g] in O.
  repeat match goal with H : Forall2 _ (_ :: _) _ |- _ => inversion H; clear H; subst end. pose proof (P 0 ltac:(cbn; lia)) as P0. pose proof (P 1 ltac:(cbn; lia)) as P1. cbn in *. lra.
Qed.
Print Assumptions C48_halfspace_refuted.

(** [overapprox_rectangle] is the tightest box around the star: every point is in it and every face touches the star. *)
Theorem C48_rectangle linprog s : wf_star s -> solves linprog s -> bounded_star s -> (exists x, in_star s x) ->
  exists lo hi, overapprox_rectangle linprog s = Some (lo, hi) /\ length lo = dim s /\ length hi = dim s /\
    (forall x, in_star s x -> in_box lo hi x) /\
    forall i, i < dim s -> (exists x, in_star s x /\ (nth i x 0 == nth i lo 0)%Q) /\ (exists x, in_star s x /\ (nth i x 0 == nth i hi 0)%Q).
Proof.
  intros W Sv B NE. destruct (rectangle_total W Sv B NE) as ((lo & hi) & E). exists lo, hi. split; [exact E|]. apply (rectangle_ok W Sv E).
Qed.
Print Assumptions C48_rectangle.

(** * An exact solver for programs over a box, for the examples *)
Module Box_solver.
  Fixpoint pick (c lo hi : vec) : vec :=
    match c, lo, hi with x :: c', l :: lo', h :: hi' => (if Qle_bool 0 x then l else h) :: pick c' lo' hi' | _, _, _ => [] end.
  (** The constraints are those of [box2poly], [b] is [hi ++ - lo]; nonnegative variables raise the lower bounds. *)
  Definition linprog (free : bool) (c : vec) (A : list vec) (b : vec) : lp :=
    let m := length c in
    let hi := firstn m b in
    let lo0 := map Qopp (skipn m b) in
    let lo := if free then lo0 else map (Qmax 0) lo0 in
    if forallb (fun p => Qle_bool (fst p) (snd p)) (combine lo hi) then Optimal (pick c lo hi) else Infeasible.

  Lemma pick_len c lo hi : length lo = length c -> length hi = length c -> length (pick c lo hi) = length c.
  Proof. revert lo hi. induction c as [|x c IH]; intros [|l lo] [|h hi] A B; cbn in *; try lia. rewrite IH; lia. Qed.
  Lemma pick_in c lo hi : length lo = length c -> length hi = length c -> forallb (fun p => Qle_bool (fst p) (snd p)) (combine lo hi) = true -> in_box lo hi (pick c lo hi).
  Proof.
    revert lo hi. induction c as [|x c IH]; intros [|l lo] [|h hi] A B H; cbn in *; try lia; try exact I. apply andb_prop in H. destruct H as [H1 H2]. apply Qle_bool_iff in H1. split; [destruct (Qle_bool 0 x); lra|]. apply IH; auto.
  Qed.
  Lemma pick_best c lo hi y : in_box lo hi y -> length y = length c -> (inner c (pick c lo hi) <= inner c y)%Q.
  Proof.
    revert lo hi y. induction c as [|x c IH]; intros [|l lo] [|h hi] [|z y] H L; cbn in *; try lia; try lra; try tauto. destruct H as [H1 H2]. specialize (IH lo hi y H2 ltac:(lia)).
    destruct (Qle_bool 0 x) eqn:E; [apply Qle_bool_iff in E|assert (x < 0)%Q by (apply Qnot_le_lt; intros X; apply Qle_bool_iff in X; congruence)]; nra.
  Qed.
  Lemma in_box_ordered lo hi y : in_box lo hi y -> forallb (fun p => Qle_bool (fst p) (snd p)) (combine lo hi) = true.
  Proof. revert hi y. induction lo as [|l lo IH]; intros [|h hi] [|z y] H; cbn in *; try tauto; try reflexivity. destruct H as [H1 H2]. rewrite (IH _ _ H2), andb_true_r. apply Qle_bool_iff. lra. Qed.
  Lemma in_box_max lo hi y : length lo = length y -> length hi = length y -> (in_box (map (Qmax 0) lo) hi y <-> in_box lo hi y /\ Forall (Qle 0) y).
  Proof.
    revert hi y. induction lo as [|l lo IH]; intros [|h hi] [|z y] L1 L2; cbn in *; try lia; [split; auto|]. rewrite IH by lia. split.
    - intros [[A B] [D E]]. assert (l <= z /\ 0 <= z)%Q. { split; eapply Qle_trans; try exact A; [apply Q.le_max_r|apply Q.le_max_l]. } repeat split; try tauto. constructor; tauto.
    - intros [[[A B] D] E]. inversion E; subst. repeat split; auto. apply Q.max_lub; assumption.
  Qed.
  Lemma firstn_app_l {X} (a b : list X) : firstn (length a) (a ++ b) = a.
  Proof. rewrite firstn_app, Nat.sub_diag, firstn_all. cbn. apply app_nil_r. Qed.
  Lemma skipn_app_l {X} (a b : list X) : skipn (length a) (a ++ b) = b.
  Proof. rewrite skipn_app, Nat.sub_diag, skipn_all. reflexivity. Qed.

  (** It solves all programs whose constraints are a box. *)
  Lemma exact free dims c : length c = length dims -> exact_lp linprog free c (fst (box2poly dims)) (snd (box2poly dims)).
  Proof.
    intros L. unfold exact_lp, linprog. cbv zeta.
    assert (Eh : firstn (length c) (snd (box2poly dims)) = map snd dims) by (unfold box2poly; cbn [snd]; rewrite L; replace (length dims) with (length (map snd dims)) by apply map_length; apply firstn_app_l).
    assert (El : skipn (length c) (snd (box2poly dims)) = map (fun d => - fst d)%Q dims) by (unfold box2poly; cbn [snd]; rewrite L; replace (length dims) with (length (map snd dims)) by apply map_length; apply skipn_app_l).
    rewrite Eh, El, map_map. set (hi := map snd dims). set (lo := map (fun d => - - fst d)%Q dims).
    assert (Ll : length lo = length c) by (unfold lo; rewrite map_length; congruence). assert (Lh : length hi = length c) by (unfold hi; rewrite map_length; congruence).
    assert (Same : forall y, in_box (map fst dims) hi y <-> in_box lo hi y).
    { unfold lo, hi. clear. intros y. revert y. induction dims as [|d dims IH]; intros [|z y]; cbn; try tauto. rewrite IH. split; intros [A B]; split; auto; lra. }
    set (lo' := if free then lo else map (Qmax 0) lo). assert (Ll' : length lo' = length c) by (unfold lo'; destruct free; [exact Ll|rewrite map_length; exact Ll]).
    assert (F : forall y, length y = length c -> (feasible free (fst (box2poly dims)) (snd (box2poly dims)) y <-> in_box lo' hi y)).
    { intros y Ly. unfold feasible. rewrite box2poly_exact by congruence. fold hi. rewrite Same. unfold lo'. destruct free; [split; [tauto|intros; split; [assumption|discriminate]]|]. rewrite in_box_max by congruence. split; [intros [A B]; split; auto|intros [A B]; split; auto]. }
    destruct (forallb (fun p => Qle_bool (fst p) (snd p)) (combine lo' hi)) eqn:E.
    - split; [apply pick_len; assumption|]. split; [apply F; [apply pick_len; assumption|apply pick_in; assumption]|]. intros y Ly Fy. apply pick_best; [apply F; assumption|exact Ly].
    - intros y Ly Fy. apply F in Fy; [|exact Ly]. apply in_box_ordered in Fy. congruence.
  Qed.

  (** Stars with a box as predicate. *)
  Definition boxed (c : vec) (b : list vec) (dims : list (Q * Q)) : star := Star c b (fst (box2poly dims)) (snd (box2poly dims)).
  Lemma boxed_solved c b dims : length b = length dims -> solves linprog (boxed c b dims).
  Proof. intros L v Lv. apply exact. cbn in Lv. unfold gens in Lv. cbn in Lv. congruence. Qed.
  Lemma boxed_wf c b dims : (forall v, In v b -> length v = length c) -> length b = length dims -> wf_star (boxed c b dims).
  Proof. intros H L. split; [exact H|]. destruct (box2poly_shape dims) as [A B]. split; [cbn; unfold gens; cbn; rewrite L; exact A|exact B]. Qed.
  Lemma fold_bound (l : vec) : exists q, Forall (fun x => - q <= x <= q)%Q l.
  Proof.
    induction l as [|x l (q & H)]; [exists 0%Q; constructor|]. exists (Qmax q (Qmax x (- x))). pose proof (Q.le_max_l q (Qmax x (- x))). pose proof (Q.le_max_r q (Qmax x (- x))). pose proof (Q.le_max_l x (- x)). pose proof (Q.le_max_r x (- x)).
    constructor; [lra|]. eapply Forall_impl; [|exact H]. cbn. intros; lra.
  Qed.
  Lemma boxed_bounded c b dims : length b = length dims -> bounded_star (boxed c b dims).
  Proof.
    intros L. destruct (fold_bound (map fst dims ++ map snd dims)) as (q & H). exists q. intros al La O. unfold gens in La. cbn in La, O. apply box2poly_exact in O; [|congruence].
    apply Forall_app in H. destruct H as [H1 H2]. clear - O H1 H2. revert al O. induction dims as [|d dims IH]; intros [|a al] O; cbn in *; try tauto. inversion H1; inversion H2; subst. destruct O as [O1 O2]. constructor; [lra|auto].
  Qed.
End Box_solver.

(** The slanted star, with the solver: its rectangle is [0,2] x [0,1]. *)
Module Example_rectangle.
  Import Box_solver.
  Definition s : star := boxed [0; 0]%Q [[1; 0]; [1; 1]]%Q [(0, 1); (0, 1)]%Q.
  Lemma two v : In v [[1; 0]; [1; 1]]%Q -> length v = 2.
  Proof. intros [<-|[<-|[]]]; reflexivity. Qed.
  Lemma member : in_star s [2; 1]%Q.
  Proof. exists [1; 1]%Q. split; [reflexivity|]. split; [apply box2poly_exact; [reflexivity|]; cbn; lra|]. split; [reflexivity|]. intros [|[|j]] Hj; cbn in *; try lia; lra. Qed.
  Example ex_C48_rectangle : exists lo hi, overapprox_rectangle linprog s = Some (lo, hi) /\ in_box lo hi [2; 1]%Q.
  Proof.
    destruct (@C48_rectangle linprog s) as (lo & hi & E & _ & _ & H & _); [apply boxed_wf; [exact two|reflexivity]|apply boxed_solved; reflexivity|apply boxed_bounded; reflexivity|exists [2; 1]%Q; exact member|].
    exists lo, hi. split; [exact E|]. apply H. exact member.
  Qed.
  Example ex_rectangle : option_map (fun r => (map Qred (fst r), map Qred (snd r))) (overapprox_rectangle linprog s) = Some ([0; 0], [2; 1])%Q.
  Proof. vm_compute. reflexivity. Qed.

  (** The rotation by a quarter turn and shift [(x,y) -> (1-y, x)] is affine; the image of (2,1) is (0,2). *)
  Definition turn (x : vec) : option vec := match x with [a; b] => Some [1 - b; a]%Q | _ => None end.
  Lemma turn_affine : affine 2 turn.
  Proof.
    exists [[0; -(1)]; [1; 0]]%Q, [1; 0]%Q. split; [reflexivity|]. split; [intros r [<-|[<-|[]]]; reflexivity|]. split; [reflexivity|].
    intros x Lx. destruct x as [|a [|b [|? ?]]]; try discriminate. eexists. split; [reflexivity|]. split; [reflexivity|]. intros [|[|i]] Hi; cbn; try lia; lra.
  Qed.
  Example ex_C48_affine_image : exists s', image turn s = Some s' /\ in_star s' [0; 2]%Q.
  Proof.
    destruct (@C48_affine_image turn s) as (s' & E & _ & _ & H); [apply boxed_wf; [exact two|reflexivity]|exact turn_affine|]. exists s'. split; [exact E|]. apply H. exists [2; 1]%Q. eexists. split; [exact member|]. split; [reflexivity|]. repeat constructor; reflexivity.
  Qed.
  Example ex_C48_linear_tube : exists tube, calc_reach_tube_linear (fun x => [0%Q :: x; 1%Q :: match turn x with Some y => y | None => [] end]) s = Some tube /\
    exists s', nth_error tube 1 = Some (1%Q, s') /\ in_star s' [0; 2]%Q.
  Proof.
    destruct (@C48_linear_tube 2 (fun k => inject_Z (Z.of_nat k)) (fun x => [0%Q :: x; 1%Q :: match turn x with Some y => y | None => [] end]) s) as (tube & E & _ & H).
    - apply boxed_wf; [exact two|reflexivity].
    - intros x Lx. split; [reflexivity|]. intros [|[|k]] Hk; try lia; (split; [|eexists; reflexivity]).
      + exists [[1; 0]; [0; 1]]%Q, [0; 0]%Q. split; [reflexivity|]. split; [intros r [<-|[<-|[]]]; reflexivity|]. split; [reflexivity|].
        intros z Lz. exists z. split; [reflexivity|]. split; [exact Lz|]. destruct z as [|a [|b [|? ?]]]; try discriminate. intros [|[|i]] Hi; cbn in *; try lia; lra.
      + destruct turn_affine as (M & b & A1 & A2 & A3 & A4). exists M, b. split; [exact A1|]. split; [exact A2|]. split; [exact A3|]. intros z Lz. destruct (A4 z Lz) as (y & Ey & B). exists y. split; [|exact B]. unfold state_at. cbn [nth_error]. rewrite Ey. reflexivity.
    - exists tube. split; [exact E|]. destruct (H 1 ltac:(lia)) as (s' & E1 & _ & H1). exists s'. split; [exact E1|]. apply H1. exists [2; 1]%Q. eexists. split; [exact member|]. split; [reflexivity|]. repeat constructor; reflexivity.
  Qed.
  (** A box star cut by [x + y <= 2] keeps (1,1) and loses (2,1). *)
  Example ex_C48_halfspace : exists b b', rect_to_star [0; 0]%Q [2; 1]%Q = Some b /\ halfspace_intersection b [1; 1]%Q 2%Q = Some b' /\ in_star b' [1; 1]%Q /\ ~ in_star b' [2; 1]%Q.
  Proof.
    destruct (@C48_box [0; 0]%Q [2; 1]%Q) as (b & E & W & D & H); [discriminate|reflexivity|]. vm_compute in E. injection E as <-.
    match goal with H : wf_star ?s |- _ => destruct (@C48_halfspace_partial s [1; 1]%Q 2%Q W) as (b' & E' & _ & _ & H') end; [cbn; lia|reflexivity| |reflexivity|].
    - intros [|[|i]] [|[|j]] Hi Hj; cbn in *; try lia; reflexivity.
    - eexists. exists b'. split; [vm_compute; reflexivity|]. split; [exact E'|]. split.
      + apply H'. split; [apply H; cbn; lra|cbn; lra].
      + intros X. apply H' in X. destruct X as [_ X]. cbn in X. lra.
  Qed.
End Example_rectangle.

(** * C49: queries *)

(** [contains_point] answers for the represented set. *)
Theorem C49_contains_point sat s x : wf_star s -> length x = dim s -> exact_sat sat (gens s) (equations s x) (inequalities s) ->
  exists r, contains_point sat s x = Some r /\ (r = true <-> in_star s x).
Proof.
  intros (W1 & W2 & W3) L Ex. unfold contains_point. rewrite L, Nat.leb_refl. exists (sat (gens s) (equations s x) (inequalities s)). split; [unfold equations; rewrite L; reflexivity|]. unfold exact_sat in Ex. rewrite Ex. split.
  - intros (al & La & Eq & Le). exists al. split; [exact La|]. split.
    + unfold obeys. apply (Forall2_nth_iff _ _ _ ([] : vec) 0%Q). split; [symmetry; exact W3|]. intros i Hi. apply Le. rewrite <- (combine_nth (C s) (g s) i [] 0%Q) by (symmetry; exact W3). apply nth_In. unfold inequalities; rewrite combine_length; lia.
    + split; [exact L|]. intros j Hj. symmetry. rewrite <- (Eq (nth j (center s) 0%Q) (column j (basis s)) (nth j x 0%Q)).
      * rewrite (inner_comm al). reflexivity.
      * apply in_map_iff. exists j. split; [reflexivity|]. apply in_seq. lia.
  - intros (al & La & O & _ & P). exists al. split; [exact La|]. split.
    + intros c row r H. apply in_map_iff in H. destruct H as (j & E & Hj). injection E as <- <- <-. apply in_seq in Hj. rewrite (P j) by lia. rewrite (inner_comm al). reflexivity.
    + intros row r H. unfold obeys in O. unfold inequalities in H. clear - O H. revert H. induction O as [|a b l l' Hab O IH]; intros H; [destruct H|]. cbn in H. destruct H as [E|H]; [injection E as <- <-; exact Hab|auto].
Qed.
Print Assumptions C49_contains_point.

(** [is_empty] only looks for parameters that are all nonnegative.  It is right for stars whose predicate allows no others. *)
Theorem C49_empty_partial linprog s : wf_star s -> gens s = dim s -> exact_lp linprog false (repeat 0%Q (dim s)) (C s) (g s) ->
  exists r, is_empty linprog s = Some r /\
    (r = false -> exists x, in_star s x) /\
    ((forall al, length al = gens s -> obeys (C s) (g s) al -> Forall (Qle 0) al) -> (r = true <-> ~ exists x, in_star s x)).
Proof.
  intros W G Ex. destruct (empty_spec _ W G Ex) as (r & E & H). exists r. split; [exact E|]. split.
  - intros ->. unfold is_empty, is_feasible, run_lp in E. destruct W as (W1 & W2 & W3). rewrite repeat_length in E.
    assert (R : all_len (dim s) (C s) = true) by (apply all_len_iff; intros r Hr; rewrite <- G; apply W2; exact Hr). rewrite R, W3, Nat.eqb_refl in E. cbn [andb obind] in E. unfold exact_lp in Ex.
    destruct (linprog false (repeat 0%Q (dim s)) (C s) (g s)) as [al| |]; try discriminate. destruct Ex as (La & (O & _) & _). rewrite repeat_length in La. exists (the_point s al), al. split; [congruence|]. split; [exact O|apply the_point_ok].
  - intros Pos. rewrite H, not_in_star_iff. split; intros N (al & La & O); apply N; exists al; [split; [exact La|]; split; [exact O|apply Pos; assumption]|tauto].
Qed.
Print Assumptions C49_empty_partial.

(** Otherwise it is not: the star of the box [-2, -1] is reported empty. *)
Theorem C49_empty_refuted : exists linprog s x, rect_to_star [-(2)]%Q [-(1)]%Q = Some s /\ (forall free c, length c = 1 -> exact_lp linprog free c (C s) (g s)) /\
  in_star s x /\ is_empty linprog s = Some true.
Proof.
  exists Box_solver.linprog. destruct (@C48_box [-(2)]%Q [-(1)]%Q) as (s & E & _ & _ & H); [discriminate|reflexivity|]. exists s, [-(1)]%Q. split; [exact E|]. split; [|split; [apply H; cbn; split; [split; discriminate|exact I]|]].
  - intros free c L. vm_compute in E. injection E as <-. apply (@Box_solver.exact free [(-(2), -(1))]%Q c). exact L.
  - vm_compute in E. injection E as <-. vm_compute. reflexivity.
Qed.
Print Assumptions C49_empty_refuted.

(** [satisfies] answers, for stars as in [C48_halfspace_partial] and [C49_empty_partial], whether every point satisfies the
    constraint strictly. *)
Theorem C49_satisfies_partial linprog s a b : wf_star s -> 0 < dim s -> gens s = dim s -> symmetric (basis s) -> length a = dim s ->
  (forall al, length al = gens s -> obeys (C s) (g s) al -> Forall (Qle 0) al) ->
  (forall s', halfspace_intersection s (vopp a) (- b)%Q = Some s' -> exact_lp linprog false (repeat 0%Q (dim s)) (C s') (g s')) ->
  exists r, satisfies linprog s a b = Some r /\ (r = true <-> forall x, in_star s x -> (inner a x < b)%Q).
Proof.
  intros W N0 G Sy L Pos Ex. unfold satisfies. destruct (@poly_exact s [vopp a] [(- b)%Q] W N0 G Sy) as (s' & E & W' & D & G' & H); [intros v [<-|[]]; unfold vopp; rewrite map_length; exact L|reflexivity|].
  unfold halfspace_intersection. rewrite E. cbn [obind].
  assert (EC : exists A r, C s' = C s ++ [A] /\ g s' = g s ++ [r]).
  { unfold intersection_poly in E. cbn [length Nat.eqb] in E. destruct (matmul [vopp a] (basis s)) as [nc|] eqn:Em; [|discriminate]. cbn [obind] in E. destruct (all_len (gens s) nc && all_len (dim s) [vopp a]); [|discriminate]. injection E as <-. cbn [C g].
    unfold matmul in Em. destruct (hd_error (basis s)); [|discriminate]. apply mapM_length in Em. destruct nc as [|A [|? ?]]; try discriminate. exists A. eexists. split; reflexivity. }
  destruct EC as (A & r & EC & Eg).
  destruct (@C49_empty_partial linprog s' W' ltac:(congruence)) as (res & Er & _ & Hr).
  { rewrite D. apply Ex. exact E. }
  exists res. split; [exact Er|]. rewrite Hr.
  - split.
    + intros N x Hx. apply Qnot_le_lt. intros X. apply N. exists x. apply H. split; [exact Hx|]. constructor; [|constructor]. rewrite inner_opp. lra.
    + intros N (x & Hx). apply H in Hx. destruct Hx as [Hx O]. inversion O as [|? ? ? ? H1 _]; subst. rewrite inner_opp in H1. specialize (N x Hx). lra.
  - intros al La O. apply Pos; [congruence|]. rewrite EC, Eg in O. unfold obeys in O. apply Forall2_app_inv_l in O. destruct O as (g1 & g2 & O1 & O2 & Eq).
    assert (g1 = g s). { destruct W as (_ & _ & W3). assert (Hl : length (g s) = length g1) by (rewrite <- (Forall2_len O1); exact W3). apply (f_equal (firstn (length (g s)))) in Eq. rewrite Box_solver.firstn_app_l in Eq. rewrite Hl, Box_solver.firstn_app_l in Eq. symmetry. exact Eq. } subst g1. exact O1.
Qed.
Print Assumptions C49_satisfies_partial.

(** In general it is wrong in both directions: the box [-2, -1] is said to satisfy [x <= -3/2], and the box [0, 1] not to
    satisfy [x <= 1]. *)
Theorem C49_satisfies_refuted :
  (exists linprog s s' a b x, rect_to_star [-(2)]%Q [-(1)]%Q = Some s /\ halfspace_intersection s (vopp a) (- b)%Q = Some s' /\
    exact_lp linprog false [0%Q] (C s') (g s') /\ satisfies linprog s a b = Some true /\ in_star s x /\ ~ (inner a x <= b)%Q) /\
  (exists linprog s s' a b, rect_to_star [0]%Q [1]%Q = Some s /\ halfspace_intersection s (vopp a) (- b)%Q = Some s' /\
    exact_lp linprog false [0%Q] (C s') (g s') /\ satisfies linprog s a b = Some false /\ forall x, in_star s x -> (inner a x <= b)%Q).
Proof.
  split.
  - exists (fun _ _ _ _ => Infeasible). destruct (@C48_box [-(2)]%Q [-(1)]%Q) as (s & E & _ & _ & H); [discriminate|reflexivity|]. vm_compute in E. injection E as <-.
    eexists. eexists. exists [1%Q], (-(3) # 2)%Q, [-(1)]%Q. split; [vm_compute; reflexivity|]. split; [vm_compute; reflexivity|]. split; [|split; [vm_compute; reflexivity|split; [apply H; cbn; lra|cbn; lra]]].
    intros y Ly [O P]. destruct y as [|y [|? ?]]; try discriminate. specialize (P eq_refl). inversion P; subst. unfold obeys in O. cbn [C g] in O.
    repeat match goal with H : Forall2 _ (_ :: _) _ |- _ => inversion H; clear H; subst end. cbn in *. lra.
  - exists (fun _ _ _ _ => Optimal [1%Q]). destruct (@C48_box [0]%Q [1]%Q) as (s & E & _ & _ & H); [discriminate|reflexivity|]. vm_compute in E. injection E as <-.
    eexists. eexists. exists [1%Q], 1%Q. split; [vm_compute; reflexivity|]. split; [vm_compute; reflexivity|]. split; [|split; [vm_compute; reflexivity|]].
    + split; [reflexivity|]. split; [|intros y Ly _; destruct y as [|y [|? ?]]; try discriminate; cbn; lra]. split; [unfold obeys; cbn [C g]; repeat constructor; cbn; lra|]. intros _. constructor; [lra|constructor].
    + intros x Hx. apply H in Hx. destruct x as [|x [|? ?]]; cbn in Hx; try tauto. cbn. lra.
Qed.
Print Assumptions C49_satisfies_refuted.

Module Example_queries.
  Import Box_solver.
  Definition s : star := boxed [0; 0]%Q (eye 2) [(0, 1); (1 # 2, 1)]%Q.
  Lemma wf : wf_star s.
  Proof. apply boxed_wf; [apply eye_rows|reflexivity]. Qed.
  Lemma pos al : length al = gens s -> obeys (C s) (g s) al -> Forall (Qle 0) al.
  Proof. intros L O. apply (@box2poly_exact [(0, 1); (1 # 2, 1)]%Q al L) in O. destruct al as [|a [|b [|? ?]]]; cbn in O; try tauto. repeat constructor; lra. Qed.
  Example ex_C49_empty : exists r, is_empty linprog s = Some r /\ (r = true <-> ~ exists x, in_star s x).
  Proof. destruct (@C49_empty_partial linprog s wf eq_refl) as (r & E & _ & H); [apply exact; reflexivity|]. exists r. split; [exact E|]. apply H. exact pos. Qed.
  Example ex_empty : is_empty linprog s = Some false /\ is_empty linprog (boxed [0; 0]%Q (eye 2) [(1, 0); (1 # 2, 1)]%Q) = Some true.
  Proof. vm_compute. split; reflexivity. Qed.
  (** Both coordinates of [s] are below 2, with a solver that finds no counterexample. *)
  Example ex_C49_satisfies : satisfies (fun _ _ _ _ => Infeasible) s [1; 0]%Q 2%Q = Some true /\ forall x, in_star s x -> (inner [1; 0] x < 2)%Q.
  Proof.
    destruct (@C49_satisfies_partial (fun _ _ _ _ => Infeasible) s [1; 0]%Q 2%Q wf) as (r & E & H); [cbn; lia|reflexivity| |reflexivity|exact pos| |].
    - intros [|[|i]] [|[|j]] Hi Hj; cbn in *; try lia; reflexivity.
    - intros s' E. vm_compute in E. injection E as <-. intros y Ly [O _]. destruct y as [|y [|z [|? ?]]]; try discriminate. unfold obeys in O. cbn [C g] in O.
      repeat match goal with H : Forall2 _ (_ :: _) _ |- _ => inversion H; clear H; subst end. cbn in *. lra.
    - rewrite E. vm_compute in E. injection E as <-. split; [reflexivity|]. apply H. reflexivity.
  Qed.

  (** A solver for stars with unit generators: the parameters are the point. *)
  Definition sat (m : nat) (eqs : list (Q * vec * Q)) (les : list (vec * Q)) : bool :=
    forallb (fun e => Qle_bool (inner (fst e) (map snd eqs)) (snd e)) les.
  Lemma sat_exact x y : exact_sat sat (gens s) (equations s [x; y]) (inequalities s).
  Proof.
    unfold exact_sat, sat. rewrite forallb_forall. cbn [equations map seq length snd nth]. split.
    - intros H. exists [x; y]. split; [reflexivity|]. split.
      + intros c row r [E|[E|[]]]; injection E as <- <- <-; cbn; lra.
      + intros row r Hr. apply Qle_bool_iff. apply (H (row, r)). exact Hr.
    - intros (al & La & Eq & Le) (row & r) Hr. apply Qle_bool_iff. cbn [fst snd]. specialize (Le row r Hr). destruct al as [|a [|b [|? ?]]]; try discriminate.
      pose proof (Eq _ _ _ (or_introl eq_refl)) as E0. pose proof (Eq _ _ _ (or_intror (or_introl eq_refl))) as E1. cbn in E0, E1.
      rewrite (@inner_same row [x; y] [a; b]); [exact Le|]. repeat constructor; lra.
  Qed.
  Example ex_C49_contains_point : contains_point sat s [1 # 3; 2 # 3] = Some true /\ in_star s [1 # 3; 2 # 3] /\ contains_point sat s [1 # 3; 1 # 3] = Some false /\ ~ in_star s [1 # 3; 1 # 3].
  Proof.
    destruct (@C49_contains_point sat s [1 # 3; 2 # 3] wf eq_refl (sat_exact _ _)) as (r & E & H). destruct (@C49_contains_point sat s [1 # 3; 1 # 3] wf eq_refl (sat_exact _ _)) as (r' & E' & H').
    rewrite E, E'. vm_compute in E, E'. injection E as <-. injection E' as <-. split; [reflexivity|]. split; [apply H; reflexivity|]. split; [reflexivity|]. intros X. apply H' in X. discriminate.
  Qed.
End Example_queries.

(** * C50: combining *)

(** [combine_stars] returns the star of a box that contains every point of every star; every face of the box touches one
    of them. *)
Theorem C50_combine linprog stars n : stars <> [] -> 0 < n ->
  (forall s, In s stars -> wf_star s /\ dim s = n /\ solves linprog s /\ bounded_star s /\ exists x, in_star s x) ->
  exists s', combine_stars linprog stars = Some s' /\ wf_star s' /\ dim s' = n /\
    (forall s x, In s stars -> in_star s x -> in_star s' x) /\
    exists lo hi, (forall x, in_star s' x <-> in_box lo hi x) /\
      forall i, i < n -> (exists s x, In s stars /\ in_star s x /\ (nth i x 0 == nth i lo 0)%Q) /\ (exists s x, In s stars /\ in_star s x /\ (nth i x 0 == nth i hi 0)%Q).
Proof.
  intros NE Hn HS. destruct (combine_total NE Hn HS) as (s' & E). destruct (@combine_ok linprog stars s' n NE Hn) as (W & D & _ & lo & hi & _ & _ & H1 & H2 & H3); [intros s Hs; destruct (HS s Hs) as (A & B & A' & _); auto|exact E|].
  exists s'. split; [exact E|]. split; [exact W|]. split; [exact D|]. split; [intros s x Hs Hx; apply H1; eapply H2; eauto|]. exists lo, hi. auto.
Qed.
Print Assumptions C50_combine.

Module Example_combine.
  Import Box_solver.
  Definition a : star := boxed [0; 0]%Q [[1; 0]; [1; 1]]%Q [(0, 1); (0, 1)]%Q.
  Definition b : star := boxed [5; 0]%Q [[0; 2]; [1; 0]]%Q [(-(1), 1); (0, 1)]%Q.
  Example ex_C50 : exists s', combine_stars linprog [a; b] = Some s' /\ in_star s' [2; 1]%Q /\ in_star s' [6; 2]%Q.
  Proof.
    assert (Pa : in_star a [2; 1]%Q) by exact Example_rectangle.member.
    assert (Pb : in_star b [6; 2]%Q). { exists [1; 1]%Q. split; [reflexivity|]. split; [apply box2poly_exact; [reflexivity|]; cbn; lra|]. split; [reflexivity|]. intros [|[|j]] Hj; cbn in *; try lia; lra. }
    destruct (@C50_combine linprog [a; b] 2) as (s' & E & _ & _ & H & _); [discriminate|lia| |].
    - intros s [<-|[<-|[]]]; (split; [apply boxed_wf; [intros v [<-|[<-|[]]]; reflexivity|reflexivity]|]; split; [reflexivity|]; split; [apply boxed_solved; reflexivity|]; split; [apply boxed_bounded; reflexivity|]); [exists [2; 1]%Q; exact Pa|exists [6; 2]%Q; exact Pb].
    - exists s'. split; [exact E|]. split; [apply (H a); cbn; auto|apply (H b); cbn; auto].
  Qed.
End Example_combine.

(** * C69: tubes of stars in verification *)

(** Up to [seg] (1000) initial stars: the star of step [k] is the box of step [k] of the bloated tube from a box that
    contains every point of every initial star. *)
Theorem C69_tube linprog bloat seg stars n N : stars <> [] -> length stars <= seg -> 0 < n ->
  (forall s, In s stars -> wf_star s /\ dim s = n /\ solves linprog s /\ bounded_star s /\ exists x, in_star s x) ->
  (forall s, combine_stars linprog stars = Some s -> solves linprog s) ->
  (forall r, length (fst r) = n -> length (snd r) = n -> length (bloat r) = 2 * N /\ forall row, In row (bloat r) -> length row = S n) ->
  exists tube rect, star_tube linprog bloat seg stars = Some tube /\ length tube = N /\
    (forall s x, In s stars -> in_star s x -> in_box (fst rect) (snd rect) x) /\
    forall k, k < N -> exists t st, nth_error tube k = Some (t, st) /\ nth_error (map (hd 0%Q) (bloat rect)) (2 * k) = Some t /\ forall x, in_star st x <-> box_at_step (bloat rect) k x.
Proof.
  intros NE Ls Hn HS Hc Hb. destruct stars as [|s0 stars]; [contradiction|]. unfold star_tube. cbn [hd_error obind].
  assert (Sg : segments (length (s0 :: stars)) seg (s0 :: stars) = [s0 :: stars]).
  { cbn [length segments]. rewrite firstn_all2 by exact Ls. rewrite skipn_all2 by exact Ls. destruct (length stars); reflexivity. }
  rewrite Sg. cbn [mapM].
  assert (K : exists comb rect, (if 1 <? length (s0 :: stars) then combine_stars linprog (s0 :: stars) else Some s0) = Some comb /\ overapprox_rectangle linprog comb = Some rect /\ length (fst rect) = n /\ length (snd rect) = n /\
    forall s x, In s (s0 :: stars) -> in_star s x -> in_box (fst rect) (snd rect) x).
  { destruct (1 <? length (s0 :: stars)) eqn:E1.
    - destruct (@C50_combine linprog (s0 :: stars) n NE Hn HS) as (s' & E & W & D & H & lo & hi & HB & _). exists s'.
      destruct (@C48_rectangle linprog s' W (Hc s' E)) as (l & h & E2 & L1 & L2 & H2 & _).
      + destruct (HS s0 (or_introl eq_refl)) as (_ & _ & _ & _ & x & Hx).
        assert (Bx : combine_stars linprog (s0 :: stars) = Some s' -> bounded_star s').
        { intros _. unfold combine_stars in E. cbn [hd_error obind] in E. destruct (mapM _ (seq 0 (dim s0))) as [rect|] eqn:Em; [|discriminate]. cbn [obind] in E.
          assert (Lr : length rect = n) by (rewrite (mapM_length _ _ Em), seq_length; apply HS; cbn; auto). assert (Rne : rect <> []) by (intros ->; cbn in Lr; lia).
          unfold from_poly in E. destruct (box2poly_shape rect) as [S1 S2]. rewrite S2, Nat.eqb_refl in E. destruct (hd_error (fst (box2poly rect))) as [r0|] eqn:Eh; [|discriminate]. cbn [obind] in E. apply mk_star_inv in E. destruct E as [-> _].
          assert (Lr0 : length r0 = length rect). { apply S1. destruct (fst (box2poly rect)); [discriminate|]. injection Eh as ->. cbn; auto. } rewrite Lr0.
          apply (Box_solver.boxed_bounded (repeat 0%Q (length rect)) (eye (length rect)) rect). apply eye_len. }
        apply Bx. exact E.
      + destruct (HS s0 (or_introl eq_refl)) as (_ & _ & _ & _ & x & Hx). exists x. apply (H s0); cbn; auto.
      + exists (l, h). split; [exact E|]. split; [exact E2|]. cbn [fst snd]. split; [congruence|]. split; [congruence|]. intros s x Hs Hx. apply H2. apply (H s); assumption.
    - assert (stars = []) by (destruct stars; [reflexivity|discriminate]). subst stars. destruct (HS s0 (or_introl eq_refl)) as (W & D & Sv & B & Ne).
      destruct (@C48_rectangle linprog s0 W Sv B Ne) as (l & h & E2 & L1 & L2 & H2 & _). exists s0, (l, h). split; [reflexivity|]. split; [exact E2|]. cbn [fst snd]. split; [congruence|]. split; [congruence|]. intros s x [<-|[]] Hx. apply H2. exact Hx. }
  destruct K as (comb & rect & Ec & Er & R1 & R2 & Hr). rewrite Ec. cbn [obind]. destruct (Hb rect R1 R2) as [Lb Rb].
  destruct (@box_tube_spec linprog bloat n N comb (bloat rect) Hn) as (tube & Et & Lt & Ht); [congruence|intros r E; congruence|exact Lb|intros k r E; apply Rb; eapply nth_error_In; exact E|].
  rewrite Et. cbn [obind length nth_error Nat.sub]. exists tube, rect. split; [reflexivity|]. split; [exact Lt|]. split; [exact Hr|]. intros k Hk. destruct (Ht k Hk) as (t & st & A & B & _ & D). exists t, st. auto.
Qed.
Print Assumptions C69_tube.

(** With more stars than fit one segment, the tube is that of the last segment; if that has one star, of the first star.
    Here a tube that only repeats the box it is given, 1000 stars of the box [5, 6] behind one of the box [0, 1]. *)
Definition still (r : vec * vec) : list vec := [0%Q :: fst r; 1%Q :: snd r].
Theorem C69_many_stars_refuted : exists linprog stars s x tube,
  (forall s, In s stars -> wf_star s /\ dim s = 1 /\ solves linprog s /\ bounded_star s /\ exists x, in_star s x) /\
  star_tube linprog still 1000 stars = Some tube /\ In s stars /\ in_star s x /\ forall t st, In (t, st) tube -> ~ in_star st x.
Proof.
  pose (a := Box_solver.boxed [0%Q] (eye 1) [(0, 1)]%Q). pose (b := Box_solver.boxed [0%Q] (eye 1) [(5, 6)]%Q).
  assert (Ma : forall l h x, (l <= x <= h)%Q -> in_star (Box_solver.boxed [0%Q] (eye 1) [(l, h)]) [x]).
  { intros l h x H. exists [x]. split; [reflexivity|]. split; [apply box2poly_exact; [reflexivity|]; cbn; lra|]. split; [reflexivity|]. intros [|j] Hj; cbn in *; try lia; lra. }
  exists Box_solver.linprog, (a :: repeat b 1000), b, [6%Q]. eexists. split; [|split; [vm_compute; reflexivity|split; [right; apply repeat_spec' || (cbn; auto)|split; [apply Ma; lra|]]]].
  - intros s Hs. assert (Hs' : exists l h, s = Box_solver.boxed [0%Q] (eye 1) [(l, h)]%Q /\ (l <= h)%Q).
    { destruct Hs as [<-|Hs]; [exists 0%Q, 1%Q; split; [reflexivity|lra]|]. apply repeat_spec in Hs. subst s. exists 5%Q, 6%Q. split; [reflexivity|lra]. }
    destruct Hs' as (l & h & -> & Hlh). split; [apply Box_solver.boxed_wf; [apply eye_rows|reflexivity]|]. split; [reflexivity|]. split; [apply Box_solver.boxed_solved; reflexivity|]. split; [apply Box_solver.boxed_bounded; reflexivity|]. exists [l]. apply Ma. lra.
  - intros t st [E|[]]. injection E as <- <-. intros (al & La & O & _ & P). destruct al as [|a1 [|? ?]]; try discriminate. unfold obeys in O. cbn [C g] in O.
    repeat match goal with H : Forall2 _ (_ :: _) _ |- _ => inversion H; clear H; subst end. pose proof (P 0 ltac:(cbn; lia)) as P0. cbn in *. lra.
Qed.
Print Assumptions C69_many_stars_refuted.

Module Example_tube.
  Import Box_solver.
  Example ex_C69 : exists tube rect, star_tube linprog still 1000 [Example_combine.a; Example_combine.b] = Some tube /\ length tube = 1 /\ in_box (fst rect) (snd rect) [2; 1]%Q.
  Proof.
    destruct (@C69_tube linprog still 1000 [Example_combine.a; Example_combine.b] 2 1) as (tube & rect & E & L & H & _); [discriminate|cbn; lia|lia| | | |].
    - intros s [<-|[<-|[]]]; (split; [apply boxed_wf; [intros v [<-|[<-|[]]]; reflexivity|reflexivity]|]; split; [reflexivity|]; split; [apply boxed_solved; reflexivity|]; split; [apply boxed_bounded; reflexivity|]).
      + exists [2; 1]%Q. exact Example_rectangle.member.
      + exists [6; 2]%Q. exists [1; 1]%Q. split; [reflexivity|]. split; [apply box2poly_exact; [reflexivity|]; cbn; lra|]. split; [reflexivity|]. intros [|[|j]] Hj; cbn in *; try lia; lra.
    - intros s E. assert (Es : exists d1 d2, s = boxed [0; 0]%Q (eye 2) [d1; d2]). { vm_compute in E. injection E as <-. exists (0, 6)%Q, (- 2 # 1, 2)%Q. vm_compute. reflexivity. }
      destruct Es as (d1 & d2 & ->). apply boxed_solved. reflexivity.
    - intros r R1 R2. split; [reflexivity|]. intros row [<-|[<-|[]]]; cbn; congruence.
    - exists tube, rect. split; [exact E|]. split; [exact L|]. apply (H Example_combine.a); [cbn; auto|exact Example_rectangle.member].
  Qed.
End Example_tube.

(** * C70: stars fitted to points *)
Lemma nth_repeat_lt {A} (a d : A) n k : k < n -> nth k (repeat a n) d = a.
Proof. revert k. induction n as [|n IH]; intros [|k] H; cbn; try lia; [reflexivity|]. apply IH. lia. Qed.


(** Every point handed to [post_cont_pca] is in the star it returns. *)
Theorem C70_fitted optimise old derived_basis points s' : model_ok optimise (dim old) -> post_cont_pca optimise old derived_basis points = Some s' ->
  wf_star s' /\ dim s' = dim old /\ forall p, In p points -> in_star s' p.
Proof.
  intros Ok. unfold post_cont_pca. destruct (negb (length points =? 0) && all_len (dim old) points && (length derived_basis =? gens old) && all_len (dim old) derived_basis) eqn:E; [|discriminate].
  apply andb_prop in E. destruct E as [E E4]. apply andb_prop in E. destruct E as [E E3]. apply andb_prop in E. destruct E as [_ E2].
  assert (K : forall s c u, optimise (C s) (g s) derived_basis points = Some (c, u) -> mk_star c derived_basis (C s) (map (fun b => b * u)%Q (g s)) = Some s' -> wf_star s' /\ dim s' = dim old /\ forall p, In p points -> in_star s' p).
  { intros s c u Eo Em. apply mk_star_inv in Em. destruct Em as [-> W]. destruct (Ok _ _ _ _ _ _ Eo) as [Lc Hp]. split; [exact W|]. split; [exact Lc|]. intros p Hin. destruct (Hp p Hin) as (al & La & Eq & Le).
    exists al. split; [exact La|]. split.
    - unfold obeys. cbn [C g]. clear - Le. induction Le as [|row r A b H Le IH]; cbn [map]; constructor; [lra|exact IH].
    - split; [unfold dim; cbn [center]; rewrite Lc; apply (proj1 (all_len_iff _ _) E2); exact Hin|]. unfold dim. cbn [center basis]. rewrite Lc. exact Eq. }
  cbv zeta. destruct (optimise (C old) (g old) derived_basis points) as [[c u]|] eqn:Eo; cbn [obind].
  - intros Em. apply (K old c u Eo Em).
  - destruct (new_pred old) as [s|] eqn:En; [|discriminate]. cbn [obind]. destruct (optimise (C s) (g s) derived_basis points) as [[c u]|] eqn:Eo'; [|discriminate]. cbn [obind]. intros Em. apply (K s c u Eo' Em).
Qed.
Print Assumptions C70_fitted.

(** The fallback predicate keeps the length of the old right-hand side: it only exists for stars with two rows per generator,
    such as those of boxes; then its parameters range over [-1, 1]. *)
Theorem C70_generic_predicate s : wf_star s ->
  (length (C s) <> 2 * gens s -> new_pred s = None) /\
  (length (C s) = 2 * gens s -> exists s', new_pred s = Some s' /\ wf_star s' /\ center s' = center s /\ basis s' = basis s /\
     forall al, length al = gens s -> (obeys (C s') (g s') al <-> Forall (fun a => - (1) <= a <= 1)%Q al)).
Proof.
  intros (W1 & W2 & W3). unfold new_pred. cbv zeta. set (row := fun j => map (fun i => if i * 2 =? j then 1%Q else if i * 2 + 1 =? j then (- (1))%Q else 0%Q) (seq 0 (gens s))).
  assert (R : all_len (length (basis s)) (map row (seq 0 (gens s * 2))) = true). { apply all_len_iff. intros r H. apply in_map_iff in H. destruct H as (j & <- & _). unfold row. rewrite map_length, seq_length. reflexivity. }
  unfold mk_star. fold (dim s). rewrite (proj2 (all_len_iff _ _) W1), R, repeat_length, map_length, seq_length, W3. split.
  - intros N. destruct (Nat.eqb_spec (length (C s)) (gens s * 2)); [lia|reflexivity].
  - intros EL. destruct (Nat.eqb_spec (length (C s)) (gens s * 2)) as [_|]; [|lia]. eexists. split; [reflexivity|]. split; [split; [exact W1|split; [apply all_len_iff; exact R|cbn; rewrite repeat_length, map_length, seq_length; lia]]|]. split; [reflexivity|]. split; [reflexivity|].
    intros al La. cbn [C g]. rewrite EL.
    assert (RE : forall k, k < gens s -> (inner (row (2 * k)%nat) al == nth k al 0)%Q /\ (inner (row (2 * k + 1)%nat) al == - nth k al 0)%Q).
    { intros k Hk. assert (E : (inner al (map (fun i => if (k =? i)%nat then 1 else 0)%Q (seq 0 (gens s))) == nth k al 0)%Q) by (rewrite <- La; rewrite (inner_unit 0 al k); cbn [Nat.leb]; rewrite Nat.sub_0_r; reflexivity).
      split; rewrite inner_comm; unfold row.
      - rewrite <- E. apply inner_map_ext. intros i _. destruct (Nat.eqb_spec (i * 2) (2 * k)); destruct (Nat.eqb_spec k i); try lia; try reflexivity. destruct (Nat.eqb_spec (i * 2 + 1) (2 * k)); [lia|reflexivity].
      - transitivity (inner al (map (fun i => - (1) * (if (k =? i)%nat then 1 else 0))%Q (seq 0 (gens s)))); [|rewrite inner_map_scale, E; lra].
        apply inner_map_ext. intros i _. destruct (Nat.eqb_spec (i * 2) (2 * k + 1)); [lia|]. destruct (Nat.eqb_spec (i * 2 + 1) (2 * k + 1)); destruct (Nat.eqb_spec k i); try lia; reflexivity. }
    unfold obeys. split.
    + intros H. apply (proj1 (Forall2_nth_iff _ _ _ ([] : vec) 0%Q)) in H. destruct H as [_ H]. rewrite map_length, seq_length in H. apply Forall_forall. intros a Ha. destruct (In_nth _ _ 0%Q Ha) as (k & Hk & <-). rewrite La in Hk.
      pose proof (H (2 * k) ltac:(lia)) as H1. pose proof (H (2 * k + 1) ltac:(lia)) as H2. destruct (RE k Hk) as [E1 E2].
      rewrite nth_indep with (d' := row 0) in H1, H2 by (rewrite map_length, seq_length; lia). rewrite map_nth, seq_nth in H1, H2 by lia. cbn [Nat.add] in H1, H2. rewrite nth_repeat_lt in H1, H2 by lia. rewrite E1 in H1. rewrite E2 in H2. lra.
    + intros H. apply (Forall2_nth_iff _ _ _ ([] : vec) 0%Q). rewrite map_length, seq_length, repeat_length. split; [lia|]. intros j Hj.
      rewrite nth_indep with (d' := row 0) by (rewrite map_length, seq_length; lia). rewrite map_nth, seq_nth by lia. cbn [Nat.add]. rewrite nth_repeat_lt by lia.
      destruct (Nat.Even_or_Odd j) as [[k ->]|[k ->]]; destruct (RE k ltac:(lia)) as [E1 E2]; rewrite ?E1, ?E2; rewrite Forall_forall in H; specialize (H (nth k al 0%Q) ltac:(apply nth_In; lia)); lra.
Qed.
Print Assumptions C70_generic_predicate.

Module Example_fitted.
  Import Box_solver.
  Definition old : star := boxed [0]%Q [[1]]%Q [(1, 2)]%Q.
  (** One dimension, one generator, predicate [1 <= a <= 2] or the generic one: a solver for the points 10 and 12 (basis 1). *)
  Definition optimise (A : list vec) (b : vec) (basis points : list vec) : option (vec * Q) :=
    match A, b, basis, points with
    | [[a1]; [a2]], [b1; b2], [[v]], [[p1]; [p2]] =>
      if Qeq_bool a1 1 && Qeq_bool a2 (- (1)) && Qeq_bool b1 1 && Qeq_bool b2 1 && Qeq_bool v 1 && Qle_bool p1 p2 then Some ([(p1 + p2) * (1 # 2)]%Q, ((p2 - p1) * (1 # 2))%Q) else None
    | _, _, _, _ => None
    end.
  Lemma optimise_ok : model_ok optimise 1.
  Proof.
    intros A b basis points c u. unfold optimise. destruct A as [|[|a1 [|? ?]] [|[|a2 [|? ?]] [|? ?]]]; try discriminate. destruct b as [|b1 [|b2 [|? ?]]]; try discriminate. destruct basis as [|[|v [|? ?]] [|? ?]]; try discriminate. destruct points as [|[|p1 [|? ?]] [|[|p2 [|? ?]] [|? ?]]]; try discriminate.
    match goal with |- context [if ?b then _ else _] => destruct b eqn:E end; [|discriminate]. intros H. injection H as <- <-. repeat (apply andb_prop in E; destruct E as [E ?H]). repeat match goal with H : Qeq_bool _ _ = true |- _ => apply Qeq_bool_iff in H | H : Qle_bool _ _ = true |- _ => apply Qle_bool_iff in H end.
    split; [reflexivity|]. intros p [<-|[<-|[]]].
    - exists [(p1 - p2) * (1 # 2)]%Q. split; [reflexivity|]. split; [intros [|j] Hj; [|lia]; cbn; nra|]. repeat constructor; cbn; nra.
    - exists [(p2 - p1) * (1 # 2)]%Q. split; [reflexivity|]. split; [intros [|j] Hj; [|lia]; cbn; nra|]. repeat constructor; cbn; nra.
  Qed.
  Example ex_C70 : exists s', post_cont_pca optimise old [[1]]%Q [[10]; [12]]%Q = Some s' /\ in_star s' [10]%Q /\ in_star s' [12]%Q.
  Proof.
    eexists. split; [vm_compute; reflexivity|]. match goal with |- in_star ?s _ /\ _ => destruct (@C70_fitted optimise old [[1]]%Q [[10]; [12]]%Q s optimise_ok) as (_ & _ & H) end; [vm_compute; reflexivity|]. split; apply H; cbn; auto.
  Qed.
End Example_fitted.
