From Coq Require Import Ascii String.
From Verif Require Import Base Dict PyText Tree TreeSpec TreeProofs Plot Star StarSpec StarProofs StarPlot StarPlotSpec.
From Coq Require Import Lqa Lia.
Set Implicit Arguments.
Open Scope nat_scope.

Ltac bind H := match type of H with obind ?x _ = Some _ => let E := fresh "E" in destruct x eqn:E; [cbn [obind] in H|discriminate H] end.

Lemma row_times_inv r m v : row_times r m = Some v ->
  exists r0, hd_error m = Some r0 /\ length r = length m /\ v = map (fun k => dot r (Star.column k m)) (seq 0 (length r0)).
Proof.
  unfold row_times, matmul. intros H. destruct (hd_error m) as [r0|]; [|discriminate]. cbn [obind mapM] in H. destruct (Nat.eqb_spec (length r) (length m)) as [e|]; [|discriminate].
  cbn [obind hd_error] in H. injection H as <-. exists r0. auto.
Qed.
Lemma first_len s r0 : wf_star s -> hd_error (basis s) = Some r0 -> length r0 = dim s.
Proof. intros (W & _) H. apply W. destruct (basis s); [discriminate|]. injection H as ->. cbn; auto. Qed.
Lemma put_len : forall l i v l', put l i v = Some l' -> length l' = length l /\ i < length l.
Proof.
  induction l as [|a l IH]; intros i v l' H; [destruct i; discriminate|]. destruct i as [|i]; cbn in H; [injection H as <-; cbn; lia|].
  bind H. injection H as <-. destruct (IH _ _ _ E). cbn. lia.
Qed.
Lemma put_inner : forall l i v l' p, put l i v = Some l' -> (inner l' p == inner l p + (v - nth i l 0) * nth i p 0)%Q.
Proof.
  induction l as [|a l IH]; intros i v l' p H; [destruct i; discriminate|]. destruct i as [|i]; cbn in H.
  - injection H as <-. destruct p; cbn; lra.
  - bind H. injection H as <-. destruct p as [|y p]; cbn; [lra|]. rewrite (IH _ _ _ p E). lra.
Qed.
Lemma put_nth : forall l i v l' j, put l i v = Some l' -> nth j l' 0%Q = if j =? i then v else nth j l 0%Q.
Proof.
  induction l as [|a l IH]; intros i v l' j H; [destruct i; discriminate|]. destruct i as [|i]; cbn in H.
  - injection H as <-. destruct j; reflexivity.
  - bind H. injection H as <-. destruct j; cbn; [reflexivity|]. apply (IH _ _ _ j E).
Qed.
Lemma nth_repeat0 n j : nth j (repeat 0%Q n) 0%Q = 0%Q.
Proof. revert j. induction n; destruct j; cbn; auto. Qed.

Lemma direction_inner s dims cs d p : direction s dims cs = Some d -> fst (drawn_dims dims) <> snd (drawn_dims dims) ->
  (inner d p == fst cs * nth (fst (drawn_dims dims)) p 0 + snd cs * nth (snd (drawn_dims dims)) p 0)%Q.
Proof.
  destruct dims as [[d1 d2]|]; cbn [direction drawn_dims fst snd]; intros H Hd.
  - bind H. rewrite (put_inner _ _ _ p H), (put_inner _ _ _ p E), inner_zero, nth_repeat0, (put_nth _ _ _ d2 E).
    destruct (Nat.eqb_spec d2 d1); [congruence|]. rewrite nth_repeat0. lra.
  - injection H as <-. destruct p as [|a [|b p]]; cbn [app inner nth]; try lra. rewrite inner_zero. lra.
Qed.

Section V.
  Variable linprog : bool -> vec -> list vec -> vec -> lp.
  Variable s : star.
  Hypothesis W : wf_star s.
  Hypothesis C0 : C s <> [].
  Hypothesis LP : solves linprog s.

  Lemma maximize_inv d p : maximize linprog s d = Some p ->
    length d = gens s /\ gens s = dim s /\
    exists x, length x = gens s /\ obeys (C s) (g s) x /\ p = the_point s x /\
      let dd := map (fun k => inner (vopp d) (Star.column k (basis s))) (seq 0 (dim s)) in
      forall y, length y = gens s -> obeys (C s) (g s) y -> (inner dd x <= inner dd y)%Q.
  Proof.
    unfold maximize. cbn zeta. intros H. destruct (row_times _ _) as [dd|] eqn:E; [|discriminate]; cbn [obind] in H. destruct (run_lp _ _ _ _ _) as [res|] eqn:E0; [|discriminate]; cbn [obind] in H. destruct (row_times_inv _ _ E) as (r0 & H0 & L0 & ->).
    pose proof (first_len W H0) as Lr. rewrite Lr in *. unfold vopp in L0. rewrite map_length in L0.
    unfold run_lp in E0. destruct (all_len _ _) eqn:Ea; [|discriminate]. destruct (length (g s) =? length (C s)); [|discriminate]. cbn [andb] in E0. injection E0 as <-.
    assert (GD : gens s = dim s).
    { rewrite all_len_iff in Ea. destruct W as (_ & W2 & _). destruct (C s) as [|c cs]; [destruct (C0 eq_refl)|]. rewrite <- (W2 c), (Ea c) by (cbn; auto). rewrite map_length, seq_length. reflexivity. }
    assert (Ldd : length (map (fun k => dot (vopp d) (Star.column k (basis s))) (seq 0 (dim s))) = gens s) by (rewrite map_length, seq_length; auto).
    pose proof (LP _ Ldd) as X. unfold exact_lp in X. destruct (linprog _ _ _ _) as [x| |]; try discriminate. bind H. injection H as <-. destruct X as (Lx & [F _] & Opt).
    destruct (row_times_inv _ _ E0) as (r1 & H1 & L1 & ->). rewrite H1 in H0. injection H0 as ->. rewrite Lr in *.
    split; [exact L0|]. split; [exact GD|]. exists x. split; [congruence|]. split; [exact F|]. split.
    - unfold the_point, vadd. assert (Hc : forall (l : vec) a F, zipw Qplus l (map F (seq a (length l))) = map (fun j => nth (j - a) l 0%Q + F j)%Q (seq a (length l))).
      { clear. induction l as [|v l IH]; intros a F; [reflexivity|]. cbn [length seq map zipw]. rewrite IH, Nat.sub_diag. cbn [nth]. f_equal. apply map_ext_in. intros j Hj. apply in_seq in Hj. replace (j - a) with (S (j - S a)) by lia. reflexivity. }
      unfold dim. rewrite Hc. apply map_ext. intros j. rewrite Nat.sub_0_r, dot_inner. reflexivity.
    - cbn zeta. intros y Ly Oy. rewrite Ldd in Opt. assert (Edd : forall z, inner (map (fun k => inner (vopp d) (Star.column k (basis s))) (seq 0 (dim s))) z = inner (map (fun k => dot (vopp d) (Star.column k (basis s))) (seq 0 (dim s))) z).
      { intros z. f_equal. apply map_ext. intros k. symmetry. apply dot_inner. }
      rewrite !Edd. apply Opt; [exact Ly|]. split; [exact Oy|discriminate].
  Qed.

  Lemma the_point_in x : length x = gens s -> obeys (C s) (g s) x -> in_star s (the_point s x).
  Proof. intros L O. exists x. split; [exact L|]. split; [exact O|apply the_point_ok]. Qed.

  (** With symmetric generators the objective is the right one. *)
  Lemma objective d x : symmetric_star s -> length d = dim s -> length x = gens s ->
    (inner (map (fun k => inner (vopp d) (Star.column k (basis s))) (seq 0 (dim s))) x == inner d (center s) - inner d (the_point s x))%Q.
  Proof.
    intros [GD Sy] Ld Lx. rewrite (inner_point d W (the_point_ok s x)).
    assert (E : same (map (fun k => inner (vopp d) (Star.column k (basis s))) (seq 0 (dim s))) (map (fun v => - inner d v)%Q (basis s))).
    { apply same_nth. rewrite !map_length, seq_length. split; [symmetry; exact GD|]. intros k Hk. rewrite nth_map_seq by exact Hk.
      rewrite nth_indep with (d' := (- inner d [])%Q) by (rewrite map_length; unfold gens in GD; lia). rewrite (map_nth (fun v => - inner d v)%Q).
      rewrite inner_opp. apply Qopp_comp. apply inner_same. apply same_nth. destruct W as (W1 & _). unfold Star.column. rewrite map_length, (W1 (nth k (basis s) [])) by (apply nth_In; unfold gens in GD; lia).
      split; [exact GD|]. intros j Hj. unfold gens in GD. rewrite GD in Hj. rewrite column_nth. apply Sy; assumption. }
    rewrite (inner_same_l _ E), inner_comm.
    assert (N : forall l z, (inner z (map (fun v => - inner d v)%Q l) == - inner z (map (inner d) l))%Q).
    { clear. induction l as [|v l IH]; intros [|a z]; cbn; try lra. rewrite IH. lra. }
    rewrite N. lra.
  Qed.

  Lemma extreme_point d p q : symmetric_star s -> maximize linprog s d = Some p -> in_star s q -> (inner d q <= inner d p)%Q.
  Proof.
    intros Sy H (y & Ly & Oy & Py). destruct (maximize_inv _ H) as (Ld & GD & x & Lx & Ox & -> & Opt). cbn zeta in Opt. specialize (Opt y Ly Oy).
    rewrite !(@objective d) in Opt by (try assumption; congruence). assert (S : same q (the_point s y)) by (apply (point_of_same _ Py), the_point_ok). rewrite (inner_same _ S). lra.
  Qed.
End V.

Lemma mapM_nth {A B} (f : A -> option B) : forall l r k y, mapM f l = Some r -> nth_error r k = Some y -> exists x, nth_error l k = Some x /\ f x = Some y.
Proof.
  induction l as [|a l IH]; intros r k y H N; cbn [mapM] in H; [injection H as <-; destruct k; discriminate|]. bind H. bind H. injection H as <-.
  destruct k as [|k]; cbn in N; [injection N as <-; exists a; auto|]. apply (IH _ _ _ eq_refl N).
Qed.
Lemma mapM_len {A B} (f : A -> option B) : forall l r, mapM f l = Some r -> length r = length l.
Proof. induction l as [|a l IH]; intros r H; cbn [mapM] in H; [injection H as <-; reflexivity|]. bind H. bind H. injection H as <-. cbn. rewrite (IH _ eq_refl). reflexivity. Qed.

(** What [get_verts] returns: the first point again at the end, and every point the projection of a maximum in its direction. *)
Lemma verts_inv linprog circle s dims path : get_verts linprog circle s dims = Some path ->
  length (fst path) = S (length circle) /\ length (snd path) = S (length circle) /\ 0 < length circle /\
  (forall x y, vertex path 0 x y <-> vertex path (length circle) x y) /\
  forall k x y, k < length circle -> vertex path k x y -> exists cs d p, nth_error circle k = Some cs /\ direction s dims cs = Some d /\ maximize linprog s d = Some p /\
    nth_error p (fst (drawn_dims dims)) = Some x /\ nth_error p (snd (drawn_dims dims)) = Some y.
Proof.
  unfold get_verts. fold (drawn_dims dims). intros H. bind H. rename l into pts. bind H. injection H as <-. destruct pts as [|p0 pts]; [discriminate|]. injection E0 as <-.
  pose proof (mapM_len _ _ E) as L. cbn [fst snd]. rewrite !app_length, !map_length, L. cbn [length Nat.add]. split; [lia|]. split; [lia|]. split; [cbn in L; lia|]. split.
  - intros x y. unfold vertex. cbn [fst snd].
    assert (K : forall f : Q * Q -> Q, nth_error (map f (p0 :: pts) ++ [f p0]) (length circle) = Some (f p0)).
    { intros f. rewrite nth_error_app2 by (rewrite map_length; lia). rewrite map_length, L, Nat.sub_diag. reflexivity. }
    rewrite !K. cbn. tauto.
  - intros k x y Hk [Hx Hy]. cbn [fst snd] in Hx, Hy. rewrite nth_error_app1 in Hx by (rewrite map_length; lia). rewrite nth_error_app1 in Hy by (rewrite map_length; lia).
    rewrite nth_error_map in Hx, Hy. destruct (nth_error (p0 :: pts) k) as [[x' y']|] eqn:En; [|discriminate]. injection Hx as ->. injection Hy as ->.
    destruct (mapM_nth _ _ _ E En) as (cs & Hcs & F). bind F. bind F. bind F. bind F. injection F as -> ->. eexists _, _, _. repeat split; eassumption.
Qed.

(** * What is drawn *)
Section Walk.
  Variable linprog : bool -> vec -> list vec -> vec -> lp.
  Variable circle : list (Q * Q).
  Variable a : word.
  Notation snode := (dict word (list (Q * star))).

  (** The stars that the walk from a node draws: rows of nodes that are reached through nodes with the agent. *)
  Inductive shown_from : tree snode -> star -> Prop :=
  | Here n tr r : dget word_eqb a (content n) = Some tr -> In r tr -> shown_from n (snd r)
  | Below n tr c st : dget word_eqb a (content n) = Some tr -> In c (child n) -> shown_from c st -> shown_from n st.

  Lemma draw_inv x_dim y_dim : forall fuel q ps, draw_agent linprog circle fuel q a x_dim y_dim = Some ps ->
    (forall p, In p ps -> exists n st, In n q /\ shown_from n st /\ get_verts linprog circle st None = Some p) /\
    (forall n st, In n q -> shown_from n st -> exists p, In p ps /\ get_verts linprog circle st None = Some p).
  Proof.
    induction fuel as [|f IH]; intros [|n q] ps H; cbn [draw_agent] in H; try discriminate; try (injection H as <-; split; [intros p []|intros n st []]).
    destruct (dget word_eqb a (content n)) as [tr|] eqn:Et.
    - bind H. bind H. injection H as <-. destruct (IH _ _ E0) as [A B]. split.
      + intros p Hp. apply in_app_or in Hp. destruct Hp as [Hp|Hp].
        * apply In_nth_error in Hp. destruct Hp as [k Hk]. destruct (mapM_nth _ _ _ E Hk) as (r & Hr & G). exists n, (snd r). split; [left; reflexivity|]. split; [|exact G]. eapply Here; [exact Et|]. eapply nth_error_In, Hr.
        * destruct (A p Hp) as (m & st & Hm & Hs & G). apply in_app_or in Hm. destruct Hm as [Hm|Hm]; [exists m, st; split; [right; exact Hm|auto]|].
          exists n, st. split; [left; reflexivity|]. split; [|exact G]. eapply Below; eassumption.
      + intros m st [<-|Hm] Hs.
        * inversion Hs as [? tr' r Ht Hr|? tr' c ? Ht Hc Hs']; subst.
          { rewrite Ht in Et. injection Et as ->. apply In_nth_error in Hr. destruct Hr as [k Hk].
            assert (X : exists p, nth_error l k = Some p). { destruct (nth_error l k) eqn:N; [eauto|]. apply nth_error_None in N. rewrite (mapM_len _ _ E) in N. assert (nth_error tr k <> None) by congruence. apply nth_error_Some in H. lia. }
            destruct X as [p Hp]. exists p. split; [apply in_or_app; left; eapply nth_error_In, Hp|]. destruct (mapM_nth _ _ _ E Hp) as (r' & Hr' & G). rewrite Hk in Hr'. injection Hr' as <-. exact G. }
          destruct (B c st) as (p & Hp & G); [apply in_or_app; auto|exact Hs'|]. exists p. split; [apply in_or_app; auto|exact G].
        * destruct (B m st) as (p & Hp & G); [apply in_or_app; auto|exact Hs|]. exists p. split; [apply in_or_app; auto|exact G].
    - destruct (IH _ _ H) as [A B]. split.
      + intros p Hp. destruct (A p Hp) as (m & st & Hm & X). exists m, st. split; [right; exact Hm|exact X].
      + intros m st [<-|Hm] Hs; [inversion Hs; congruence|]. apply (B m st Hm Hs).
  Qed.

  Lemma shown_path t st : shown_from t st <->
    exists q n tr r, at_path t q = Some n /\ dget word_eqb a (content n) = Some tr /\ In r tr /\ snd r = st /\
      forall q1 i q2, q = q1 ++ i :: q2 -> exists m tr', at_path t q1 = Some m /\ dget word_eqb a (content m) = Some tr'.
  Proof.
    split.
    - induction 1 as [n tr r Ht Hr|n tr c st Ht Hc Hs IH].
      + exists [], n, tr, r. split; [reflexivity|]. split; [exact Ht|]. split; [exact Hr|]. split; [reflexivity|]. intros q1 i q2 E. destruct q1; discriminate.
      + destruct IH as (q & m & tr' & r & Hq & Hm & Hr & Es & Up). apply In_nth_error in Hc. destruct Hc as [k Hk].
        exists (k :: q), m, tr', r. split; [cbn; rewrite Hk; exact Hq|]. split; [exact Hm|]. split; [exact Hr|]. split; [exact Es|].
        intros [|j q1] i q2 E; [exists n, tr; auto|]. injection E as <- ->. destruct (Up q1 i q2 eq_refl) as (m' & tr2 & H1 & H2). exists m', tr2. cbn. rewrite Hk. auto.
    - intros (q & n & tr & r & Hq & Ht & Hr & <- & Up). revert t Hq Up. induction q as [|k q IH]; intros t Hq Up; cbn in Hq.
      + injection Hq as ->. eapply Here; eassumption.
      + bind Hq. destruct (Up [] k q eq_refl) as (m & tr' & H1 & H2). injection H1 as <-. eapply Below; [exact H2|eapply nth_error_In, E|]. apply IH; [exact Hq|].
        intros q1 i q2 ->. destruct (Up (k :: q1) i q2 eq_refl) as (m' & tr2 & H3 & H4). exists m', tr2. cbn in H3. rewrite E in H3. auto.
  Qed.
End Walk.
