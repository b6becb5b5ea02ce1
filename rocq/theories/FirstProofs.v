(** Proofs about first_transitions. *)
From Coq Require Import Ascii String Permutation.
From Verif Require Import Base BaseFacts Dict PyText Tree TreeSpec TreeProofs.
Set Implicit Arguments.
Open Scope nat_scope.

Section First.
  Variable Md : Type.
  Variable md_eqb : Md -> Md -> bool.
  Hypothesis md_eq : forall x y, md_eqb x y = true <-> x = y.
  Notation tnode := (tnode Md).
  Notation T := (tree tnode).
  Notation nget := (dget Nat.eqb).

  Definition changes (a : nat) (m c : tnode) : bool :=
    match nget a (t_mode m), nget a (t_mode c) with Some x, Some y => negb (md_eqb x y) | _, _ => false end.

  Lemma fold_None {X Y} (f : option Y -> X -> option Y) l : (forall x, f None x = None) -> fold_left f l None = None.
  Proof. intros H. induction l; cbn; [reflexivity|]. rewrite H. assumption. Qed.
  Lemma ft_agent_None m c a : ft_agent md_eqb m c None a = None. Proof. reflexivity. Qed.
  Lemma ft_child_None m c : ft_child md_eqb m None c = None.
  Proof. unfold ft_child. apply fold_None. reflexivity. Qed.
  Lemma ft_node_None n : ft_node md_eqb None n = None.
  Proof. unfold ft_node. apply fold_None. intros x. apply ft_child_None. Qed.

  Lemma agents_spec (m c : tnode) : forall ks d d', fold_left (ft_agent md_eqb m c) ks (Some d) = Some d' ->
    forall a, nget a d' = match nget a d with
                          | Some v => Some v
                          | None => if existsb (Nat.eqb a) ks && changes a m c then Some (t_start c) else None
                          end.
  Proof.
    induction ks as [|k ks IH]; intros d d' H a; cbn [fold_left existsb] in *.
    - injection H as <-. destruct (nget a d); reflexivity.
    - cbn [ft_agent obind] in H. unfold dmem in H. destruct (nget k d) as [v|] eqn:Ek.
      + rewrite (IH d d' H a). destruct (nget a d) eqn:Ea; [reflexivity|]. destruct (Nat.eqb a k) eqn:E; [apply Nat.eqb_eq in E; subst; congruence|reflexivity].
      + destruct (nget k (t_mode m)) as [x|] eqn:Ex; [|rewrite (fold_None (ft_agent md_eqb m c)) in H by reflexivity; discriminate].
        destruct (nget k (t_mode c)) as [y|] eqn:Ey; [|cbn [obind] in H; rewrite (fold_None (ft_agent md_eqb m c)) in H by reflexivity; discriminate].
        cbn [obind] in H. destruct (md_eqb x y) eqn:Exy.
        * rewrite (IH d d' H a). destruct (nget a d) eqn:Ea; [reflexivity|]. destruct (Nat.eqb a k) eqn:E; [|reflexivity]. apply Nat.eqb_eq in E. subst.
          unfold changes. rewrite Ex, Ey, Exy. cbn. rewrite andb_false_r. reflexivity.
        * rewrite (IH _ d' H a). unfold dset. destruct (Nat.eqb a k) eqn:E.
          -- apply Nat.eqb_eq in E. subst. rewrite (dget_alter_same Nat.eqb Nat.eqb_eq), Ek. unfold changes. rewrite Ex, Ey, Exy. reflexivity.
          -- rewrite (dget_alter_other Nat.eqb Nat.eqb_eq) by (intros ->; rewrite Nat.eqb_refl in E; discriminate). reflexivity.
  Qed.
  Lemma child_spec (m c : T) d d' : ft_child md_eqb m (Some d) c = Some d' ->
    forall a, nget a d' = match nget a d with Some v => Some v | None => if changes a (content m) (content c) then Some (t_start (content c)) else None end.
  Proof.
    intros H a. rewrite (@agents_spec _ _ _ d d' H a). destruct (nget a d); [reflexivity|]. destruct (changes a (content m) (content c)) eqn:E; [|rewrite andb_false_r; reflexivity].
    assert (existsb (Nat.eqb a) (map fst (t_mode (content m))) = true) as ->; [|reflexivity]. apply existsb_exists. exists a. split; [|apply Nat.eqb_refl].
    unfold changes in E. destruct (nget a (t_mode (content m))) as [x|] eqn:Ex; [|discriminate]. apply (dget_In Nat.eqb Nat.eqb_eq) in Ex. apply in_map_iff. exists (a, x). auto.
  Qed.

  (** The first edge, in the order of the list, on which [a] changes mode. *)
  Fixpoint first_change (a : nat) (es : list (T * T)) : option Q :=
    match es with [] => None | (m, c) :: r => if changes a (content m) (content c) then Some (t_start (content c)) else first_change a r end.
  Definition edges (n : T) : list (T * T) := map (pair n) (child n).
  Lemma first_app a l r : first_change a (l ++ r) = match first_change a l with Some v => Some v | None => first_change a r end.
  Proof. induction l as [|[m c] l IH]; cbn; [reflexivity|]. destruct (changes a _ _); [reflexivity|exact IH]. Qed.
  Lemma node_spec (n : T) : forall d d', ft_node md_eqb (Some d) n = Some d' ->
    forall a, nget a d' = match nget a d with Some v => Some v | None => first_change a (edges n) end.
  Proof.
    unfold ft_node, edges. induction (child n) as [|c r IH]; intros d d' H a; cbn [fold_left map first_change] in *.
    - injection H as <-. destruct (nget a d); reflexivity.
    - destruct (ft_child md_eqb n (Some d) c) as [d1|] eqn:E; [|rewrite (fold_None (ft_child md_eqb n)) in H by (intros; apply ft_child_None); discriminate].
      rewrite (IH d1 d' H a), (@child_spec _ _ _ _ E a). destruct (nget a d); [reflexivity|]. destruct (changes a _ _); reflexivity.
  Qed.
  Lemma nodes_fold : forall ns d d', fold_left (ft_node md_eqb) ns (Some d) = Some d' ->
    forall a, nget a d' = match nget a d with Some v => Some v | None => first_change a (flat_map edges ns) end.
  Proof.
    induction ns as [|n r IH]; intros d d' H a; cbn [fold_left flat_map] in *.
    - injection H as <-. destruct (nget a d); reflexivity.
    - destruct (ft_node md_eqb (Some d) n) as [d1|] eqn:E; [|rewrite (fold_None (ft_node md_eqb)) in H by (intros; apply ft_node_None); discriminate].
      rewrite (IH d1 d' H a), (@node_spec _ _ _ E a), first_app. destruct (nget a d); reflexivity.
  Qed.

  Lemma first_change_Some a es v : first_change a es = Some v -> exists m c, In (m, c) es /\ changes a (content m) (content c) = true /\ v = t_start (content c).
  Proof.
    induction es as [|[m c] r IH]; cbn; [discriminate|]. destruct (changes a _ _) eqn:E.
    - intros H. injection H as <-. exists m, c. auto.
    - intros H. destruct (IH H) as (m' & c' & I & R). exists m', c'. auto.
  Qed.
  Lemma first_change_None a es : first_change a es = None -> forall m c, In (m, c) es -> changes a (content m) (content c) = false.
  Proof.
    induction es as [|[m c] r IH]; cbn; [intros _ m c []|]. destruct (changes a (content m) (content c)) eqn:E; [discriminate|].
    intros H m' c' [X|I]; [injection X as <- <-; exact E|eauto].
  Qed.

  Lemma by_depth_tl p ps : by_depth (p :: ps) -> by_depth ps.
  Proof. intros H i j x y L A B. apply (H (S i) (S j) x y); auto. lia. Qed.
  Lemma first_path a : forall out : list (list nat * T), by_depth (map fst out) -> forall v, first_change a (flat_map edges (map snd out)) = Some v ->
    exists p n c, In (p, n) out /\ In c (child n) /\ changes a (content n) (content c) = true /\ v = t_start (content c) /\
      forall p' n' c', In (p', n') out -> In c' (child n') -> changes a (content n') (content c') = true -> length p <= length p'.
  Proof.
    induction out as [|[p n] r IH]; intros D v H; [discriminate|]. cbn [map snd flat_map] in H. rewrite first_app in H. destruct (first_change a (edges n)) as [u|] eqn:E.
    - injection H as ->. destruct (first_change_Some _ _ E) as (m & c & I & C & V). unfold edges in I. apply in_map_iff in I. destruct I as (x & X & I). injection X as <- <-.
      exists p, n, x. split; [left; reflexivity|]. repeat split; auto. intros p' n' c' [X|I'] _ _; [injection X as <- _; lia|].
      apply In_nth_error in I'. destruct I' as (j & Hj). apply (D 0 (S j) p p'); [lia|reflexivity|]. cbn. rewrite nth_error_map, Hj. reflexivity.
    - destruct (IH (by_depth_tl D) v H) as (q & m & c & I1 & I2 & I3 & I4 & I5). exists q, m, c. split; [right; exact I1|]. repeat split; auto.
      intros p' n' c' [X|I'] J1 J2; [|eauto]. injection X as <- <-. pose proof (first_change_None _ _ E n c' (in_map _ _ _ J1)). congruence.
  Qed.

  Lemma changes_spec a m c : changes a m c = true <-> exists x y, nget a (t_mode m) = Some x /\ nget a (t_mode c) = Some y /\ x <> y.
  Proof.
    unfold changes. split.
    - destruct (nget a (t_mode m)) as [x|]; [|discriminate]. destruct (nget a (t_mode c)) as [y|]; [|discriminate]. intros H. exists x, y. repeat split; auto. intros E. apply md_eq in E. rewrite E in H. discriminate.
    - intros (x & y & -> & -> & N). destruct (md_eqb x y) eqn:E; [apply md_eq in E; contradiction|reflexivity].
  Qed.

  Lemma first_spec (t : T) d : first_transitions md_eqb t = Some d ->
    forall a, (nget a d = None -> forall p k s, ~ transition t a p k s) /\
      (forall v, nget a d = Some v -> exists p k, transition t a p k v /\ forall p' k' v', transition t a p' k' v' -> length p <= length p').
  Proof.
    unfold first_transitions. destruct (nodes_spec t) as (out & N & P & D). rewrite N. cbn [obind]. intros H a. pose proof (@nodes_fold _ _ _ H a) as R. cbn in R.
    assert (In' : forall p n, In (p, n) out <-> at_path t p = Some n).
    { intros p n. split; intros I.
      - apply (Permutation_in _ P) in I. apply pre_In in I. destruct I as (s & -> & Hs). exact Hs.
      - apply (Permutation_in _ (Permutation_sym P)). apply pre_In. exists p. auto. }
    split.
    - intros E p k s (n & c & x & y & A1 & A2 & A3 & A4 & A5 & _). rewrite E in R. symmetry in R.
      assert (C : changes a (content n) (content c) = true) by (apply changes_spec; eauto).
      rewrite (first_change_None _ _ R n c) in C; [discriminate|]. apply in_flat_map. exists n. split; [apply in_map_iff; exists (p, n); split; [reflexivity|apply In'; exact A1]|].
      unfold edges. apply in_map. eapply nth_error_In. exact A2.
    - intros v E. rewrite E in R. symmetry in R. destruct (first_path _ _ D R) as (p & n & c & I1 & I2 & I3 & I4 & I5). apply In_nth_error in I2. destruct I2 as (k & Hk).
      exists p, k. split.
      + apply changes_spec in I3. destruct I3 as (x & y & X1 & X2 & X3). exists n, c, x, y. repeat split; auto. apply In'. exact I1.
      + intros p' k' v' (n' & c' & x & y & A1 & A2 & A3 & A4 & A5 & _). apply (I5 p' n' c'); [apply In'; exact A1|eapply nth_error_In; exact A2|apply changes_spec; eauto].
  Qed.

  Lemma agents_total (m c : tnode) : forall ks d, (forall k, In k ks -> nget k (t_mode m) <> None /\ nget k (t_mode c) <> None) ->
    exists d', fold_left (ft_agent md_eqb m c) ks (Some d) = Some d'.
  Proof.
    induction ks as [|k ks IH]; intros d H; [eexists; reflexivity|]. cbn [fold_left ft_agent obind]. destruct (dmem Nat.eqb k d); [apply IH; intros; apply H; right; assumption|].
    destruct (H k (or_introl eq_refl)) as [H1 H2]. destruct (nget k (t_mode m)); [|contradiction]. destruct (nget k (t_mode c)); [|contradiction]. cbn [obind].
    destruct (md_eqb _ _); apply IH; intros; apply H; right; assumption.
  Qed.
  Lemma first_total (t : T) : same_agents t -> exists d, first_transitions md_eqb t = Some d.
  Proof.
    intros S. unfold first_transitions. destruct (nodes_spec t) as (out & N & P & _). rewrite N. cbn [obind].
    assert (K : forall p n, In (p, n) out -> at_path t p = Some n).
    { intros p n I. apply (Permutation_in _ P) in I. apply pre_In in I. destruct I as (s & -> & Hs). exact Hs. }
    assert (Cs : forall n ch d, (forall c, In c ch -> exists p q, at_path t p = Some n /\ at_path t q = Some c) -> exists d', fold_left (ft_child md_eqb n) ch (Some d) = Some d').
    { intros n. induction ch as [|c r IH]; intros d H; [eexists; reflexivity|]. cbn [fold_left]. destruct (H c (or_introl eq_refl)) as (p & q & Hp & Hq).
      destruct (@agents_total (content n) (content c) (map fst (t_mode (content n))) d) as (d1 & E1).
      { intros k Hk. assert (nget k (t_mode (content n)) <> None) by (intros E; apply (dget_None Nat.eqb Nat.eqb_eq) in E; contradiction). split; [assumption|].
        intros E. apply (S q c k Hq) in E. apply (S p n k Hp) in E. contradiction. }
      unfold ft_child at 2. rewrite E1. apply IH. intros; apply H; right; assumption. }
    assert (Ns : forall l d, (forall x, In x l -> In x out) -> exists d', fold_left (ft_node md_eqb) (map snd l) (Some d) = Some d').
    { induction l as [|[p n] r IH]; intros d H; [eexists; reflexivity|]. cbn [map snd fold_left]. assert (Hp := K p n (H _ (or_introl eq_refl))). destruct (Cs n (child n) d) as (d1 & E1).
      { intros c Hc. apply In_nth_error in Hc. destruct Hc as (k & Hk). exists p, (p ++ [k]). split; [exact Hp|]. clear -Hp Hk. revert t Hp. induction p as [|i p IHp]; intros t Hp; cbn in *.
        - injection Hp as ->. rewrite Hk. reflexivity.
        - destruct (nth_error (child t) i); [|discriminate]. cbn [obind] in *. apply IHp. exact Hp. }
      unfold ft_node at 2. rewrite E1. apply IH. intros x Hx. apply H. right. exact Hx. }
    apply Ns. auto.
  Qed.

  Lemma at_path_app (t : T) : forall p q n, at_path t p = Some n -> at_path t (p ++ q) = at_path n q.
  Proof.
    intros p. revert t. induction p as [|i p IH]; intros t q n H; cbn in *; [injection H as ->; reflexivity|]. destruct (nth_error (child t) i); [|discriminate]. cbn [obind] in *. apply IH. exact H.
  Qed.
  Lemma unbranched_desc : forall (t : T), unbranched t -> forall q m, at_path t q = Some m -> (t_start (content t) <= t_start (content m))%Q.
  Proof.
    intros t. induction t as [a ch IH] using tree_ind'. intros U [|i q] m H; cbn in H; [injection H as <-; apply Qle_refl|].
    destruct (nth_error ch i) as [c|] eqn:E; [|discriminate]. cbn [obind] in H. rewrite Forall_forall in IH.
    eapply Qle_trans; [apply (proj2 (U [] (Node a ch) eq_refl) c); eapply nth_error_In; exact E|]. apply (IH c (nth_error_In _ _ E)) with (q := q); [|exact H].
    intros p n Hp. apply (U (i :: p)). cbn. rewrite E. exact Hp.
  Qed.
  Lemma unbranched_zero : forall (t : T), unbranched t -> forall q, is_path t q -> q = repeat 0 (length q).
  Proof.
    intros t. induction t as [a ch IH] using tree_ind'. intros U [|i q] H; [reflexivity|]. unfold is_path in H. cbn in H. destruct (nth_error ch i) as [c|] eqn:E; [|contradiction]. cbn [obind] in H.
    pose proof (proj1 (U [] (Node a ch) eq_refl)) as L. cbn in L. assert (i < length ch) by (apply nth_error_Some; rewrite E; discriminate). assert (i = 0) as -> by lia. cbn [length repeat]. f_equal.
    rewrite Forall_forall in IH. apply (IH c (nth_error_In _ _ E)); [|exact H]. intros p n Hp. apply (U (0 :: p)). cbn [at_path child]. rewrite E. exact Hp.
  Qed.
  Lemma first_unbranched (t : T) d : unbranched t -> first_transitions md_eqb t = Some d ->
    forall a v, nget a d = Some v -> forall p' k' v', transition t a p' k' v' -> (v <= v')%Q.
  Proof.
    intros U H a v E p' k' v' Tr. destruct (proj2 (first_spec _ H a) v E) as (p & k & (n & c & x & y & A1 & A2 & _ & _ & _ & ->) & Min). pose proof (Min _ _ _ Tr) as L.
    destruct Tr as (n' & c' & x' & y' & B1 & B2 & _ & _ & _ & ->).
    assert (P1 : at_path t (p ++ [k]) = Some c) by (rewrite (at_path_app _ _ _ A1); cbn; rewrite A2; reflexivity).
    assert (P2 : at_path t (p' ++ [k']) = Some c') by (rewrite (at_path_app _ _ _ B1); cbn; rewrite B2; reflexivity).
    assert (Z1 : p ++ [k] = repeat 0 (S (length p))) by (rewrite (unbranched_zero U (q := p ++ [k])) by (unfold is_path; rewrite P1; discriminate); rewrite app_length, Nat.add_comm; reflexivity).
    assert (Z2 : p' ++ [k'] = repeat 0 (S (length p'))) by (rewrite (unbranched_zero U (q := p' ++ [k'])) by (unfold is_path; rewrite P2; discriminate); rewrite app_length, Nat.add_comm; reflexivity).
    assert (X : p' ++ [k'] = (p ++ [k]) ++ repeat 0 (length p' - length p)) by (rewrite Z1, Z2, <- repeat_app; f_equal; lia).
    rewrite X, (at_path_app _ _ _ P1) in P2. eapply unbranched_desc; [|exact P2]. intros q m Hq. apply (U ((p ++ [k]) ++ q)). rewrite (at_path_app _ _ _ P1). exact Hq.
  Qed.
End First.
