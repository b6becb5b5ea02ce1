From Coq Require Import Ascii String Lqa.
From Verif Require Import Base BaseFacts Dict PyText Guard Tree TreeSpec TreeProofs ResetProofs TreeGraph TreeGraphSpec.
Set Implicit Arguments.
Open Scope nat_scope.

Lemma vtree_ind (P : vtree -> Prop) : (forall a ch, Forall P ch -> P (Node a ch)) -> forall t, P t.
Proof. intros H. fix IH 1. intros [a ch]. apply H. induction ch as [|c ch IHc]; constructor; [apply IH|exact IHc]. Qed.

Fixpoint longest_of (t : vtree) : nat := match t with Node a ch => rows t + list_max (map longest_of ch) end.
Fixpoint post (t : vtree) : list vtree := match t with Node a ch => flat_map post ch ++ [t] end.

Lemma nodes_at (t : vtree) : exists ns, nodes t = Some ns /\ forall n, In n ns <-> exists q, at_path t q = Some n.
Proof.
  destruct (nodes_spec t) as (out & E & P & _). exists (map snd out). split; [exact E|]. intros n. rewrite in_map_iff. split.
  - intros ((q & m) & <- & I). apply (Permutation.Permutation_in _ P) in I. apply pre_In in I. destruct I as (s & -> & A). exists s. exact A.
  - intros (q & A). exists (q, n). split; [reflexivity|]. apply (Permutation.Permutation_in _ (Permutation.Permutation_sym P)). apply pre_In. exists q. auto.
Qed.

Lemma at_path_app (t : vtree) : forall p q n, at_path t p = Some n -> at_path t (p ++ q) = at_path n q.
Proof.
  intros p. revert t. induction p as [|i p IH]; intros t q n H; [injection H as <-; reflexivity|]. cbn [at_path app] in *. destruct (nth_error (child t) i); [|discriminate]. cbn [obind] in *. apply IH. exact H.
Qed.
Lemma at_child (t : vtree) p n c : at_path t p = Some n -> In c (child n) -> exists i, at_path t (p ++ [i]) = Some c.
Proof.
  intros A I. apply In_nth_error in I. destruct I as [i I]. exists i. rewrite (at_path_app _ _ _ A). cbn. rewrite I. reflexivity.
Qed.

Lemma post_at : forall t n, In n (post t) <-> exists q, at_path t q = Some n.
Proof.
  induction t as [a ch IH] using vtree_ind. intros n. cbn [post]. rewrite in_app_iff, in_flat_map. split.
  - intros [(c & Ic & In_)|[<-|[]]]; [|exists []; reflexivity]. rewrite Forall_forall in IH. destruct (proj1 (IH c Ic n) In_) as [q Q].
    apply In_nth_error in Ic. destruct Ic as [i Ei]. exists (i :: q). cbn. rewrite Ei. exact Q.
  - intros ([|i q] & Q); [injection Q as <-; right; left; reflexivity|]. cbn in Q. destruct (nth_error ch i) as [c|] eqn:Ei; [|discriminate]. left. exists c.
    pose proof (nth_error_In _ _ Ei) as Ic. split; [exact Ic|]. rewrite Forall_forall in IH. apply (IH c Ic n). exists q. exact Q.
Qed.

Definition record (d : dict Z nat) (n : vtree) : dict Z nat := dset Z.eqb (vid n) (longest_of n) d.

Lemma get_len_eq : forall t, (forall n, In n (post t) -> v_rows (content n) <> []) -> forall lens,
  get_len t lens = Some (longest_of t, fold_left record (post t) lens).
Proof.
  induction t as [a ch IH] using vtree_ind. intros R lens. cbn [get_len].
  assert (Ra : nth_error (v_rows a) 0 = Some (rows (Node a ch))).
  { specialize (R (Node a ch)). cbn [content] in R. unfold rows. cbn [content]. destruct (v_rows a); [destruct R; [|reflexivity]; cbn [post]; apply in_app_iff; right; left; reflexivity|reflexivity]. }
  rewrite Ra. cbn [obind].
  assert (G : forall l m lens, (forall c, In c l -> In c ch) ->
    (fix go (ch : list vtree) (m : nat) (lens : dict Z nat) : option (nat * dict Z nat) :=
               match ch with
               | [] => Some (m, lens)
               | c :: ch' => do r <- get_len c lens; go ch' (Nat.max m (fst r)) (snd r)
               end) l m lens = Some (Nat.max m (list_max (map longest_of l)), fold_left record (flat_map post l) lens)).
  { induction l as [|c l IHl]; intros m le Hl; [cbn; rewrite Nat.max_0_r; reflexivity|]. rewrite Forall_forall in IH.
    rewrite (IH c (Hl c (or_introl eq_refl))). 
    - cbn [obind fst snd]. rewrite IHl by (intros x Hx; apply Hl; right; exact Hx). cbn [map flat_map]. rewrite fold_left_app. f_equal. f_equal. cbn [list_max fold_right]. unfold list_max. lia.
    - intros n Hn. apply R. cbn [post]. apply in_app_iff. left. apply in_flat_map. exists c. split; [apply Hl; left; reflexivity|exact Hn]. }
  rewrite G by auto. cbn [obind fst snd]. cbn [post]. rewrite fold_left_app. reflexivity.
Qed.

Lemma record_get l : forall d k, (exists n, In n l /\ vid n = k) -> exists n, In n l /\ vid n = k /\ dget Z.eqb k (fold_left record l d) = Some (longest_of n).
Proof.
  assert (Keep : forall l d k, (forall n, In n l -> vid n <> k) -> dget Z.eqb k (fold_left record l d) = dget Z.eqb k d).
  { clear. induction l as [|n l IH]; intros d k H; [reflexivity|]. cbn [fold_left]. rewrite IH by (intros m Hm; apply H; right; exact Hm). unfold record, dset. apply dget_alter_other; [exact Z.eqb_eq|apply H; left; reflexivity]. }
  induction l as [|n l IH]; intros d k (m & Im & Em); [destruct Im|]. cbn [fold_left].
  destruct (existsb (fun x => Z.eqb (vid x) k) l) eqn:Ex.
  - apply existsb_exists in Ex. destruct Ex as (x & Ix & Ek). apply Z.eqb_eq in Ek. destruct (IH (record d n) k (ex_intro _ x (conj Ix Ek))) as (y & Iy & Ey & G). exists y. split; [right; exact Iy|auto].
  - assert (N : forall x, In x l -> vid x <> k). { intros x Ix Ek. apply Z.eqb_eq in Ek. rewrite (proj2 (existsb_exists _ _)) in Ex; [discriminate|]. exists x. auto. }
    destruct Im as [-> |Im]; [|destruct (N m Im Em)]. exists m. split; [left; reflexivity|]. split; [exact Em|]. rewrite Keep by exact N. unfold record, dset. rewrite <- Em. rewrite dget_alter_same by exact Z.eqb_eq. reflexivity.
Qed.

Lemma longest_ok : forall t, longest t (longest_of t).
Proof.
  induction t as [a ch IH] using vtree_ind. rewrite Forall_forall in IH. cbn [longest_of]. split.
  - destruct ch as [|c0 ch'] eqn:Ech.
    + exists [Node a []]. split; [constructor; reflexivity|]. unfold total. cbn. lia.
    + rewrite <- Ech in *. assert (Ne : map longest_of ch <> []) by (rewrite Ech; discriminate). pose proof (list_max_In Ne) as I. apply in_map_iff in I. destruct I as (c & Ec & Ic).
      destruct (IH c Ic) as [(p & B & T) _]. exists (Node a ch :: p). split; [apply branch_step with (c := c); [exact Ic|exact B]|]. unfold total in *. cbn [map list_sum fold_right]. change (fold_right Nat.add 0 (map rows p)) with (list_sum (map rows p)). rewrite T, Ec. reflexivity.
  - intros p B. inversion B as [t E|t c q Ic Bq]; subst.
    + cbn [child] in E. subst ch. unfold total. cbn. lia.
    + cbn [child] in Ic. destruct (IH c Ic) as [_ U]. specialize (U q Bq). unfold total in *. cbn [map list_sum fold_right]. change (fold_right Nat.add 0 (map rows q)) with (list_sum (map rows q)).
      pose proof (list_max_ge (map longest_of ch) (longest_of c) (in_map _ _ _ Ic)). lia.
Qed.
Lemma longest_fun t k k' : longest t k -> longest t k' -> k = k'.
Proof. intros [(p & B & <-) U] [(p' & B' & <-) U']. specialize (U p' B'). specialize (U' p B). lia. Qed.

Section Root.
  Variable t : vtree.
  Hypothesis D : tells_apart t.
  Hypothesis R : traced t.

  Lemma traces_exist n : In n (post t) -> v_rows (content n) <> [].
  Proof. intros I E. apply post_at in I. destruct I as [q Q]. pose proof (R _ Q) as P. unfold rows in P. rewrite E in P. cbn in P. lia. Qed.
  Lemma lens_ok : get_len t [] = Some (longest_of t, fold_left record (post t) []).
  Proof. apply get_len_eq. exact traces_exist. Qed.
  Lemma same_node p q n m : at_path t p = Some n -> at_path t q = Some m -> vid n = vid m -> n = m.
  Proof. intros P Q E. pose proof (D _ _ P Q E) as ->. congruence. Qed.
  Lemma positive n q : at_path t q = Some n -> 0 < longest_of n.
  Proof. intros Q. pose proof (R _ Q) as P. destruct n as [a ch]. cbn [longest_of]. lia. Qed.
  Lemma below_ge : forall q u n, at_path u q = Some n -> longest_of n <= longest_of u.
  Proof.
    induction q as [|i q IH]; intros u n H; [injection H as <-; lia|]. cbn in H. destruct (nth_error (child u) i) as [c|] eqn:E; [|discriminate]. specialize (IH _ _ H).
    destruct u as [a ch]. cbn [child] in E. apply nth_error_In in E. cbn [longest_of]. pose proof (list_max_ge (map longest_of ch) (longest_of c) (in_map _ _ _ E)). lia.
  Qed.
  Lemma mix_ok n q : at_path t q = Some n ->
    exists col, mix (fold_left record (post t) []) (longest_of t) (vid n) = Some col /\ colour t n col /\ (0 < col <= 1)%Q.
  Proof.
    intros Q. unfold mix. destruct (@record_get (post t) [] (vid n)) as (m & Im & Em & G); [exists n; split; [apply post_at; exists q; exact Q|reflexivity]|].
    rewrite G. cbn [obind]. apply post_at in Im. destruct Im as [q' Q']. pose proof (same_node _ _ Q' Q Em) as ->.
    pose proof (@positive t [] eq_refl) as P. rewrite (proj2 (Nat.eqb_neq _ _)) by lia. eexists. split; [reflexivity|]. split.
    - exists (longest_of n), (longest_of t). split; [apply longest_ok|]. split; [apply longest_ok|reflexivity].
    - pose proof (positive _ Q) as Pn. pose proof (@below_ge _ _ _ Q) as L.
      assert (Pt : (0 < inject_Z (Z.of_nat (longest_of t)))%Q) by (change 0%Q with (inject_Z 0); rewrite <- Zlt_Qlt; lia).
      split.
      + apply Qlt_shift_div_l; [exact Pt|]. rewrite Qmult_0_l. change 0%Q with (inject_Z 0). rewrite <- Zlt_Qlt. lia.
      + apply Qle_shift_div_r; [exact Pt|]. rewrite Qmult_1_l. rewrite <- Zle_Qle. lia.
  Qed.

  (** ** The graph *)
  Lemma add_node_spec g n : (forall i, dget Z.eqb i (fst (add_node g n)) <> None <-> dget Z.eqb i (fst g) <> None \/ i = vid n \/ exists c, In c (child n) /\ i = vid c) /\
    (forall i s, dget Z.eqb i (fst (add_node g n)) = Some s -> dget Z.eqb i (fst g) = Some s \/ exists m, (m = n \/ In m (child n)) /\ vid m = i /\ v_start (content m) = s) /\
    snd (add_node g n) = snd g ++ map (fun c => (vid n, vid c)) (child n).
  Proof.
    unfold add_node. set (g0 := (dset Z.eqb (vid n) (v_start (content n)) (fst g), snd g)).
    assert (F : forall l g1, let g2 := fold_left (fun g c => (dset Z.eqb (vid c) (v_start (content c)) (fst g), snd g ++ [(vid n, vid c)])) l g1 in
      (forall i, dget Z.eqb i (fst g2) <> None <-> dget Z.eqb i (fst g1) <> None \/ exists c, In c l /\ i = vid c) /\
      (forall i s, dget Z.eqb i (fst g2) = Some s -> dget Z.eqb i (fst g1) = Some s \/ exists m, In m l /\ vid m = i /\ v_start (content m) = s) /\
      snd g2 = snd g1 ++ map (fun c => (vid n, vid c)) l).
    { induction l as [|c l IH]; intros g1; cbn zeta.
      - cbn [fold_left map]. rewrite app_nil_r. split; [|split; [auto|reflexivity]]. intros i. split; [auto|]. intros [X|(c & [] & _)]. exact X.
      - cbn [fold_left]. destruct (IH (dset Z.eqb (vid c) (v_start (content c)) (fst g1), snd g1 ++ [(vid n, vid c)])) as (A & B & C). cbn [fst snd] in *. split; [|split].
        + intros i. rewrite A. destruct (Z.eq_dec (vid c) i) as [<-|N].
          * unfold dset. rewrite dget_alter_same by exact Z.eqb_eq. split; [intros _; right; exists c; split; [left; reflexivity|reflexivity]|intros _; left; discriminate].
          * unfold dset. rewrite dget_alter_other by (exact Z.eqb_eq || exact N). split; [intros [X|(c' & I & E)]; [auto|right; exists c'; cbn; auto]|intros [X|(c' & [<-|I] & E)]; [auto|congruence|right; exists c'; auto]].
        + intros i s H. destruct (B i s H) as [X|(m & I & E)]; [|right; exists m; cbn; tauto]. destruct (Z.eq_dec (vid c) i) as [<-|N].
          * unfold dset in X. rewrite dget_alter_same in X by exact Z.eqb_eq. injection X as <-. right. exists c. cbn. auto.
          * unfold dset in X. rewrite dget_alter_other in X by (exact Z.eqb_eq || exact N). auto.
        + rewrite C. cbn [map]. rewrite <- app_assoc. reflexivity. }
    destruct (F (child n) g0) as (A & B & C). cbn zeta in *. split; [|split; [|exact C]].
    - intros i. rewrite A. unfold g0. cbn [fst]. destruct (Z.eq_dec (vid n) i) as [<-|N].
      + unfold dset. rewrite dget_alter_same by exact Z.eqb_eq. split; [auto|intros _; left; discriminate].
      + unfold dset. rewrite dget_alter_other by (exact Z.eqb_eq || exact N). split; [tauto|]. intros [X|[->|X]]; [auto|destruct (N eq_refl)|auto].
    - intros i s H. destruct (B i s H) as [X|(m & I & E)]; [|right; exists m; tauto]. unfold g0 in X. cbn [fst] in X. destruct (Z.eq_dec (vid n) i) as [<-|N].
      + unfold dset in X. rewrite dget_alter_same in X by exact Z.eqb_eq. injection X as <-. right. exists n. auto.
      + unfold dset in X. rewrite dget_alter_other in X by (exact Z.eqb_eq || exact N). auto.
  Qed.
  Lemma graph_spec ns : forall g, let g2 := fold_left add_node ns g in
    (forall i, dget Z.eqb i (fst g2) <> None <-> dget Z.eqb i (fst g) <> None \/ exists n, In n ns /\ (i = vid n \/ exists c, In c (child n) /\ i = vid c)) /\
    (forall i s, dget Z.eqb i (fst g2) = Some s -> dget Z.eqb i (fst g) = Some s \/ exists n m, In n ns /\ (m = n \/ In m (child n)) /\ vid m = i /\ v_start (content m) = s) /\
    (forall e, In e (snd g2) <-> In e (snd g) \/ exists n c, In n ns /\ In c (child n) /\ e = (vid n, vid c)).
  Proof.
    induction ns as [|n ns IH]; intros g; cbn zeta; cbn [fold_left].
    - split; [|split]; [intros i; split; [auto|intros [X|(n & [] & _)]; exact X]|auto|intros e; split; [auto|intros [X|(n & c & [] & _)]; exact X]].
    - destruct (IH (add_node g n)) as (A & B & C). destruct (add_node_spec g n) as (A1 & B1 & C1). cbn zeta in *. split; [|split].
      + intros i. rewrite A, A1. split.
        * intros [[X|X]|(m & I & X)]; [auto|right; exists n; cbn; tauto|right; exists m; cbn; tauto].
        * intros [X|(m & [<-|I] & X)]; [auto|tauto|right; exists m; tauto].
      + intros i s H. destruct (B i s H) as [X|(m & m' & I & X)]; [|right; exists m, m'; cbn; tauto]. destruct (B1 i s X) as [Y|(m & Y & Z)]; [auto|right; exists n, m; cbn; tauto].
      + intros e. rewrite C, C1, in_app_iff, in_map_iff. split.
        * intros [[X|(c & <- & I)]|(m & c & I & X)]; [auto|right; exists n, c; cbn; auto|right; exists m, c; cbn; tauto].
        * intros [X|(m & c & [<-|I] & X & ->)]; [auto|left; right; exists c; auto|right; exists m, c; auto].
  Qed.
End Root.
