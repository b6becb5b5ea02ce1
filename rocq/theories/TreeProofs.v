(** Proofs about trees. *)
From Coq Require Import Ascii String Permutation.
From Verif Require Import Base BaseFacts Dict PyText Guard Tree TreeSpec.
Set Implicit Arguments.
Open Scope nat_scope.

Section Tree.
  Variable A : Type.
  Notation tree := (tree A).

  Fixpoint tree_ind' (P : tree -> Prop) (H : forall a ch, Forall P ch -> P (Node a ch)) (t : tree) : P t :=
    match t with
    | Node a ch => H a ch ((fix go l : Forall P l := match l with [] => Forall_nil _ | c :: r => Forall_cons _ (@tree_ind' P H c) (go r) end) ch)
    end.

  (** Breadth-first with paths. *)
  Fixpoint number (p : list nat) (i : nat) (l : list tree) : list (list nat * tree) :=
    match l with [] => [] | c :: r => (p ++ [i], c) :: number p (S i) r end.
  Fixpoint bfsp (fuel : nat) (q : list (list nat * tree)) : option (list (list nat * tree)) :=
    match q with
    | [] => Some []
    | (p, n) :: q' => match fuel with 0 => None | S f => do r <- bfsp f (q' ++ number p 0 (child n)); Some ((p, n) :: r) end
    end.

  Lemma number_snd p : forall l i, map snd (number p i l) = l.
  Proof. induction l as [|c r IH]; intros i; cbn; [reflexivity|]. rewrite IH. reflexivity. Qed.
  Lemma number_In p : forall l i q c, In (q, c) (number p i l) <-> exists k, q = p ++ [i + k] /\ nth_error l k = Some c.
  Proof.
    induction l as [|x r IH]; intros i q c; cbn.
    - split; [intros []|]. intros ([|k] & _ & H); discriminate.
    - rewrite IH. split.
      + intros [E|(k & -> & H)]; [injection E as <- <-; exists 0; rewrite Nat.add_0_r; auto|]. exists (S k). rewrite Nat.add_succ_r. auto.
      + intros ([|k] & -> & H); [left; cbn in H; injection H as ->; rewrite Nat.add_0_r; reflexivity|]. right. exists k. rewrite Nat.add_succ_r. auto.
  Qed.

  Lemma bfs_erase : forall fuel q, bfs fuel (map snd q) = option_map (map snd) (bfsp fuel q).
  Proof.
    induction fuel as [|f IH]; intros [|[p n] q]; cbn; try reflexivity.
    assert (E : map snd q ++ child n = map snd (q ++ number p 0 (child n))) by (rewrite map_app, number_snd; reflexivity).
    rewrite E, IH. destruct (bfsp f _); reflexivity.
  Qed.
  Definition sizes (q : list (list nat * tree)) : nat := list_sum (map (fun x => size (snd x)) q).
  Lemma sizes_app q r : sizes (q ++ r) = sizes q + sizes r.
  Proof. unfold sizes. rewrite map_app, list_sum_app. reflexivity. Qed.
  Lemma sizes_number p : forall l i, sizes (number p i l) = list_sum (map (@size A) l).
  Proof. induction l as [|c r IH]; intros i; [reflexivity|]. unfold sizes in *. cbn. rewrite IH. reflexivity. Qed.
  Lemma bfsp_total : forall fuel q, sizes q <= fuel -> exists r, bfsp fuel q = Some r.
  Proof.
    induction fuel as [|f IH]; intros [|[p [a ch]] q] H; cbn [bfsp]; try (eexists; reflexivity).
    - unfold sizes in H. cbn in H. lia.
    - destruct (IH (q ++ number p 0 ch)) as [r E].
      + rewrite sizes_app, sizes_number. change (sizes ((p, Node a ch) :: q)) with (S (list_sum (map (@size A) ch)) + sizes q) in H. lia.
      + cbn [child]. rewrite E. eexists. reflexivity.
  Qed.

  (** Depth-first with paths. *)
  Fixpoint pre (p : list nat) (t : tree) : list (list nat * tree) :=
    match t with
    | Node a ch => (p, t) :: (fix go i l := match l with [] => [] | c :: r => pre (p ++ [i]) c ++ go (S i) r end) 0 ch
    end.
  Fixpoint pres (p : list nat) (i : nat) (l : list tree) : list (list nat * tree) :=
    match l with [] => [] | c :: r => pre (p ++ [i]) c ++ pres p (S i) r end.
  Lemma pre_eq p a ch : pre p (Node a ch) = (p, Node a ch) :: pres p 0 ch.
  Proof.
    cbn [pre]. f_equal. assert (G : forall l i, (fix go (i : nat) (l : list tree) := match l with [] => [] | c :: r => pre (p ++ [i]) c ++ go (S i) r end) i l = pres p i l).
    { induction l as [|c r IH]; intros j; [reflexivity|]. cbn [pres]. rewrite <- IH. reflexivity. }
    exact (G ch 0).
  Qed.
  Lemma pres_flat p : forall l i, pres p i l = flat_map (fun x => pre (fst x) (snd x)) (number p i l).
  Proof. induction l as [|c r IH]; intros i; cbn; [reflexivity|]. rewrite IH. reflexivity. Qed.

  Lemma bfsp_perm : forall fuel q out, bfsp fuel q = Some out -> Permutation out (flat_map (fun x => pre (fst x) (snd x)) q).
  Proof.
    induction fuel as [|f IH]; intros [|[p [a ch]] q] out H; cbn [bfsp] in H; try discriminate; try (injection H as <-; constructor).
    cbn [child] in H. destruct (bfsp f (q ++ number p 0 ch)) as [r|] eqn:E; [|discriminate]. injection H as <-.
    apply IH in E. cbn [flat_map fst snd]. rewrite pre_eq. cbn [app]. constructor. rewrite E, flat_map_app, pres_flat. apply Permutation_app_comm.
  Qed.

  (** The nodes of [pre] are the paths. *)
  Lemma pre_In : forall t p q n, In (q, n) (pre p t) <-> exists s, q = p ++ s /\ at_path t s = Some n.
  Proof.
    intros t. induction t as [a ch IH] using tree_ind'. intros p q n. rewrite pre_eq, pres_flat. cbn [In]. rewrite in_flat_map. split.
    - intros [E|((q' & c) & Hc & Hin)].
      + injection E as <- <-. exists []. rewrite app_nil_r. auto.
      + apply number_In in Hc. destruct Hc as (k & -> & Hk). cbn [fst snd] in Hin. rewrite Forall_forall in IH.
        apply (IH c (nth_error_In _ _ Hk)) in Hin. destruct Hin as (s & -> & Hs). exists (k :: s). split; [rewrite <- app_assoc; reflexivity|]. cbn. rewrite Hk. exact Hs.
    - intros ([|k s] & -> & Hs); [left; rewrite app_nil_r; cbn in Hs; injection Hs as <-; reflexivity|]. right. cbn in Hs.
      destruct (nth_error ch k) as [c|] eqn:Hk; [|discriminate]. exists (p ++ [k], c). split; [apply number_In; exists k; auto|]. cbn [fst snd]. rewrite Forall_forall in IH.
      apply (IH c (nth_error_In _ _ Hk)). exists s. rewrite <- app_assoc. auto.
  Qed.
  Lemma NoDup_app' {X} (l m : list X) : NoDup l -> NoDup m -> (forall x, In x l -> ~ In x m) -> NoDup (l ++ m).
  Proof.
    induction l as [|a r IH]; intros H1 H2 H3; [exact H2|]. apply NoDup_cons_iff in H1. destruct H1 as [Ha Hr]. cbn. constructor.
    - rewrite in_app_iff. intros [I|I]; [auto|]. apply (H3 a); [left; reflexivity|exact I].
    - apply IH; auto. intros x Hx. apply H3. right. exact Hx.
  Qed.
  Lemma pre_NoDup : forall t p, NoDup (map fst (pre p t)).
  Proof.
    intros t. induction t as [a ch IH] using tree_ind'. intros p. rewrite pre_eq. cbn [map fst]. constructor.
    - rewrite in_map_iff. intros ((q & n) & E & Hin). cbn in E. subst q. rewrite pres_flat in Hin. apply in_flat_map in Hin. destruct Hin as ((q & c) & Hc & Hin).
      apply number_In in Hc. destruct Hc as (k & -> & _). apply pre_In in Hin. destruct Hin as (s & E & _). cbn in E. rewrite <- app_assoc in E.
      rewrite <- (app_nil_r p) in E at 1. apply app_inv_head in E. discriminate.
    - generalize 0. induction ch as [|c r IHl]; intros i; cbn [pres]; [constructor|]. rewrite map_app. inversion IH as [|x y Hc Hr]; subst. apply NoDup_app'; [apply Hc|apply IHl; exact Hr|].
      intros q H1 H2. apply in_map_iff in H1. destruct H1 as ((q1 & n1) & <- & H1). apply in_map_iff in H2. destruct H2 as ((q2 & n2) & E & H2). cbn in E. subst q2.
      apply pre_In in H1. destruct H1 as (s & -> & _). rewrite pres_flat in H2. apply in_flat_map in H2. destruct H2 as ((q & d) & Hd & H2). apply number_In in Hd. destruct Hd as (k & -> & _).
      apply pre_In in H2. destruct H2 as (s2 & E & _). cbn in E. rewrite <- !app_assoc in E. apply app_inv_head in E. cbn in E. injection E as E _. lia.
  Qed.

  (** The output is sorted by depth. *)
  Definition level (d : nat) (q : list (list nat * tree)) : Prop := Forall (fun x => length (fst x) = d) q.
  Lemma bfsp_sorted : forall fuel q1 q2 d out, level d q1 -> level (S d) q2 -> bfsp fuel (q1 ++ q2) = Some out ->
    (forall x, In x out -> d <= length (fst x)) /\ (q1 = [] -> forall x, In x out -> S d <= length (fst x)) /\ by_depth (map fst out).
  Proof.
    induction fuel as [|f IH]; intros q1 q2 d out H1 H2 E.
    - destruct q1 as [|[p n] q1]; [destruct q2 as [|[p n] q2]|]; cbn in E; try discriminate. injection E as <-. split; [intros x []|]. split; [intros _ x []|]. intros [|i] j p q _ Hp; discriminate.
    - assert (Step : forall p n q1' q2' e out, level e ((p, n) :: q1') -> level (S e) q2' -> bfsp (S f) ((p, n) :: q1' ++ q2') = Some out ->
        (forall x, In x out -> e <= length (fst x)) /\ by_depth (map fst out)).
      { clear -IH. intros p n q1 q2 e out H1 H2 E. cbn [bfsp] in E. inversion H1 as [|x y Hx Hy]; subst. cbn [fst] in *.
        destruct (bfsp f ((q1 ++ q2) ++ number p 0 (child n))) as [r|] eqn:Er; [|discriminate]. injection E as <-. rewrite <- app_assoc in Er.
        destruct (IH q1 (q2 ++ number p 0 (child n)) (length p) r) as (I1 & I2 & I3); [exact Hy| |exact Er|].
        { apply Forall_app. split; [exact H2|]. apply Forall_forall. intros [q c] Hq. apply number_In in Hq. destruct Hq as (k & -> & _). cbn. rewrite app_length. cbn. lia. }
        split.
        - intros x [<-|Hx]; [cbn; lia|]. apply I1. exact Hx.
        - intros [|i] [|j] p1 p2 L N1 N2; try lia.
          + cbn in N1. injection N1 as <-. cbn in N2. apply nth_error_In in N2. apply in_map_iff in N2. destruct N2 as (x & <- & N2). apply I1. exact N2.
          + cbn in N1, N2. apply (I3 i j); auto. lia. }
      destruct q1 as [|[p n] q1].
      + destruct q2 as [|[p n] q2].
        * cbn in E. injection E as <-. split; [intros x []|]. split; [intros _ x []|]. intros [|i] j p q _ Hp; discriminate.
        * cbn [app] in E. destruct (Step p n q2 [] (S d) out) as [S1 S2]; [exact H2|constructor|rewrite app_nil_r; exact E|]. split; [intros x Hx; specialize (S1 x Hx); lia|]. split; [intros _; exact S1|exact S2].
      + destruct (Step p n q1 q2 d out H1 H2 E) as [S1 S2]. split; [exact S1|]. split; [discriminate|exact S2].
  Qed.

  Lemma nodes_spec (t : tree) : exists out, nodes t = Some (map snd out) /\ Permutation out (pre [] t) /\ by_depth (map fst out).
  Proof.
    destruct (@bfsp_total (size t) [([], t)]) as [out E]; [unfold sizes; cbn; lia|]. exists out. unfold nodes.
    change [t] with (map snd [(@nil nat, t)]). rewrite bfs_erase, E. split; [reflexivity|]. split.
    - apply bfsp_perm in E. cbn in E. rewrite app_nil_r in E. exact E.
    - destruct (@bfsp_sorted (size t) [([], t)] [] 0 out) as (_ & _ & S3); [repeat constructor|constructor|exact E|exact S3].
  Qed.

  (** ** Leaves and height *)
  Lemma leaves_filter (ns : list tree) : leaves ns = length (filter (@is_leaf A) ns).
  Proof.
    unfold leaves. assert (G : forall l c, fold_left (fun count n => if is_leaf n then count + 1 else count) l c = c + length (filter (@is_leaf A) l)).
    { induction l as [|n r IH]; intros c; cbn; [lia|]. rewrite IH. destruct (is_leaf n); cbn; lia. }
    rewrite G. reflexivity.
  Qed.
  Lemma filter_flat_map {X Y} (f : X -> list Y) g l : filter g (flat_map f l) = flat_map (fun x => filter g (f x)) l.
  Proof. induction l as [|x r IH]; cbn; [reflexivity|]. rewrite filter_app, IH. reflexivity. Qed.
  Lemma leaf_nodes_pre : forall t p, get_leaf_nodes t = filter (@is_leaf A) (map snd (pre p t)).
  Proof.
    intros t. induction t as [a ch IH] using tree_ind'. intros p. rewrite pre_eq. cbn [map snd filter get_leaf_nodes].
    assert (G : flat_map (@get_leaf_nodes A) ch = filter (@is_leaf A) (map snd (pres p 0 ch))).
    { generalize 0. induction ch as [|c r IHl]; intros i; cbn [flat_map pres]; [reflexivity|]. inversion IH as [|x y Hc Hr]; subst. rewrite map_app, filter_app, (IHl Hr (S i)), (Hc (p ++ [i])). reflexivity. }
    rewrite G. unfold is_leaf at 2. cbn [child]. destruct (length ch =? 0); reflexivity.
  Qed.

  Lemma list_max_In l : l <> [] -> In (list_max l) l.
  Proof.
    induction l as [|a r IH]; intros H; [contradiction|]. destruct r as [|b r]; [cbn; left; lia|]. specialize (IH ltac:(discriminate)). change (list_max (a :: b :: r)) with (Nat.max a (list_max (b :: r))).
    destruct (Nat.max_spec a (list_max (b :: r))) as [[_ ->]|[_ ->]]; [right; exact IH|left; reflexivity].
  Qed.
  Lemma list_max_ge l x : In x l -> x <= list_max l.
  Proof. induction l as [|a r IH]; intros H; [destruct H|]. cbn. destruct H as [->|H]; [lia|]. specialize (IH H). unfold list_max in IH. lia. Qed.
  Lemma height_eq a ch : height (Node a ch) = 1 + list_max (map (@height A) ch).
  Proof. destruct ch; reflexivity. Qed.
  Lemma height_spec : forall t : tree, (exists p, is_path t p /\ S (length p) = height t) /\ (forall p, is_path t p -> S (length p) <= height t).
  Proof.
    intros t. induction t as [a ch IH] using tree_ind'. rewrite height_eq. split.
    - destruct ch as [|c r] eqn:Ec; [exists []; split; [discriminate|reflexivity]|]. rewrite <- Ec in *.
      assert (I : In (list_max (map (@height A) ch)) (map (@height A) ch)) by (apply list_max_In; rewrite Ec; discriminate).
      apply in_map_iff in I. destruct I as (m & Em & Hm). rewrite Forall_forall in IH. destruct (IH m Hm) as [(p & Hp & Lp) _]. apply In_nth_error in Hm. destruct Hm as (k & Hk).
      exists (k :: p). split; [unfold is_path; cbn; rewrite Hk; exact Hp|]. cbn [length]. lia.
    - intros [|k p] Hp; [cbn; lia|]. unfold is_path in Hp. cbn in Hp. destruct (nth_error ch k) as [c|] eqn:Hk; [|contradiction]. cbn [obind] in Hp. rewrite Forall_forall in IH.
      destruct (IH c (nth_error_In _ _ Hk)) as [_ Hc]. specialize (Hc p Hp). assert (height c <= list_max (map (@height A) ch)) by (apply list_max_ge, in_map; eapply nth_error_In; exact Hk). cbn [length]. lia.
  Qed.
End Tree.
