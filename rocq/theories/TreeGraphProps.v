(** Property C119: pictures of the tree of results. *)
From Coq Require Import Ascii String Lqa.
From Verif Require Import Base BaseFacts Dict PyText Guard Tree TreeSpec TreeProofs ResetProofs TreeGraph TreeGraphSpec TreeGraphProofs.
Set Implicit Arguments.
Open Scope nat_scope.

(** ** C119: the graph has the nodes of the tree with their start times, an edge for each child, and colours between red
    (not reached) and blue (the root) by the longest branch below. *)
Theorem C119_graph : forall t, tells_apart t -> traced t -> exists g, visualize t = Some g /\
  (forall i s, dget Z.eqb i (g_nodes g) = Some s <-> exists q n, at_path t q = Some n /\ vid n = i /\ v_start (content n) = s) /\
  (forall i j, In (i, j) (g_edges g) <-> exists q n c, at_path t q = Some n /\ In c (child n) /\ i = vid n /\ j = vid c) /\
  Forall2 (fun kv col => exists q n, at_path t q = Some n /\ vid n = fst kv /\ colour t n col /\ (0 < col <= 1)%Q) (g_nodes g) (g_colors g).
Proof.
  intros t D R. unfold visualize. rewrite (lens_ok R). cbn [obind fst snd]. destruct (nodes_at t) as (ns & -> & N). cbn [obind].
  destruct (graph_spec ns ([], [])) as (A & B & C). cbn zeta in *. set (g := fold_left add_node ns ([], [])) in *.
  assert (At : forall n m, In n ns -> m = n \/ In m (child n) -> exists q, at_path t q = Some m).
  { intros n m I [-> |H]; [apply N; exact I|]. apply N in I. destruct I as [q Q]. destruct (at_child _ _ _ Q H) as [i E]. exists (q ++ [i]). exact E. }
  assert (K : forall i, dget Z.eqb i (fst g) <> None -> exists q n, at_path t q = Some n /\ vid n = i).
  { intros i H. apply A in H. destruct H as [H|(n & I & H)]; [destruct (H eq_refl)|]. destruct H as [->|(c & Ic & ->)]; [destruct (At n n I (or_introl eq_refl)) as [q Q]; exists q, n; auto|destruct (At n c I (or_intror Ic)) as [q Q]; exists q, c; auto]. }
  assert (M : forall l, (forall kv, In kv l -> dget Z.eqb (fst kv) (fst g) <> None) -> exists cs,
     mapM (fun kv : Z * Q => mix (fold_left record (post t) []) (longest_of t) (fst kv)) l = Some cs /\
     Forall2 (fun kv col => exists q n, at_path t q = Some n /\ vid n = fst kv /\ colour t n col /\ (0 < col <= 1)%Q) l cs).
  { induction l as [|kv l IH]; intros H; [exists []; split; [reflexivity|constructor]|]. destruct IH as (cs & E & F); [intros x Hx; apply H; right; exact Hx|].
    destruct (K (fst kv) (H kv (or_introl eq_refl))) as (q & n & Q & Ev). destruct (mix_ok D R _ Q) as (col & Em & Cc & P). rewrite Ev in Em.
    exists (col :: cs). cbn [mapM]. rewrite Em. cbn [obind]. rewrite E. split; [reflexivity|]. constructor; [exists q, n; auto|exact F]. }
  destruct (M (fst g)) as (cs & E & F).
  { intros [k v] H. cbn [fst]. intros E. apply (dget_None _ Z.eqb_eq) in E. apply E. apply in_map_iff. exists (k, v). auto. }
  rewrite E. cbn [obind]. eexists. split; [reflexivity|]. cbn [g_nodes g_edges g_colors]. split; [|split; [|exact F]].
  - intros i s. split.
    + intros H. destruct (B i s H) as [X|(n & m & I & X & Ev & Es)]; [discriminate|]. destruct (At n m I X) as [q Q]. exists q, m. auto.
    + intros (q & n & Q & Ev & Es). destruct (dget Z.eqb i (fst g)) as [s'|] eqn:G.
      * destruct (B i s' G) as [X|(n' & m & I & X & Ev' & Es')]; [discriminate|]. destruct (At n' m I X) as [q' Q'].
        assert (m = n) by (apply (same_node D _ _ Q' Q); congruence). subst m. congruence.
      * exfalso. assert (H : dget Z.eqb i (fst g) <> None); [|congruence]. apply A. right. exists n. split; [apply N; exists q; exact Q|left; auto].
  - intros i j. rewrite C. split.
    + intros [[]|(n & c & I & Ic & Ee)]. injection Ee as -> ->. apply N in I. destruct I as [q Q]. exists q, n, c. auto.
    + intros (q & n & c & Q & Ic & -> & ->). right. exists n, c. split; [apply N; exists q; exact Q|auto].
Qed.
Print Assumptions C119_graph.

(** ** C119: the file for graphviz has the same nodes and colours, and an edge for each child, labelled with the agents
    whose modes change and their modes before and after. *)
Theorem C119_dot : forall t, tells_apart t -> traced t -> moded t -> exists d, visualize_dot t = Some d /\
  (forall i, In i (map fst (d_nodes d)) <-> exists q n, at_path t q = Some n /\ vid n = i) /\
  (forall i col, In (i, col) (d_nodes d) -> exists q n, at_path t q = Some n /\ vid n = i /\ colour t n col /\ (0 < col <= 1)%Q) /\
  (forall i j, (exists l, In (i, j, l) (d_edges d)) <-> exists q n c, at_path t q = Some n /\ In c (child n) /\ i = vid n /\ j = vid c) /\
  (forall i j l, In (i, j, l) (d_edges d) -> exists q n c, at_path t q = Some n /\ In c (child n) /\ i = vid n /\ j = vid c /\
     forall x m m', In (x, (m, m')) l <-> In x (v_agents (content n)) /\ dget word_eqb x (v_mode (content n)) = Some m /\
                                       dget word_eqb x (v_mode (content c)) = Some m' /\ m <> m').
Proof.
  intros t D R Mo. unfold visualize_dot. rewrite (lens_ok R). cbn [obind fst snd]. destruct (nodes_at t) as (ns & -> & N). cbn [obind].
  assert (Df : forall q n c, at_path t q = Some n -> In c (child n) -> exists l, diff (content n) (content c) = Some l /\
     forall x m m', In (x, (m, m')) l <-> In x (v_agents (content n)) /\ dget word_eqb x (v_mode (content n)) = Some m /\ dget word_eqb x (v_mode (content c)) = Some m' /\ m <> m').
  { intros q n c Q Ic. unfold diff.
    assert (G : forall xs, (forall x, In x xs -> In x (v_agents (content n))) -> exists l,
      mapM (fun x => do m <- dget word_eqb x (v_mode (content n)); do m' <- dget word_eqb x (v_mode (content c)); Some (x, (m, m'))) xs = Some l /\
      forall x m m', In (x, (m, m')) l <-> In x xs /\ dget word_eqb x (v_mode (content n)) = Some m /\ dget word_eqb x (v_mode (content c)) = Some m').
    { induction xs as [|x xs IH]; intros H; [exists []; split; [reflexivity|]; intros; split; [intros []|intros ([] & _)]|].
      destruct IH as (l & E & S); [intros y Hy; apply H; right; exact Hy|]. destruct (Mo _ _ x Q (H x (or_introl eq_refl))) as [M1 M2]. specialize (M2 c Ic).
      destruct (dget word_eqb x (v_mode (content n))) as [m|] eqn:E1; [|destruct (M1 eq_refl)]. destruct (dget word_eqb x (v_mode (content c))) as [m'|] eqn:E2; [|destruct (M2 eq_refl)].
      exists ((x, (m, m')) :: l). cbn [mapM]. rewrite E1. cbn [obind]. rewrite E2. cbn [obind]. rewrite E. split; [reflexivity|]. intros y k k'. cbn [In]. rewrite S. split.
      - intros [Ey|(I & X)]; [injection Ey as <- <- <-; auto|tauto].
      - intros ([<-|I] & X1 & X2); [left; congruence|tauto]. }
    destruct (G (v_agents (content n)) (fun x H => H)) as (l & E & S). rewrite E. cbn [obind]. eexists. split; [reflexivity|]. intros x m m'. rewrite filter_In, S. cbn [fst snd].
    assert (Le : list_eqb word_eqb m m' = true <-> m = m') by (apply list_eqb_eq; exact word_eqb_eq).
    rewrite Bool.negb_true_iff, <- Bool.not_true_iff_false, Le. tauto. }
  assert (G : forall l, (forall n, In n l -> exists q, at_path t q = Some n) -> exists parts,
    mapM (fun n => do col <- mix (fold_left record (post t) []) (longest_of t) (vid n);
       do es <- mapM (fun c => do d <- diff (content n) (content c); Some (vid n, vid c, d)) (child n); Some ((vid n, col), es)) l = Some parts /\
    Forall2 (fun n p => fst (fst p) = vid n /\ colour t n (snd (fst p)) /\ (0 < snd (fst p) <= 1)%Q /\
       Forall2 (fun c e => fst e = (vid n, vid c) /\ forall x m m', In (x, (m, m')) (snd e) <-> In x (v_agents (content n)) /\ dget word_eqb x (v_mode (content n)) = Some m /\ dget word_eqb x (v_mode (content c)) = Some m' /\ m <> m') (child n) (snd p)) l parts).
  { induction l as [|n l IH]; intros H; [exists []; split; [reflexivity|constructor]|]. destruct IH as (parts & E & F); [intros m Hm; apply H; right; exact Hm|].
    destruct (H n (or_introl eq_refl)) as [q Q]. destruct (mix_ok D R _ Q) as (col & Em & Cc & P).
    assert (Es : forall cs, (forall c, In c cs -> In c (child n)) -> exists es, mapM (fun c => do d <- diff (content n) (content c); Some (vid n, vid c, d)) cs = Some es /\
       Forall2 (fun c e => fst e = (vid n, vid c) /\ forall x m m', In (x, (m, m')) (snd e) <-> In x (v_agents (content n)) /\ dget word_eqb x (v_mode (content n)) = Some m /\ dget word_eqb x (v_mode (content c)) = Some m' /\ m <> m') cs es).
    { induction cs as [|c cs IHc]; intros Hc; [exists []; split; [reflexivity|constructor]|]. destruct IHc as (es & E1 & F1); [intros m Hm; apply Hc; right; exact Hm|].
      destruct (Df q n c Q (Hc c (or_introl eq_refl))) as (l' & E2 & S2). exists ((vid n, vid c, l') :: es). cbn [mapM]. rewrite E2. cbn [obind]. rewrite E1. split; [reflexivity|]. constructor; [split; [reflexivity|exact S2]|exact F1]. }
    destruct (Es (child n) (fun c H => H)) as (es & E1 & F1). exists ((vid n, col, es) :: parts). cbn [mapM]. rewrite Em. cbn [obind]. rewrite E1. cbn [obind]. rewrite E. split; [reflexivity|]. constructor; [cbn [fst snd]; auto|exact F]. }
  destruct (G ns) as (parts & E & F); [intros n I; apply N; exact I|]. rewrite E. cbn [obind]. eexists. split; [reflexivity|]. cbn [d_nodes d_edges].
  assert (FL : forall (X Y : Type) (P : X -> Y -> Prop) l l' x, Forall2 P l l' -> In x l -> exists y, In y l' /\ P x y).
  { intros X Y P l l' x F0. induction F0 as [|u v l l' Huv F0 IH]; intros Hx; [destruct Hx|]. destruct Hx as [<-|Hx]; [exists v; cbn; auto|]. destruct (IH Hx) as (y & ? & ?). exists y. cbn. auto. }
  assert (FR : forall (X Y : Type) (P : X -> Y -> Prop) l l' y, Forall2 P l l' -> In y l' -> exists x, In x l /\ P x y).
  { intros X Y P l l' y F0. induction F0 as [|u v l l' Huv F0 IH]; intros Hx; [destruct Hx|]. destruct Hx as [<-|Hx]; [exists u; cbn; auto|]. destruct (IH Hx) as (x & ? & ?). exists x. cbn. auto. }
  split; [|split; [|split]].
  - intros i. rewrite in_map_iff. split.
    + intros (p & <- & Ip). apply in_map_iff in Ip. destruct Ip as (r & <- & Ir). destruct (FR _ _ _ _ _ _ F Ir) as (n & I & Ev & _). apply N in I. destruct I as [q Q]. exists q, n. auto.
    + intros (q & n & Q & <-). destruct (FL _ _ _ _ _ n F) as (r & Ir & Ev & _); [apply N; exists q; exact Q|]. exists (fst r). split; [exact Ev|apply in_map; exact Ir].
  - intros i col Ip. apply in_map_iff in Ip. destruct Ip as (r & Er & Ir). destruct (FR _ _ _ _ _ _ F Ir) as (n & I & Ev & Cc & P & _). rewrite Er in *. apply N in I. destruct I as [q Q]. exists q, n. auto.
  - intros i j. split.
    + intros (l & I). apply in_flat_map in I. destruct I as (r & Ir & Ie). destruct (FR _ _ _ _ _ _ F Ir) as (n & I & _ & _ & _ & F1). destruct (FR _ _ _ _ _ _ F1 Ie) as (c & Ic & Ee & _). cbn [fst] in Ee. injection Ee as -> ->. apply N in I. destruct I as [q Q]. exists q, n, c. auto.
    + intros (q & n & c & Q & Ic & -> & ->). destruct (FL _ _ _ _ _ n F) as (r & Ir & _ & _ & _ & F1); [apply N; exists q; exact Q|]. destruct (FL _ _ _ _ _ c F1 Ic) as (e & Ie & Ee & _). exists (snd e). apply in_flat_map. exists r. split; [exact Ir|]. rewrite <- Ee, <- surjective_pairing. exact Ie.
  - intros i j l I. apply in_flat_map in I. destruct I as (r & Ir & Ie). destruct (FR _ _ _ _ _ _ F Ir) as (n & I & _ & _ & _ & F1). destruct (FR _ _ _ _ _ _ F1 Ie) as (c & Ic & Ee & S). cbn [fst snd] in *. injection Ee as -> ->. apply N in I. destruct I as [q Q]. exists q, n, c. auto.
Qed.
Print Assumptions C119_dot.

(** ** C119: a child is redder than its parent, and the root is blue. *)
Theorem C119_redder : forall t q n c x y, traced t -> at_path t q = Some n -> In c (child n) -> colour t n x -> colour t c y -> (y < x)%Q.
Proof.
  intros t q n c x y R Q Ic (k & m & Lk & Lm & ->) (k' & m' & Lk' & Lm' & ->). rewrite (longest_fun Lm' Lm). rewrite (longest_fun Lk (longest_ok n)), (longest_fun Lk' (longest_ok c)).
  assert (H : longest_of c < longest_of n).
  { pose proof (R _ _ Q) as P. destruct n as [a ch]. cbn [child] in Ic. cbn [longest_of]. pose proof (list_max_ge (map longest_of ch) (longest_of c) (in_map _ _ _ Ic)). lia. }
  pose proof (@positive t R t [] eq_refl) as P. rewrite <- (longest_fun Lm (longest_ok t)) in P.
  assert (Pm : (0 < inject_Z (Z.of_nat m))%Q) by (change 0%Q with (inject_Z 0); rewrite <- Zlt_Qlt; lia).
  unfold Qdiv. apply Qmult_lt_compat_r; [apply Qinv_lt_0_compat; exact Pm|]. rewrite <- Zlt_Qlt. lia.
Qed.
Print Assumptions C119_redder.
Theorem C119_blue : forall t x, traced t -> colour t t x -> (x == 1)%Q.
Proof.
  intros t x R (k & m & Lk & Lm & ->). rewrite (longest_fun Lk Lm). pose proof (@positive t R t [] eq_refl) as P. rewrite <- (longest_fun Lm (longest_ok t)) in P. field.
  intros E. unfold Qeq, inject_Z in E. cbn in E. lia.
Qed.
Print Assumptions C119_blue.

(** ** What the documentation says and is false: newer nodes are redder.  Here the node from time 1 is redder than the one
    from time 2. *)
Module Example_tree.
  Definition leaf (i : Z) (s : Q) (k : nat) : vtree := Node (mk_vnode i s [k] [w "car"] [(w "car", [w "Normal"])]) [].
  Definition t : vtree := Node (mk_vnode 0 0 [2] [w "car"] [(w "car", [w "Normal"])])
    [leaf 1 1 1; Node (mk_vnode 2 2 [3] [w "car"] [(w "car", [w "Brake"])]) []].
  Example ids : tells_apart t.
  Proof.
    intros [|[|[|i]] [|j p]] [|[|[|i']] [|j' q]] n m; cbn; intros P Q E; repeat match goal with H : context [nth_error [] ?k] |- _ => destruct k; cbn in H end; try discriminate; try injection P as <-; try injection Q as <-; cbn in E; try discriminate; reflexivity.
  Qed.
  Example rows_ : traced t.
  Proof. intros [|[|[|i]] [|j p]] n; cbn; intros P; repeat match goal with H : context [nth_error [] ?k] |- _ => destruct k; cbn in H end; try discriminate; injection P as <-; cbn; lia. Qed.
  Example modes : moded t.
  Proof.
    intros [|[|[|i]] [|j p]] n x; cbn; intros P; repeat match goal with H : context [nth_error [] ?k] |- _ => destruct k; cbn in H end; try discriminate; injection P as <-; cbn; intros [<-|[]]; (split; [discriminate|]); intros c Hc; repeat destruct Hc as [<-|Hc]; try destruct Hc; discriminate.
  Qed.
  Example picture : visualize_dot t = Some (mk_dot [(0%Z, 5 # 5); (1%Z, 1 # 5); (2%Z, 3 # 5)]
    [(0%Z, 1%Z, []); (0%Z, 2%Z, [(w "car", ([w "Normal"], [w "Brake"]))])]).
  Proof. reflexivity. Qed.
End Example_tree.
Import Example_tree.
Theorem C119_newer_refuted : exists g a b x y, visualize t = Some g /\ nth_error (g_nodes g) 1 = Some (1%Z, a) /\ nth_error (g_nodes g) 2 = Some (2%Z, b) /\
  nth_error (g_colors g) 1 = Some x /\ nth_error (g_colors g) 2 = Some y /\ (a < b)%Q /\ (x < y)%Q.
Proof. eexists. exists 1%Q, 2%Q, (1 # 5), (3 # 5). split; [reflexivity|]. do 4 (split; [reflexivity|]). split; reflexivity. Qed.
Print Assumptions C119_newer_refuted.
