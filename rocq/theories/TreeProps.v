(** The tree of results: listing the nodes (C35), saving and loading (C36), first transitions (C39). *)
From Coq Require Import Ascii String Permutation Lqa.
From Verif Require Import Base BaseFacts Dict PyText ResetProofs Guard Tree TreeSpec TreeProofs DumpProofs FirstProofs.
Set Implicit Arguments.
Open Scope nat_scope.

(** ** C35 *)
(** tree.nodes lists the node at every path exactly once, in order of depth, and each parent before its children. *)
Theorem C35_nodes : forall A (t : tree A), exists ps ns,
  nodes t = Some ns /\ NoDup ps /\ (forall p, In p ps <-> is_path t p) /\ map (at_path t) ps = map Some ns /\ by_depth ps /\
  (forall i j p k, nth_error ps i = Some p -> nth_error ps j = Some (p ++ [k]) -> i < j).
Proof.
  intros A t. destruct (nodes_spec t) as (out & N & P & D). exists (map fst out), (map snd out).
  assert (I : forall p n, In (p, n) out <-> at_path t p = Some n).
  { intros p n. split; intros I.
    - apply (Permutation_in _ P) in I. apply pre_In in I. destruct I as (s & -> & Hs). exact Hs.
    - apply (Permutation_in _ (Permutation_sym P)). apply pre_In. exists p. auto. }
  split; [exact N|]. split; [|split; [|split; [|split; [exact D|]]]].
  - eapply Permutation_NoDup; [apply Permutation_map, Permutation_sym; exact P|apply pre_NoDup].
  - intros p. rewrite in_map_iff. split.
    + intros ([q n] & <- & Hn). unfold is_path. cbn. rewrite (proj1 (I q n) Hn). discriminate.
    + intros Hp. unfold is_path in Hp. destruct (at_path t p) as [n|] eqn:E; [|contradiction]. exists (p, n). split; [reflexivity|]. apply I. exact E.
  - rewrite !map_map. apply map_ext_in. intros [p n] H. apply I. exact H.
  - intros i j p k Hi Hj. destruct (Nat.lt_ge_cases i j) as [L|L]; [exact L|]. destruct (Nat.eq_dec i j) as [->|N'].
    + rewrite Hi in Hj. injection Hj as Hj. apply (f_equal (@length nat)) in Hj. rewrite app_length in Hj. cbn in Hj. lia.
    + specialize (D j i (p ++ [k]) p ltac:(lia) Hj Hi). rewrite app_length in D. cbn in D. lia.
Qed.
Print Assumptions C35_nodes.

(** leaves() is the number of paths that end in a node without children, and get_leaf_nodes lists those nodes. *)
Theorem C35_leaves : forall A (t : tree A) ns, nodes t = Some ns ->
  (exists ps, NoDup ps /\ (forall p, In p ps <-> exists n, at_path t p = Some n /\ child n = []) /\ leaves ns = length ps /\
     map (at_path t) ps = map Some (get_leaf_nodes t)) /\
  Permutation (get_leaf_nodes t) (filter (@is_leaf A) ns) /\ leaves ns = length (get_leaf_nodes t).
Proof.
  intros A t ns H. destruct (nodes_spec t) as (out & N & P & D). rewrite N in H. injection H as <-.
  assert (Pm : Permutation (get_leaf_nodes t) (filter (@is_leaf A) (map snd out))).
  { rewrite (leaf_nodes_pre t []). apply Permutation_sym. assert (G : forall l m : list (tree A), Permutation l m -> Permutation (filter (@is_leaf A) l) (filter (@is_leaf A) m)).
    { clear. intros l m Q. induction Q; cbn; [constructor| | |eapply Permutation_trans; eassumption].
      - destruct (is_leaf x); [constructor|]; assumption.
      - destruct (is_leaf x), (is_leaf y); try apply Permutation_refl; constructor. }
    apply G, Permutation_map. exact P. }
  assert (L : leaves (map snd out) = length (get_leaf_nodes t)) by (rewrite leaves_filter; symmetry; apply Permutation_length; exact Pm).
  split; [|split; assumption].
  set (ls := filter (fun x => is_leaf (snd x)) (pre [] t)). exists (map fst ls).
  assert (E : map snd ls = get_leaf_nodes t).
  { rewrite (leaf_nodes_pre t []). unfold ls. clear. induction (pre [] t) as [|[p n] r IH]; [reflexivity|]. cbn. destruct (is_leaf n); cbn; rewrite IH; reflexivity. }
  assert (At : forall p n, In (p, n) ls <-> at_path t p = Some n /\ child n = []).
  { intros p n. unfold ls. rewrite filter_In, pre_In. cbn. unfold is_leaf. split.
    - intros ((s & -> & Hs) & Hl). split; [exact Hs|]. destruct (child n); [reflexivity|discriminate].
    - intros (Hs & ->). split; [exists p; auto|reflexivity]. }
  split; [|split; [|split]].
  - pose proof (pre_NoDup t []) as Nd. unfold ls. clear -Nd. induction (pre [] t) as [|[p n] r IH]; [constructor|]. cbn in *. apply NoDup_cons_iff in Nd. destruct Nd as [N1 N2].
    destruct (is_leaf n); [|auto]. cbn. constructor; [|auto]. intros I. apply N1. apply in_map_iff in I. destruct I as (x & <- & Hx). apply in_map. apply filter_In in Hx. tauto.
  - intros p. rewrite in_map_iff. split; [intros ([q n] & <- & Hn); exists n; apply At; exact Hn|]. intros (n & Hn). exists (p, n). split; [reflexivity|]. apply At. exact Hn.
  - rewrite L, <- E, !map_length. reflexivity.
  - rewrite <- E, !map_map. apply map_ext_in. intros [p n] Hx. cbn. apply At. exact Hx.
Qed.
Print Assumptions C35_leaves.

(** height(root) is the number of nodes on a longest path from the root. *)
Theorem C35_height : forall A (t : tree A),
  (exists p, is_path t p /\ S (length p) = height t) /\ (forall p, is_path t p -> S (length p) <= height t).
Proof. intros A t. apply height_spec. Qed.
Print Assumptions C35_height.

Module Example_tree.
  Definition t := Node 0 [Node 1 [Node 3 []]; Node 2 []].
  Example t_nodes : option_map (map (@content nat)) (nodes t) = Some [0; 1; 2; 3]. Proof. reflexivity. Qed.
  Example t_leaves : option_map (@leaves nat) (nodes t) = Some 2. Proof. reflexivity. Qed.
  Example t_leaf_nodes : map (@content nat) (get_leaf_nodes t) = [3; 2]. Proof. reflexivity. Qed.
  Example t_height : height t = 3. Proof. reflexivity. Qed.
End Example_tree.

(** ** C36 *)
(** For a tree with distinct ids and root id 0, dump succeeds and load gives a tree of the same shape whose nodes have
    the same contents, except that each agent is replaced by the description of its class.
    Missing: the agents themselves (see C36_agents_refuted); tuples in the body come back as lists. *)
Theorem C36_dump_load_partial : forall B Ag G (describe : Ag -> G) (t : tree (item B Ag)), distinct_ids t -> i_id (content t) = 0%Z ->
  exists data, dump describe t = Some data /\
    forall fuel, size t <= fuel -> exists heap, load fuel data = Some heap /\ represents heap 0 (map_tree (kept describe) t).
Proof. intros. apply dump_load; assumption. Qed.
Print Assumptions C36_dump_load_partial.

(** The file does not determine the agents: trees that differ only in an agent object give the same file, so no way of
    loading gives both back. *)
Theorem C36_agents_refuted : exists (t1 t2 : tree (item Q (nat * Q))), t1 <> t2 /\ distinct_ids t1 /\ distinct_ids t2 /\
  i_id (content t1) = 0%Z /\ i_id (content t2) = 0%Z /\ dump fst t1 <> None /\ dump fst t1 = dump fst t2.
Proof.
  exists (Node (mk_item 0%Z 0%Q (7, 1%Q)) []), (Node (mk_item 0%Z 0%Q (7, 2%Q)) []). split; [discriminate|].
  assert (D : forall a : item Q (nat * Q), distinct_ids (Node a [])).
  { intros a [|i p] [|j q] n m Hp Hq _; cbn in *; try reflexivity; [destruct j|destruct i|destruct i]; discriminate. }
  repeat split; try apply D. discriminate.
Qed.
Print Assumptions C36_agents_refuted.

(** simulate_simple gives every child the id -1 (simulator.py 610).  A tree of it with a grandchild can be saved, but
    loading the file never ends. *)
Lemma loops {B G} (data : dict word (entry B G)) e : dget word_eqb (decz (-1)) data = Some e -> n_child e = [(-1)%Z] ->
  forall fuel heap o, o < length heap -> load_loop fuel data [(e, o)] heap = None.
Proof.
  intros E C. induction fuel as [|f IH]; intros heap o L; [reflexivity|]. cbn [load_loop]. rewrite C. cbn [load_children]. rewrite E. cbn [obind].
  assert (exists p, nth_error (heap ++ [(n_item e, [])]) o = Some p) as (p & Hp).
  { destruct (nth_error (heap ++ [(n_item e, [])]) o) eqn:X; [eauto|]. apply nth_error_None in X. rewrite app_length in X. lia. }
  rewrite Hp. cbn [obind fst snd app]. apply IH. rewrite set_nth_length, app_length. cbn. lia.
Qed.
Theorem C36_simple_never_loads : forall B Ag G (describe : Ag -> G) (b0 b1 b2 : B) (g0 g1 g2 : Ag),
  let t := Node (mk_item 0%Z b0 g0) [Node (mk_item (-1)%Z b1 g1) [Node (mk_item (-1)%Z b2 g2) []]] in
  exists data, dump describe t = Some data /\ forall fuel, load fuel data = None.
Proof.
  intros. set (e0 := mk_entry (mk_item 0%Z b0 (describe g0)) None [(-1)%Z]). set (e1 := mk_entry (mk_item (-1)%Z b2 (describe g2)) (Some (-1)%Z) [(-1)%Z]).
  set (data := [(decz 0, e0); (decz (-1), e1)]). exists data. split; [reflexivity|]. intros [|f]; [reflexivity|].
  assert (E0 : dget word_eqb (decz 0) data = Some e0) by reflexivity. assert (E1 : dget word_eqb (decz (-1)) data = Some e1) by reflexivity.
  unfold load. rewrite E0. cbn [obind load_loop]. change (n_child e0) with [(-1)%Z]. cbn [load_children]. rewrite E1. cbn [obind length app nth_error set_nth fst snd].
  apply loops; [exact E1|reflexivity|]. cbn. lia.
Qed.
Print Assumptions C36_simple_never_loads.

Module Example_dump.
  (** Root 0 with children 1 and 2, node 2 with child 3; an agent is a class and a parameter, only the class is kept. *)
  Definition it i : item Q (nat * Q) := mk_item i (inject_Z i) (7, 1%Q).
  Definition t := Node (it 0) [Node (it 1) []; Node (it 2) [Node (it 3) []]].
  Example t_distinct : distinct_ids t.
  Proof.
    intros [|[|[|i]] p] [|[|[|j]] q] n m Hp Hq E; cbn in *; try discriminate; try (destruct i; discriminate); try (destruct j; discriminate);
      repeat match goal with
             | H : Some _ = Some _ |- _ => injection H as <-
             | H : at_path _ ?p = Some _ |- _ => destruct p as [|[|?] ?]; cbn in H; try discriminate
             | H : (do _ <- nth_error [] ?i; _) = Some _ |- _ => destruct i; discriminate
             end; try reflexivity; try discriminate.
  Qed.
  Example t_saved : option_map (fun d => map (fun e => n_child (snd e)) d) (dump fst t) = Some [[1; 2]; []; [3]; []]%Z. Proof. reflexivity. Qed.
  Example t_loaded : (do d <- dump fst t; option_map (map (fun o => (i_id (fst o), snd o))) (load 4 d)) = Some [(0%Z, [1; 2]); (1%Z, []); (2%Z, [3]); (3%Z, [])].
  Proof. reflexivity. Qed.
End Example_dump.

(** ** C39 *)
(** An agent is absent exactly when it never changes mode; the time given for it is the start of a child in which it
    does, and no change happens at a smaller depth.  Missing: the time need not be the smallest (C39_refuted). *)
Theorem C39_first_partial : forall Md (md_eqb : Md -> Md -> bool), (forall x y, md_eqb x y = true <-> x = y) ->
  forall t d, first_transitions md_eqb t = Some d -> forall a,
    (dget Nat.eqb a d = None <-> forall p k s, ~ transition t a p k s) /\
    (forall v, dget Nat.eqb a d = Some v -> exists p k, transition t a p k v /\ forall p' k' v', transition t a p' k' v' -> length p <= length p').
Proof.
  intros Md eqb E t d H a. destruct (first_spec eqb E t H a) as [S1 S2]. split; [|exact S2]. split; [exact S1|].
  intros N. destruct (dget Nat.eqb a d) as [v|] eqn:Ea; [|reflexivity]. destruct (S2 v eq_refl) as (p & k & Tr & _). exfalso. eapply N. exact Tr.
Qed.
Print Assumptions C39_first_partial.
Theorem C39_total : forall Md (md_eqb : Md -> Md -> bool) t, same_agents t -> exists d, first_transitions md_eqb t = Some d.
Proof. intros. apply first_total; assumption. Qed.
Print Assumptions C39_total.
(** In a tree without branches the time is the smallest. *)
Theorem C39_unbranched : forall Md (md_eqb : Md -> Md -> bool), (forall x y, md_eqb x y = true <-> x = y) ->
  forall t d, unbranched t -> first_transitions md_eqb t = Some d ->
  forall a v, dget Nat.eqb a d = Some v -> (exists p k, transition t a p k v) /\ forall p k v', transition t a p k v' -> (v <= v')%Q.
Proof.
  intros Md eqb E t d U H a v V. split; [|eapply first_unbranched; eassumption].
  destruct (proj2 (first_spec eqb E t H a) v V) as (p & k & Tr & _). eauto.
Qed.
Print Assumptions C39_unbranched.

Module Example_first.
  Definition m (a b : nat) s := mk_tnode [(0, a); (1, b)] s.
  (** Agent 0 changes at time 5 in the first child, but already at time 2 below the second. *)
  Definition t := Node (m 0 0 0) [Node (m 1 0 5) []; Node (m 0 1 1) [Node (m 1 1 2) []]].
  Example t_first : first_transitions Nat.eqb t = Some [(0, 5%Q); (1, 1%Q)]. Proof. reflexivity. Qed.
  Example t_earlier : transition t 0 [1] 0 2%Q.
  Proof. exists (Node (m 0 1 1) [Node (m 1 1 2) []]), (Node (m 1 1 2) []), 0, 1. repeat split. discriminate. Qed.
  (** A run without branches. *)
  Definition r := Node (m 0 0 0) [Node (m 1 0 1) [Node (m 2 1 3) []]].
  Example r_unbranched : unbranched r.
  Proof.
    assert (B : forall i : nat, nth_error (@nil (tree (tnode nat))) i = None) by (intros []; reflexivity).
    intros [|[|i] [|[|j] [|k q]]] n H; cbn [at_path child r nth_error obind] in H; try rewrite B in H; try discriminate; injection H as <-;
      (split; [cbn; lia|]; intros c Hc; cbn in Hc; intuition (subst; cbn; lra)).
  Qed.
  Example r_first : first_transitions Nat.eqb r = Some [(0, 1%Q); (1, 3%Q)]. Proof. reflexivity. Qed.
End Example_first.
(** With branches the time returned can be later than another change of the same agent. *)
Theorem C39_refuted : exists (t : tree (tnode nat)) d a v p k v',
  same_agents t /\ (forall p n c, at_path t p = Some n -> In c (child n) -> (t_start (content n) <= t_start (content c))%Q) /\
  first_transitions Nat.eqb t = Some d /\ dget Nat.eqb a d = Some v /\ transition t a p k v' /\ (v' < v)%Q.
Proof.
  exists Example_first.t, [(0, 5%Q); (1, 1%Q)], 0, 5%Q, [1], 0, 2%Q.
  assert (B : forall i : nat, nth_error (@nil (tree (tnode nat))) i = None) by (intros []; reflexivity).
  split; [|split; [|split; [reflexivity|split; [reflexivity|split; [apply Example_first.t_earlier|reflexivity]]]]].
  - intros [|[|[|i]] [|[|j] [|k q]]] n a H; cbn [at_path child Example_first.t nth_error obind] in H; try rewrite B in H; try discriminate; injection H as <-;
      destruct a as [|[|a]]; cbn; split; intros; congruence.
  - intros [|[|[|i]] [|[|j] [|k q]]] n c H Hc; cbn [at_path child Example_first.t nth_error obind] in H; try rewrite B in H; try discriminate; injection H as <-;
      cbn in Hc; intuition (subst; cbn; lra).
Qed.
Print Assumptions C39_refuted.
