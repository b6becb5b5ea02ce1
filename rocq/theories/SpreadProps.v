(** C111: diameters of simulations and of tubes of boxes. *)
From Coq Require Import Ascii String Qabs Qround.
From Verif Require Import Base BaseFacts Dict PyText Tree TreeProofs StarDiam StarDiamSpec FixedPoints FixedPointsSpec FixedPointsMain Spread SpreadSpec SpreadProofs SpreadMain SpreadTube.
From Coq Require Import Lqa Lia.
Set Implicit Arguments.
Open Scope nat_scope.

(** The diameters are computed, without an exception, whenever every row of every trace has a time. *)
Theorem C111_succeeds hash sims :
  (forall t h n a rows r, In t sims -> visited t h n -> In (a, rows) (sn_trace (content n)) -> In r rows -> r <> []) ->
  exists ds, sim_traces_to_diameters hash sims = Some ds.
Proof.
  intros H. apply diameters_some. apply Forall_forall. intros t Ht.
  assert (K : forall n, (forall h, visited t h n -> True) -> (exists h, visited t h n) -> all_ok n).
  2: { apply K; [auto|eexists; constructor]. }
  assert (G : forall s n, size n <= s -> (exists h, visited t h n) -> all_ok n).
  { induction s as [|s IH]; intros [a ch] L [h V]; [cbn in L; lia|]. cbn [all_ok]. split.
    - intros ag rows Hin. apply Forall_forall. intros r Hr. exact (H t h _ ag rows r Ht V Hin Hr).
    - assert (C : forall c, In c ch -> all_ok c).
      { intros c Hc. apply IH; [|eexists; exact (VChild c V Hc)]. cbn [size] in L. assert (M : size c <= list_sum (map (@size simnode) ch)); [|lia].
        clear -Hc. induction ch as [|b ch IH]; [destruct Hc|]. cbn [map list_sum fold_right]. destruct Hc as [->|Hc]; [unfold list_sum; lia|specialize (IH Hc); unfold list_sum in *; lia]. }
      clear -C. induction ch as [|c ch IH]; [exact I|]. split; [apply C; left; reflexivity|apply IH; intros x Hx; apply C; right; exact Hx]. }
  intros n _ V. exact (G _ _ (le_n _) V).
Qed.

(** Whatever Python's hash is: two simulations that went through the same modes are, at every time both have states for, no
    further apart than one of the diameters, if all joint states at that time have the same dimension. *)
Theorem C111_pairs hash sims ds h tau x y : sim_traces_to_diameters hash sims = Some ds ->
  (forall h' z, seen sims h' tau z -> length z = length x) -> seen sims h tau x -> seen sims h tau y ->
  exists d, In d ds /\ (l1 x y <= d)%Q.
Proof.
  intros E U Hx Hy. destruct (diameters_spec _ _ E) as [_ C]. destruct (keys hash h) as [k|] eqn:K.
  - destruct (C k tau x) as [d [Hd S]]; [exists h; auto|]. exists d. split; [exact Hd|]. apply (spread_pairs _ _ S).
    + exists h; auto.
    + exists h; auto.
    + intros z [h' [_ Hz]]. rewrite (U h' z Hz). lia.
    + apply (U h), Hy.
  - apply keys_none in K. subst h. destruct Hx as (t & n & _ & V & _). inversion V; destruct h; discriminate.
Qed.

(** If the hash has no collisions and the names of modes do not start like numbers, there is one diameter for every history of
    (written) modes and every time, and no other: the sum of the sides of the smallest box around the joint states of the
    simulations with that history at that time, those of the greatest dimension. *)
Theorem C111_histories hash sims ds : (forall a b, hash a = hash b -> a = b) -> sim_traces_to_diameters hash sims = Some ds ->
  (forall t h n, In t sims -> visited t h n -> plain (written (modes_of (content n)))) ->
  let alike h tau x := exists h', map written h' = map written h /\ seen sims h' tau x in
  (forall h tau x, seen sims h tau x -> exists d, In d ds /\ spread (alike h tau) d) /\
  (forall d, In d ds -> exists h tau x, seen sims h tau x /\ spread (alike h tau) d).
Proof.
  intros Inj E P alike.
  assert (PH : forall t h n, In t sims -> visited t h n -> Forall (fun ms => plain (written ms)) h).
  { intros t h n Ht V. induction V as [|h n c V IH Hc]; [repeat constructor; apply (P t [modes_of (content t)] t Ht); constructor|]. apply Forall_app. split; [apply IH|].
    repeat constructor. apply (P t (h ++ [modes_of (content c)]) c Ht). exact (VChild c V Hc). }
  assert (Q : forall h k tau x y, keys hash h = Some k -> seen sims h tau x -> (key_class hash sims k tau y <-> alike h tau y)).
  { intros h k tau x y K (t & n & Ht & V & _). split.
    - intros [h' [K' S']]. exists h'. split; [|exact S']. destruct S' as (t' & n' & Ht' & V' & _). apply (@keys_inj hash Inj); [exact (PH _ _ _ Ht' V')|exact (PH _ _ _ Ht V)|congruence].
    - intros [h' [W' S']]. exists h'. split; [|exact S']. rewrite <- K. apply keys_written, W'. }
  assert (NK : forall h tau x, seen sims h tau x -> exists k, keys hash h = Some k).
  { intros h tau x (t & n & _ & V & _). destruct (keys hash h) as [k|] eqn:K; [eauto|]. apply keys_none in K. subst h. inversion V; destruct h; discriminate. }
  destruct (diameters_spec _ _ E) as [A B]. split.
  - intros h tau x Hx. destruct (NK _ _ _ Hx) as [k K]. destruct (B k tau x) as [d [Hd S]]; [exists h; auto|]. exists d. split; [exact Hd|]. exact (spread_iff _ (fun y => Q h k tau x y K Hx) S).
  - intros d Hd. destruct (A d Hd) as (k & tau & [y [h [K Hy]]] & S). exists h, tau, y. split; [exact Hy|]. exact (spread_iff _ (fun z => Q h k tau y z K Hy) S).
Qed.

(** Computes with an unknown hash. *)
Ltac run_hash := do 4 (cbv -[Z.eqb]; rewrite ?Z.eqb_refl).

(** The modes of an agent are written without separators: simulations in different modes are put together, whatever the hash. *)
Definition one_row (modes : list word) (x : Q) : tree simnode := Node (mksim [(w "a", modes)] [(w "a", [[0%Q; x]])]) [].
Theorem C111_modes_refuted :
  let t := one_row [w "Up"; w "Fast"] 0%Q in let t' := one_row [w "UpF"; w "ast"] 100%Q in
  modes_of (content t) <> modes_of (content t') /\
  forall hash, sim_traces_to_diameters hash [t] = Some [0%Q] /\ sim_traces_to_diameters hash [t'] = Some [0%Q] /\
    exists d, sim_traces_to_diameters hash [t; t'] = Some [d] /\ (d == 100)%Q.
Proof.
  cbn zeta. split; [discriminate|]. intros hash. split; [run_hash; reflexivity|]. split; [run_hash; reflexivity|].
  eexists. split; [run_hash; reflexivity|reflexivity].
Qed.

(** Joint states of a smaller dimension are dropped: two simulations with the same modes may be further apart than every diameter. *)
Definition two_agents (rows rows' : list vec) : tree simnode :=
  Node (mksim [(w "a", [w "Normal"]); (w "b", [w "Normal"])] [(w "a", rows); (w "b", rows')]) [].
Theorem C111_dimensions_refuted :
  let t := two_agents [[0; 0]]%Q [] in let t' := two_agents [[0; 100]]%Q [] in let t'' := two_agents [[0; 50]]%Q [[0; 0]]%Q in
  let h := [[[w "Normal"]; [w "Normal"]]] in
  seen [t; t'; t''] h 0%Q [0%Q] /\ seen [t; t'; t''] h 0%Q [100%Q] /\ (l1 [0%Q] [100%Q] == 100)%Q /\
  forall hash, exists d, sim_traces_to_diameters hash [t; t'; t''] = Some [d] /\ (d == 0)%Q.
Proof.
  cbn zeta. split; [|split; [|split; [reflexivity|]]].
  - exists (two_agents [[0; 0]]%Q []), (two_agents [[0; 0]]%Q []). split; [cbn; auto|]. split; [apply (VRoot (two_agents [[0; 0]]%Q []))|]. split; [|reflexivity]. exists (w "a"), [[0; 0]]%Q, 0%Q, [0%Q]. cbn. auto using Qeq_refl.
  - exists (two_agents [[0; 100]]%Q []), (two_agents [[0; 100]]%Q []). split; [cbn; auto|]. split; [apply (VRoot (two_agents [[0; 100]]%Q []))|]. split; [|reflexivity]. exists (w "a"), [[0; 100]]%Q, 0%Q, [100%Q]. cbn. auto using Qeq_refl.
  - intros hash. eexists. split; [run_hash; reflexivity|reflexivity].
Qed.

(** [time_step_diameter_rect] on a verified tree: the windows are the steps of the grid, widened on both sides by a twentieth of a
    step.  A window adds the greatest of the sizes of the boxes of the first steps of the nodes that lie in it, over all agents together. *)
Theorem C111_tubes dims times t horizon dt : tree_ok dims times t ->
  let n := Z.to_nat (Qfloor (horizon / dt)) in
  let a i := (inject_Z (Z.of_nat i) * horizon / inject_Z (Z.of_nat n))%Q in
  exists ds, time_step_diameter_rect t horizon dt = Some (concat ds) /\ length ds = n /\
    forall i, i < n -> window_diameter times t (a i - dt * (5 # 100)) (a (S i) + dt * (5 # 100)) (nth i ds []).
Proof.
  intros T n a. unfold time_step_diameter_rect.
  assert (L : length (linspace horizon dt) = n + 1) by (unfold linspace; rewrite map_length, seq_length; reflexivity). rewrite L. replace (n + 1 - 1) with n by lia.
  assert (X : forall i, exists w, rect_step t dt (nth i (linspace horizon dt) 0%Q) (nth (i + 1) (linspace horizon dt) 0%Q) = Some w /\
            window_diameter times t (nth i (linspace horizon dt) 0%Q - dt * (5 # 100)) (nth (i + 1) (linspace horizon dt) 0%Q + dt * (5 # 100)) w)
    by (intros i; apply (rect_window _ _ dt T)).
  assert (M : forall m s, exists ds, mapM (fun i => rect_step t dt (nth i (linspace horizon dt) 0%Q) (nth (i + 1) (linspace horizon dt) 0%Q)) (seq s m) = Some ds /\ length ds = m /\
    forall i, i < m -> window_diameter times t (nth (s + i) (linspace horizon dt) 0%Q - dt * (5 # 100)) (nth (s + i + 1) (linspace horizon dt) 0%Q + dt * (5 # 100)) (nth i ds [])).
  { induction m as [|m IH]; intros s; cbn [seq mapM]; [exists []; split; [reflexivity|split; [reflexivity|intros i Hi; lia]]|]. destruct (X s) as [u [-> U]]. destruct (IH (S s)) as [ds [-> [Ld N]]].
    eexists. split; [reflexivity|]. split; [cbn; lia|]. intros [|i] Hi; cbn [nth]; [rewrite Nat.add_0_r; exact U|]. replace (s + S i) with (S s + i) by lia. apply N. lia. }
  destruct (M n 0) as [ds [-> [Ld N]]]. cbn [obind]. exists ds. split; [reflexivity|]. split; [exact Ld|]. intros i Hi. specialize (N i Hi). cbn [Nat.add] in N. rewrite !linspace_nth in N by (fold n; lia).
  rewrite Nat.add_1_r in N. exact N.
Qed.

(** Two joint states in a step of a node are no further apart than the size of the step; so a window's diameter bounds the
    distances in the first steps of the nodes. *)
Theorem C111_tube_states nd k xs ys : in_node_step nd k xs -> in_node_step nd k ys -> (l1 (concat xs) (concat ys) <= step_size nd k)%Q.
Proof.
  unfold in_node_step, step_size. intros Hx. revert ys. induction Hx as [|tr x trs xs [rows [-> [A1 [A2 A3]]]] Hx IH]; intros ys Hy; inversion Hy as [|? y ? ys' Hb Hy']; subst; cbn [concat map fold_right]; [cbn; lra|].
  destruct Hb as [rows' [[= <-] [B1 [B2 B3]]]]. rewrite l1_app by lia. specialize (IH ys' Hy').
  assert (K : (l1 x y <= l1 (tl (nth (2 * k) rows [])) (tl (nth (2 * k + 1) rows [])))%Q); [|lra]. apply l1_mono; try lia. intros j Hj. split; [apply A3|apply B3]; lia.
Qed.

(** The other steps of a node in the window do not count: a tube with two steps per window, the second of which is large. *)
Theorem C111_later_steps_refuted :
  exists dims times t nd k xs ys, tree_ok dims times t /\ In nd (fnodes t) /\ lies_in (times nd) (0 - (5 # 100)) (1 + (5 # 100)) k /\
    in_node_step nd k xs /\ in_node_step nd k ys /\ (l1 (concat xs) (concat ys) == 100)%Q /\
    exists d, time_step_diameter_rect t 1 1 = Some [d] /\ (d == 0)%Q.
Proof.
  set (rows := [[0; 0]; [1 # 2; 0]; [1 # 2; 0]; [1; 100]]%Q). set (nd := mknode [[w "Normal"]] [Some rows]).
  exists [(1, 1)], (fun _ => [0; 1 # 2; 1 # 2; 1]%Q), (mktree [nd] nd), nd, 1, [[0%Q]], [[100%Q]]. split; [|split; [|split; [|split; [|split; [|split]]]]].
  - split; [discriminate|]. split; [left; reflexivity|]. intros n [<-|[]]. split; [exists 1; reflexivity|]. split; [intros H; discriminate H|]. split; [|split].
    + intros i j Hij Hj. cbn in Hj. assert (j <= 1) by lia. destruct j as [|[|j]]; [|destruct i as [|[|i]]|]; try lia; try (replace i with 0 by lia); cbn; lra.
    + repeat constructor. exists rows. split; [reflexivity|]. unfold rows. repeat constructor; (eexists; eexists; split; [reflexivity|split; reflexivity]).
    + repeat constructor. cbn. intros [H|[]]. discriminate.
  - left. reflexivity.
  - split; [cbn; lia|]. cbn. split; lra.
  - repeat constructor. exists rows. split; [reflexivity|]. split; [reflexivity|]. split; [reflexivity|]. intros [|j] Hj; cbn in *; [lra|lia].
  - repeat constructor. exists rows. split; [reflexivity|]. split; [reflexivity|]. split; [reflexivity|]. intros [|j] Hj; cbn in *; [lra|lia].
  - reflexivity.
  - eexists. split; [vm_compute; reflexivity|reflexivity].
Qed.

(** * Examples *)
Module Example_histories.
  (** A hash without collisions *)
  Fixpoint enc (s : word) : Z := match s with [] => 0 | c :: s' => 257 * enc s' + (Z.of_nat (nat_of_ascii c) + 1) end%Z.
  Lemma enc_pos s : (0 <= enc s)%Z. Proof. induction s as [|c s IH]; cbn [enc]; lia. Qed.
  Lemma enc_inj a : forall b, enc a = enc b -> a = b.
  Proof.
    induction a as [|c a IH]; intros [|d b] E; [reflexivity| | |]; cbn [enc] in E.
    - assert (P := enc_pos b). lia.
    - assert (P := enc_pos a). lia.
    - assert (B1 := nat_ascii_bounded c). assert (B2 := nat_ascii_bounded d). assert (H : enc a = enc b /\ nat_of_ascii c = nat_of_ascii d) by lia. destruct H as [H1 H2]. rewrite (IH b H1).
      rewrite <- (ascii_nat_embedding c), <- (ascii_nat_embedding d), H2. reflexivity.
  Qed.
  (** Two agents; the first simulation switches the mode of the second agent and goes on. *)
  Definition leaf (m : word) (rows rows' : list vec) : simnode := mksim [(w "a", [w "Normal"]); (w "b", [m])] [(w "a", rows); (w "b", rows')].
  Definition sim (x : Q) (m : word) : tree simnode :=
    Node (leaf (w "Up") [[0; x]; [1; x + 1]]%Q [[0; 5]; [1; 6]]%Q) [Node (leaf m [[1; x + 1]; [2; x + 2]]%Q [[1; 6]; [2; 9 * x]]%Q) []].
  Definition sims := [sim 0 (w "Down"); sim 1 (w "Down"); sim 2 (w "Up")].
  Example ex_C111_value : exists ds, sim_traces_to_diameters (fun s => enc s mod 997)%Z sims = Some ds /\ Forall2 Qeq ds [2; 2; 1; 10; 0; 0]%Q.
  Proof. eexists. split; [vm_compute; reflexivity|]. repeat constructor; reflexivity. Qed.
  Lemma visits t h n x m : t = sim x m -> visited t h n -> n = t \/ n = Node (leaf m [[1; x + 1]; [2; x + 2]]%Q [[1; 6]; [2; 9 * x]]%Q) [].
  Proof. intros -> V. induction V as [|h n c V IH Hc]; [auto|]. destruct IH as [-> | ->]; cbn in Hc; [destruct Hc as [<-|[]]; auto|destruct Hc]. Qed.
  Example ex_C111_plain : forall t h n, In t sims -> visited t h n -> plain (written (modes_of (content n))).
  Proof.
    intros t h n Ht V. destruct Ht as [<-|[<-|[<-|[]]]]; (eapply visits in V; [|reflexivity]); destruct V as [-> | ->]; vm_compute; intuition discriminate.
  Qed.
  Example ex_C111_seen : seen sims [[[w "Normal"]; [w "Up"]]; [[w "Normal"]; [w "Down"]]] 2%Q [2; 0]%Q.
  Proof.
    set (c := Node (leaf (w "Down") [[1; 0 + 1]; [2; 0 + 2]]%Q [[1; 6]; [2; 9 * 0]]%Q) []).
    exists (sim 0 (w "Down")), c. split; [left; reflexivity|]. split; [exact (@VChild (sim 0 (w "Down")) _ _ c (VRoot _) (or_introl eq_refl))|]. split; [|vm_compute; reflexivity].
    exists (w "a"). eexists. exists 2%Q. eexists. split; [left; reflexivity|]. split; [right; left; reflexivity|]. reflexivity.
  Qed.
  Example ex_C111_histories : exists ds, sim_traces_to_diameters enc sims = Some ds /\
    exists d, In d ds /\ spread (fun x => exists h', map written h' = [w "Normal | Up"; w "Normal | Down"] /\ seen sims h' 2%Q x) d.
  Proof.
    destruct (@C111_succeeds enc sims) as [ds E].
    - intros t h n a rows r Ht V Hin Hr. destruct Ht as [<-|[<-|[<-|[]]]]; (eapply visits in V; [|reflexivity]); destruct V as [-> | ->]; cbn in Hin;
        destruct Hin as [[= <- <-]|[[= <- <-]|[]]]; cbn in Hr; destruct Hr as [<-|[<-|[]]]; discriminate.
    - exists ds. split; [exact E|]. destruct (@C111_histories enc sims ds enc_inj E ex_C111_plain) as [A _]. exact (A _ _ _ ex_C111_seen).
  Qed.
End Example_histories.
Module Example_tubes.
  (** Two nodes, two agents; grid of two steps of length 1. *)
  Definition times (_ : fnode) := [0; 1; 1; 2]%Q.
  Definition tube (a b : Q) : option (list row) := Some [[0; a]; [1; b]; [1; b]; [2; b + 3]]%Q.
  Definition n1 := mknode [[w "Normal"]; [w "Up"]] [tube 0 1; tube 5 7].
  Definition n2 := mknode [[w "Normal"]; [w "Down"]] [tube 0 10; tube 5 6].
  Example ex_C111_tree : tree_ok [(1, 1); (1, 1)] times (mktree [n1; n2] n2).
  Proof.
    split; [discriminate|]. split; [right; left; reflexivity|]. intros n Hn. split; [exists 1; reflexivity|]. split; [intros H; discriminate H|]. split; [|split].
    - intros i j Hij Hj. cbn in Hj. assert (j <= 1) by lia. destruct j as [|[|j]]; [|destruct i as [|[|i]]|]; try lia; try (replace i with 0 by lia); cbn; lra.
    - destruct Hn as [<-|[<-|[]]]; (repeat constructor; eexists; (split; [reflexivity|]); repeat constructor; (eexists; eexists; split; [reflexivity|split; reflexivity])).
    - destruct Hn as [<-|[<-|[]]]; repeat constructor; cbn; intros [H|[]]; discriminate.
  Qed.
  Example ex_C111_tubes : exists ds, time_step_diameter_rect (mktree [n1; n2] n2) 2 1 = Some ds /\ Forall2 Qeq ds [11; 6]%Q.
  Proof. eexists. split; [vm_compute; reflexivity|]. repeat constructor; reflexivity. Qed.
End Example_tubes.
