(** Properties C94 and C95: runs of simulate_simple. *)
From Coq Require Import Ascii String Qabs Qround Lqa.
From Verif Require Import Base BaseFacts Dict PyText ResetProofs Sensor SensorSpec Round RoundProofs Step SimpleEnv SimpleEnvSpec SimpleSim SimpleSimSpec SimpleSimProofs.
Set Implicit Arguments.
Open Scope nat_scope.

(** ** C94.  The run starts from the given states and modes at time 0 and is one chain of nodes, each simulated up to the first
    row where a controller acts and continued there. *)
Theorem C94_chain agents statics trace_of horizon max_height fuel inits modes nodes :
  simulate_simple agents statics trace_of horizon max_height fuel inits modes = Done nodes ->
  (exists root, nth_error nodes 0 = Some root /\ k_init root = inits /\ k_mode root = modes /\ (k_start root == 0)%Q /\ k_height root = 0) /\
  forall k nd, nth_error nodes k = Some nd -> node_ok agents statics trace_of horizon max_height k nd (nth_error nodes (S k)).
Proof.
  intros E. destruct (@simulate_simple_spec _ _ _ _ _ _ _ _ _ E) as [(root & E0 & S1 & S2 & S3 & S4) H]. split; [|exact H]. exists root. split; [exact E0|]. cbn in S1, S2, S3, S4.
  split; [congruence|]. split; [congruence|]. split; [rewrite <- S3; reflexivity|congruence].
Qed.

(** ** C94.  An assertion that fails ends the run, in the last row of its last node. *)
Theorem C94_hits agents statics trace_of horizon max_height fuel inits modes nodes k nd hs :
  simulate_simple agents statics trace_of horizon max_height fuel inits modes = Done nodes ->
  nth_error nodes k = Some nd -> k_hits nd = Some hs -> hs <> [] ->
  S k = length nodes /\ exists trs n, simulated agents trace_of horizon nd trs /\ k_trace nd = map (fun t => Some (firstn (n + 1) t)) trs /\
    calm agents statics trs (k_mode nd) n /\ forall a l, In (a, l) hs <-> does agents statics trs (k_mode nd) n a (Fail l).
Proof.
  intros E Hk Hh Hne. destruct (@C94_chain _ _ _ _ _ _ _ _ _ E) as [_ H]. destruct (H k nd Hk) as [_ [(_ & _ & X)|(_ & trs & tr0 & A1 & A2 & A3 & [(_ & _ & X & _)|(n & B1 & B2 & B3 & [(_ & Hn & hs' & X & Hs)|(_ & _ & X & _)])])]]; try congruence.
  rewrite Hh in X. injection X as <-. split; [|exists trs, n; auto]. apply nth_error_None in Hn. assert (k < length nodes) by (apply nth_error_Some; congruence). lia.
Qed.

(** ** C95.  With a depth limit the run ends; it has at most that many nodes. *)
Theorem C95_height agents statics trace_of horizon h fuel inits modes : h <= fuel -> 0 < fuel ->
  simulate_simple agents statics trace_of horizon (Some h) fuel inits modes <> Running.
Proof. intros. now apply ends_height with (h := h). Qed.
Lemma height_of agents statics trace_of horizon max_height fuel inits modes nodes : simulate_simple agents statics trace_of horizon max_height fuel inits modes = Done nodes ->
  forall k nd, nth_error nodes k = Some nd -> k_height nd = k.
Proof.
  intros E. destruct (@C94_chain _ _ _ _ _ _ _ _ _ E) as [(root & E0 & _ & _ & _ & Hr) H]. induction k as [|k IH]; intros nd Hk; [congruence|].
  destruct (nth_error nodes k) as [p|] eqn:Ep; [|apply nth_error_None in Ep; assert (S k < length nodes) by (apply nth_error_Some; congruence); lia].
  pose proof (IH p eq_refl) as Hp. destruct (H k p Ep) as [_ X]. rewrite Hk in X.
  destruct X as [(_ & X & _)|(_ & trs & tr0 & A1 & A2 & A3 & [(_ & _ & _ & X)|(n & B1 & B2 & B3 & [(_ & X & _)|(_ & _ & _ & ch & [= <-] & C & _)])])]; try discriminate. congruence.
Qed.
Theorem C95_nodes agents statics trace_of horizon h fuel inits modes nodes :
  simulate_simple agents statics trace_of horizon (Some h) fuel inits modes = Done nodes -> length nodes <= Nat.max 1 h.
Proof.
  intros E. destruct (@C94_chain _ _ _ _ _ _ _ _ _ E) as [_ H]. destruct (le_lt_dec (length nodes) 1) as [L|L]; [lia|]. set (k := length nodes - 2).
  destruct (nth_error nodes k) as [p|] eqn:Ep; [|apply nth_error_None in Ep; lia]. pose proof (@height_of _ _ _ _ _ _ _ _ _ E _ _ Ep) as Hp. destruct (H k p Ep) as [_ [(_ & X & _)|(Hov & _)]].
  - apply nth_error_None in X. lia.
  - destruct (le_lt_dec (length nodes) h) as [?|L']; [lia|]. exfalso. apply Hov. left. exists h. split; [reflexivity|]. lia.
Qed.

(** ** C95.  Without one it ends if time passes between the rows and no controller acts in the first row after its own action. *)
Theorem C95_time agents statics trace_of horizon max_height dt n fuel inits modes :
  ((1 # 20000000000) < dt)%Q -> rows_from trace_of dt -> comes_to_rest agents statics trace_of horizon ->
  (horizon + (1 # 10000000000) <= inject_Z (Z.of_nat n) * (dt - (1 # 20000000000)))%Q -> S n < fuel ->
  simulate_simple agents statics trace_of horizon max_height fuel inits modes <> Running.
Proof.
  intros Hdt Hr Hc Hn L. apply ends_time with (dt := dt) (n := n); auto. unfold gap. lra.
Qed.

Module Example_C94.
  (** Agent 0 switches its mode and starts over at 3; agent 1 must stay below 8. *)
  Definition num (o : option pyval) : Q := match o with Some (Num q) => q | _ => 0%Q end.
  Definition st : fdef := mk_fdef (mk_sdef [w "x"] [w "m"] []) [w "Mode"].
  Definition flip (o : option pyval) : pyval := match o with Some (Mem c s) => Mem c (if word_eqb s (w "A") then w "B" else w "A") | _ => Num 0 end.
  Definition saw (l : list argval) : outcome :=
    match l with
    | [ANs e] => if Qle_bool 3 (num (dget word_eqb (w "x") e)) then Ret (dset word_eqb (w "m") (flip (dget word_eqb (w "m") e)) (dset word_eqb (w "x") (Num 0) e)) else Ret e
    | _ => Raises
    end.
  Definition guard (l : list argval) : outcome :=
    match l with [ANs e] => if Qle_bool 8 (num (dget word_eqb (w "x") e)) then Failed (Some (w "far")) else Ret e | _ => Raises end.
  Definition agent (c : list argval -> outcome) (p : bool) : cagent := mk_cagent [mk_larg (w "ego") (Some (w "State")) false] [(w "State", st)] [(w "Mode", [w "A"; w "B"])] c p.
  (** Rows at 0, 1, 2, ... *)
  Definition trace_of (a : nat) (m i : list pyval) (T : Q) : option (list vec) :=
    match i with
    | [Num x] => Some (map (fun k => [inject_Z (Z.of_nat k); (x + inject_Z (Z.of_nat k))%Q]) (seq 0 (S (Z.to_nat (Qfloor T)))))
    | _ => None
    end.
  Definition run h fuel := simulate_simple [agent saw true; agent guard true] [[]; []] trace_of 20 h fuel [[Num 0]; [Num 0]] [[Str (w "A")]; [Str (w "A")]].
  Example runs : exists nodes, run None 10 = Done nodes /\ length nodes = 3 /\
    map (fun nd => (Qred (k_start nd), map (map (fun v => match v with Num q => Qred q | _ => 0%Q end)) (k_init nd), k_mode nd, k_hits nd, k_child nd)) nodes =
    [(0%Q, [[0%Q]; [0%Q]], [[Str (w "A")]; [Str (w "A")]], None, [1]);
     (3%Q, [[0%Q]; [3%Q]], [[Str (w "B")]; [Str (w "A")]], None, [2]);
     (6%Q, [[0%Q]; [6%Q]], [[Str (w "A")]; [Str (w "A")]], Some [(1, w "far")], [])] /\
    map (fun nd => map (option_map (map (map Qred))) (k_trace nd)) nodes =
    [[Some [[0; 0]; [1; 1]; [2; 2]; [3; 3]]; Some [[0; 0]; [1; 1]; [2; 2]; [3; 3]]];
     [Some [[3; 0]; [4; 1]; [5; 2]; [6; 3]]; Some [[3; 3]; [4; 4]; [5; 5]; [6; 6]]];
     [Some [[6; 0]; [7; 1]; [8; 2]]; Some [[6; 6]; [7; 7]; [8; 8]]]]%Q.
  Proof. destruct (run None 10) as [nodes| |] eqn:E; vm_compute in E; [|discriminate|discriminate]. exists nodes. split; [reflexivity|]. injection E as <-. vm_compute. auto. Qed.
  Example limited : exists nodes, run (Some 2) 2 = Done nodes /\ length nodes = 2 /\ map k_hits nodes = [None; Some []].
  Proof. destruct (run (Some 2) 2) as [nodes| |] eqn:E; vm_compute in E; [|discriminate|discriminate]. exists nodes. split; [reflexivity|]. injection E as <-. vm_compute. auto. Qed.
  Example by_theorem fuel : 2 <= fuel -> run (Some 2) fuel <> Running.
  Proof. intros L. apply C95_height; lia. Qed.
End Example_C94.

Module Example_C95.
  (** A counter that starts over at 3. *)
  Definition st : fdef := mk_fdef (mk_sdef [w "x"] [] []) [].
  Definition high (x : Q) : bool := Qle_bool 3 x.
  Definition saw (l : list argval) : outcome :=
    match l with
    | [ANs [(k, Num x)]] => if high x then Ret [(k, Num 0)] else Ret [(k, Num x)]
    | _ => Raises
    end.
  Definition ag : cagent := mk_cagent [mk_larg (w "ego") (Some (w "State")) false] [(w "State", st)] [] saw true.
  Definition trace_of (a : nat) (m i : list pyval) (T : Q) : option (list vec) :=
    match i with
    | [Num x] => Some (map (fun k => [inject_Z (Z.of_nat k); (x + inject_Z (Z.of_nat k))%Q]) (seq 0 (S (Z.to_nat (Qfloor T)))))
    | _ => None
    end.
  Lemma some_eq {A} (a b : A) : Some a = Some b -> a = b.
  Proof. congruence. Qed.
  Lemma rows : rows_from trace_of 1.
  Proof.
    intros a m i T t j x r E Hj. unfold trace_of in E. destruct i as [|[q| | |] [|? ?]]; try discriminate. apply some_eq in E. subst t. rewrite nth_error_map in Hj. destruct (nth_error (seq 0 (S (Z.to_nat (Qfloor T)))) j) as [k|] eqn:Ek; [|discriminate].
    assert (k = j) as ->. { assert (j < S (Z.to_nat (Qfloor T))) by (rewrite <- (seq_length (S (Z.to_nat (Qfloor T))) 0); apply nth_error_Some; congruence). rewrite nth_seq in Ek by assumption. cbn in Ek. congruence. }
    cbn [option_map] in Hj. injection Hj as <- _. split; [unfold Qle; cbn; lia|]. intros P. unfold Qle. cbn. lia.
  Qed.
  Lemma acts t x m : react ag 0 [(0, ([Num t; Num x], m, []))] = if high x then if Qeq_bool x 0 then Some Stay else Some (Move [] [Num 0]) else if Qeq_bool x x then Some Stay else Some (Move [] [Num x]).
  Proof. cbv -[high Qeq_bool]. destruct (high x); [destruct (Qeq_bool x 0)|destruct (Qeq_bool x x)]; reflexivity. Qed.
  Lemma does_one trs ms i r : does [ag] [[]] trs ms i 0 r -> exists tr row m, nth_error trs 0 = Some tr /\ nth_error tr i = Some row /\ react ag 0 [(0, (map Num row, m, []))] = Some r.
  Proof.
    intros (a & s & E1 & _ & [L H] & E2). cbn in E1. injection E1 as <-. destruct (H 0 ltac:(cbn; lia)) as (t & row & m & x & F1 & F2 & F3 & F4 & F5). cbn in F4. injection F4 as <-.
    destruct s as [|s0 [|? ?]]; try discriminate. cbn in F5. injection F5 as ->. exists t, row, m. auto.
  Qed.
  Lemma moves t x m d s : react ag 0 [(0, ([Num t; Num x], m, []))] = Some (Move d s) -> high x = true /\ s = [Num 0].
  Proof. rewrite acts. destruct (high x); [destruct (Qeq_bool x 0); intros X; inversion X; auto|]. replace (Qeq_bool x x) with true by (symmetry; apply Qeq_bool_iff; reflexivity). discriminate. Qed.
  Lemma row_shape nd trs tr i row : simulated [ag] trace_of 20 nd trs -> nth_error trs 0 = Some tr -> nth_error tr i = Some row ->
    exists q k, nth_error (k_init nd) 0 = Some [Num q] /\ nth_error (seq 0 (S (Z.to_nat (Qfloor (time_left 20 nd))))) i = Some k /\ row = [(inject_Z (Z.of_nat k) + k_start nd)%Q; (q + inject_Z (Z.of_nat k))%Q].
  Proof.
    intros [_ H] Et Er. destruct (H 0 ltac:(cbn; lia)) as (m & ini & t & _ & E2 & E3 & E4). rewrite Et in E4. injection E4 as ->. unfold trace_of in E3. destruct ini as [|[q| | |] [|? ?]]; try discriminate. apply some_eq in E3. subst t.
    rewrite map_map, nth_error_map in Er. destruct (nth_error (seq 0 _) i) as [k|]; [|discriminate]. cbn in Er. injection Er as <-. exists q, k. auto.
  Qed.
  Lemma rests : comes_to_rest [ag] [[]] trace_of 20.
  Proof.
    intros nd trs n ch Hsim _ (a & d & s & D) (_ & _ & Li & _ & C) trs' a' d' s' Hsim' D'.
    assert (A : forall ms t i b r, does [ag] [[]] t ms i b r -> b = 0). { intros ms t i b r (x & y & E & _). destruct b as [|[|b]]; [reflexivity|discriminate|discriminate]. }
    rewrite (A _ _ _ _ _ D) in D. rewrite (A _ _ _ _ _ D') in D'. destruct (C 0 ltac:(cbn; lia)) as [C1 _]. destruct (C1 d s D) as [_ Ei].
    apply does_one in D. destruct D as (tr & row & m & E1 & E2 & E3). destruct (@row_shape _ _ _ _ _ Hsim E1 E2) as (q & k & _ & _ & ->). destruct (@moves _ _ _ _ _ E3) as [_ ->].
    apply does_one in D'. destruct D' as (tr' & row' & m' & F1 & F2 & F3). destruct (@row_shape _ _ _ _ _ Hsim' F1 F2) as (q' & k' & G1 & G2 & ->). rewrite Ei in G1. injection G1 as <-. cbn in G2. injection G2 as <-.
    destruct (@moves _ _ _ _ _ F3) as [X _]. vm_compute in X. discriminate.
  Qed.
  Example ends fuel x : 22 < fuel -> simulate_simple [ag] [[]] trace_of 20 None fuel [[Num x]] [[]] <> Running.
  Proof. intros L. apply C95_time with (dt := 1%Q) (n := 21); [reflexivity|exact rows|exact rests|discriminate|exact L]. Qed.
  Example run_ends : exists nodes, simulate_simple [ag] [[]] trace_of 20 None 100 [[Num 0]] [[]] = Done nodes /\ length nodes = 7.
  Proof. destruct (simulate_simple [ag] [[]] trace_of 20 None 100 [[Num 0]] [[]]) as [nodes| |] eqn:E; vm_compute in E; [|discriminate|discriminate]. exists nodes. split; [reflexivity|]. injection E as <-. reflexivity. Qed.
End Example_C95.

(** ** Where it fails *)
(** A controller that is still enabled after its own action: the run never ends, although time passes between the rows. *)
Theorem C95_zeno_refuted : exists agents statics trace_of, rows_from trace_of 1 /\
  forall fuel, simulate_simple agents statics trace_of 1 None fuel [[Num 0]] [[Str (w "A")]] = Running.
Proof.
  set (lg := fun l : list argval => match l with [ANs e] => Ret (dset word_eqb (w "m") (Example_C94.flip (dget word_eqb (w "m") e)) e) | _ => Raises end).
  set (ag := Example_C94.agent lg true). set (tr := fun (a : nat) (m i : list pyval) (T : Q) => Some [[0; 0]; [1; 0]]%Q).
  exists [ag], [[]], tr. split.
  - intros a m i T t j x r E Hj. injection E as <-. destruct j as [|[|[|j]]]; cbn in Hj; try discriminate; injection Hj as <- _; split; try discriminate; intros; try lia; discriminate.
  - assert (G : forall fuel pre t h hs k m i, (m = w "A" \/ m = w "B") -> (i = [Num 0] \/ i = [Num (0 # 1)]) -> work [ag] [[]] tr 1 None fuel (pre ++ [mk_cnode t [i] [[Str m]] (0 # 10000000000) h hs k]) [length pre] = Running).
    { induction fuel as [|fuel IH]; intros pre t h hs k m i Hm Hi; [reflexivity|]. cbn [work]. rewrite nth_error_app2, Nat.sub_diag by lia. cbn [nth_error]. set (nd := mk_cnode _ _ _ _ _ _ _).
      assert (El : left_alone 1 None nd = false) by reflexivity. rewrite El.
      assert (Es : exists tr' m' i' t', simple_step [ag] [[]] tr nd (py_round 10 (1 - k_start nd)) = Some (tr', None, [mk_cnode t' [i'] [[Str m']] (0 # 10000000000) (S h) (Some []) []]) /\ (m' = w "A" \/ m' = w "B") /\ (i' = [Num 0] \/ i' = [Num (0 # 1)])).
      { destruct Hm as [-> | ->].
        - eexists _, (w "B"), [Num 0], _. split; [destruct Hi as [-> | ->]; vm_compute; reflexivity|auto].
        - eexists _, (w "A"), [Num 0], _. split; [destruct Hi as [-> | ->]; vm_compute; reflexivity|auto]. }
      destruct Es as (tr' & m' & i' & t' & Es & Hm' & Hi'). rewrite Es. rewrite set_last, app_length. cbn [length seq app]. rewrite Nat.add_1_r.
      match goal with |- work _ _ _ _ _ _ ((pre ++ [?x]) ++ _) _ = _ => specialize (IH (pre ++ [x]) t' (S h) (Some []) [] m' i' Hm' Hi') end. rewrite app_length in IH. cbn [length] in IH. rewrite Nat.add_1_r in IH. exact IH. }
    intros fuel. unfold simulate_simple. apply (G fuel [] _ _ _ _ (w "A") [Num 0]); auto.
Qed.

(** A controller with assertions and no transitions is not asked: its failing assertion is not reported. *)
Theorem C94_assert_refuted : exists ag trace_of nodes, simulate_simple [ag] [[]] trace_of 1 None 5 [[Num 0]] [[Str (w "A")]] = Done nodes /\
  react ag 0 [(0, ([Num 0; Num 0], [Str (w "A")], []))] = Some (Fail (w "bad")) /\
  length nodes = 1 /\ forall nd, In nd nodes -> map (option_map (map (map Qred))) (k_trace nd) = [Some [[0; 0]; [1; 0]]%Q] /\ k_hits nd = None.
Proof.
  set (ag := Example_C94.agent (fun _ => Failed (Some (w "bad"))) false). set (tr := fun (a : nat) (m i : list pyval) (T : Q) => Some [[0; 0]; [1; 0]]%Q).
  exists ag, tr. destruct (simulate_simple [ag] [[]] tr 1 None 5 [[Num 0]] [[Str (w "A")]]) as [nodes| |] eqn:E; vm_compute in E; [|discriminate|discriminate]. exists nodes. split; [reflexivity|].
  split; [vm_compute; reflexivity|]. injection E as <-. split; [reflexivity|]. intros nd [<-|[]]. vm_compute. auto.
Qed.

Print Assumptions C94_chain.
Print Assumptions C94_hits.
Print Assumptions C95_height.
Print Assumptions C95_nodes.
Print Assumptions C95_time.
Print Assumptions C95_zeno_refuted.
Print Assumptions C94_assert_refuted.
