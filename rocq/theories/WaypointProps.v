(** C88: waypoints on three-dimensional lanes. *)
From Coq Require Import Ascii String Reals Lra Lia Psatz.
From Verif Require Import Base PyText Dict ScanProofs Angle AngleProofs Lane3d Lane3dSpec Lane3dProofs Lane3dStraight Lane3dProps Lane3dCircular Lane3dPathProps Waypoint WaypointSpec WaypointProofs.
Open Scope R_scope.

(** The guard box: the first three state variables are within half a side of the destination. *)
Theorem C88_guard : forall st agent p q x y z rest a b c more, dget word_eqb agent (curr_wp st) = Some (p, q) ->
  exists answer, check_guard_box st agent (x :: y :: z :: rest) (a :: b :: c :: more) = Some answer
  /\ (answer = true <-> Rabs (x - vx q) <= a / 2 /\ Rabs (y - vy q) <= b / 2 /\ Rabs (z - vz q) <= c / 2).
Proof.
  intros st agent p q x y z rest a b c more E. unfold check_guard_box. rewrite E. cbn [obind snd inside].
  assert (A : forall u d s, Rabs (u - d) <= s / 2 <-> ~ u < d - s / 2 /\ ~ d + s / 2 < u).
  { intros u d s. split; [intros H | intros [H1 H2]].
    - unfold Rabs in H. destruct (Rcase_abs (u - d)); lra.
    - apply Rabs_le. lra. }
  repeat match goal with |- context [Rlt_dec ?u ?d] => destruct (Rlt_dec u d) end; eexists; (split; [reflexivity |]); rewrite !A;
    split; intros H; try discriminate H; try reflexivity; try tauto.
Qed.

(** The waypoints an agent can ask for are those returned to it, in order; the current one is the last of them. *)
Theorem C88_history : forall lanes cs st rs agent, calls lanes new_planner cs = (st, rs) ->
  get_curr_waypoint st agent = match returned_to agent cs rs with [] => None | l => Some l end
  /\ dget word_eqb agent (curr_wp st) = latest (returned_to agent cs rs).
Proof.
  intros lanes cs st rs agent H.
  assert (G : forall cs st0 st rs, calls lanes st0 cs = (st, rs) ->
    get_curr_waypoint st agent = (match get_curr_waypoint st0 agent, returned_to agent cs rs with None, [] => None | None, l => Some l | Some l, l' => Some (l ++ l') end)
    /\ dget word_eqb agent (curr_wp st) = match latest (returned_to agent cs rs) with Some x => Some x | None => dget word_eqb agent (curr_wp st0) end).
  { clear. unfold get_curr_waypoint. induction cs as [| c cs IH]; intros st0 st rs H.
    - cbn in H. injection H as <- <-. cbn. split; [| reflexivity]. destruct (dget word_eqb agent (wps st0)); [rewrite app_nil_r |]; reflexivity.
    - cbn [calls] in H. unfold call_of in H. rewrite next_core in H. cbv zeta iota in H. set (u := core _ _ _ _ _ _ _) in H.
      destruct (calls lanes (put st0 (c_agent c) u) cs) as [st2 rs2] eqn:E. injection H as <- <-.
      destruct (IH _ _ _ E) as [I1 I2]. cbn [returned_to]. destruct (word_eqb (c_agent c) agent) eqn:A.
      + apply word_eqb_iff in A. rewrite A in *. rewrite I1, I2, wps_put.
        assert (Vw : dget word_eqb agent (curr_wp (put st0 agent u)) = match snd u with Some wp => Some wp | None => dget word_eqb agent (curr_wp st0) end)
          by (apply (f_equal fst (view_put st0 agent u))).
        rewrite Vw. destruct (snd u) as [wp |]; [| split; reflexivity]. set (l := returned_to agent cs rs2). split.
        * destruct (dget word_eqb agent (wps st0)) as [l0 |]; [rewrite <- app_assoc; reflexivity | reflexivity].
        * unfold latest. cbn [rev]. destruct (rev l); reflexivity.
      + assert (N : c_agent c <> agent) by (intros X; apply word_eqb_iff in X; congruence).
        destruct (view_other st0 (c_agent c) u agent N) as [V1 V2]. rewrite I1, I2, V2. apply (f_equal fst) in V1. cbn in V1. rewrite V1. auto. }
  destruct (G cs new_planner st rs H) as [A B]. rewrite A, B. cbn. split; [reflexivity | destruct (latest _); reflexivity].
Qed.

(** Agents do not influence each other: an agent's results are the same without the calls of the others. *)
Theorem C88_independent : forall lanes cs agent,
  own_results agent cs (snd (calls lanes new_planner cs)) = snd (calls lanes new_planner (own_calls agent cs)).
Proof.
  intros lanes cs agent.
  assert (G : forall cs st st', view st agent = view st' agent ->
    own_results agent cs (snd (calls lanes st cs)) = snd (calls lanes st' (own_calls agent cs))).
  { clear. induction cs as [| c cs IH]; intros st st' H; [reflexivity |]. cbn [calls own_calls filter]. unfold call_of at 1. rewrite next_core. cbv zeta iota.
    set (u := core _ _ _ _ _ _ _). destruct (calls lanes (put st (c_agent c) u) cs) as [st2 rs2] eqn:E. cbn [snd own_results].
    destruct (word_eqb (c_agent c) agent) eqn:A.
    - cbn [calls]. unfold call_of at 1. rewrite next_core. cbv zeta iota. apply word_eqb_iff in A. subst agent. rewrite <- H. fold u.
      fold (own_calls (c_agent c) cs). destruct (calls lanes (put st' (c_agent c) u) (own_calls (c_agent c) cs)) as [st3 rs3] eqn:E'. cbn [snd]. f_equal.
      specialize (IH (put st (c_agent c) u) (put st' (c_agent c) u)). rewrite E, E' in IH. apply IH. rewrite !view_put, H. reflexivity.
    - assert (N : c_agent c <> agent) by (intros X; apply word_eqb_iff in X; congruence).
      specialize (IH (put st (c_agent c) u) st'). rewrite E in IH. apply IH. destruct (view_other st (c_agent c) u agent N) as [-> _]. exact H. }
  apply G. reflexivity.
Qed.

(** A waypoint begins at the given position, and without one at the end of the agent's last waypoint; without either the call
    raises. *)
Theorem C88_begin : forall lanes cs st rs c st' wp, calls lanes new_planner cs = (st, rs) -> call_of lanes st c = (st', Some wp) ->
  Some (fst wp) = match c_pos c with Some p => Some p | None => option_map snd (latest (returned_to (c_agent c) cs rs)) end.
Proof.
  intros lanes cs st rs c st' wp H C. destruct (C88_history lanes cs st rs (c_agent c) H) as [_ L]. rewrite <- L.
  unfold call_of in C. rewrite next_core in C. cbv zeta in C. injection C as _ C.
  assert (G : forall vw lane pos vel t v, snd (core lanes vw lane pos vel t v) = Some wp ->
     Some (fst wp) = match pos with Some p => Some p | None => option_map snd (fst vw) end).
  { clear. intros vw lane pos vel t v E. unfold core in E. destruct (match pos with Some _ => _ | None => _ end) as [p |]; [| discriminate].
    destruct (obind _ _) as [[segs [found possible]] |]; [| discriminate].
    destruct (match snd vw with Some _ => _ | None => _ end) as [upd seg]. destruct (obind _ _) as [[s [[l r] th]] |]; [| discriminate].
    destruct (advance _ _ _) as [l' r']. destruct (position s l' r' th); [| discriminate].
    destruct (if Rlt_dec _ _ then _ else _) as [[next dest] |]; [| discriminate]. cbn [snd] in E. injection E as <-. reflexivity. }
  exact (G _ _ _ _ _ _ C).
Qed.

(** ** Straight lanes *)
Lemma advance_spec est l r : 0 <= est -> 0 <= r ->
  let (l', r') := advance est l r in
  r' = Rmax 0 (r - 7 / 10 * est) /\ l <= l' <= l + est /\ (l' - l) * (l' - l) + (r - r') * (r - r') = est * est.
Proof.
  intros He Hr. unfold advance, rate. destruct (Rle_dec (r / (7 / 10)) est) as [H | H].
  - assert (H' : r <= 7 / 10 * est) by lra. split; [rewrite Rmax_left by lra; reflexivity |].
    assert (S : sqrt (est * est - r * r) * sqrt (est * est - r * r) = est * est - r * r) by (apply sqrt_sqrt; nra).
    pose proof (sqrt_pos (est * est - r * r)). split; [split; [lra | nra] |].
    replace (l + sqrt (est * est - r * r) - l) with (sqrt (est * est - r * r)) by ring. rewrite S. ring.
  - assert (H' : 7 / 10 * est < r) by lra. split; [rewrite Rmax_right by lra; reflexivity |].
    set (k := sqrt (1 - 7 / 10 * (7 / 10))). assert (S : k * k = 1 - 7 / 10 * (7 / 10)) by (apply sqrt_sqrt; lra).
    assert (K : 0 <= k) by apply sqrt_pos. assert (K1 : k <= 1) by nra. split; [split; nra |].
    transitivity (est * est * (k * k) + 49 / 100 * (est * est)); [field | rewrite S; field].
Qed.

Lemma single_segment L p l r th : local_coordinates L p = Some (l, r, th) ->
  get_lane_segment [L] p = Some (if is_on l (seg_length L) then (Some 0%nat, [0%nat]) else (None, [])).
Proof. intros C. unfold get_lane_segment. cbn [find_segment]. rewrite C. cbn [obind]. destruct (is_on _ _); reflexivity. Qed.

Lemma single_core lanes lane s e L vw pos p l r th vel t v : s <> e -> straight_lane s e = Some L -> dget word_eqb lane lanes = Some [L] ->
  (match pos with Some p => Some p | None => option_map snd (fst vw) end) = Some p ->
  local_coordinates L p = Some (l, r, th) -> -1 <= l < dist s e ->
  let (l', r') := advance (t * v) l r in
  exists q, position L l' r' th = Some q /\
  core lanes vw lane pos vel t v
  = (match snd vw with None => Some (Some (lane, 0%nat)) | Some _ => None end, if Rlt_dec (dist s e) l' then None else Some (p, q)).
Proof.
  intros N HL HD HP C On. destruct (advance (t * v) l r) as [l' r'] eqn:A.
  destruct (C84_straight_coordinates s e N) as (L' & HL' & Len & _). rewrite HL in HL'. injection HL' as <-.
  destruct (C84_straight_cylinder s e L N HL l' r' th) as (q & Q & _). exists q. split; [exact Q |].
  unfold core. rewrite HP, HD. cbn [obind]. rewrite (single_segment L p l r th C). rewrite Len, (proj2 (is_on_iff l (dist s e)) On). cbn [obind].
  assert (Past : forall l2 r2 t2, dist s e < l' -> local_coordinates L q = Some (l2, r2, t2) -> is_on l2 (dist s e) = false).
  { intros l2 r2 t2 H E. destruct (is_on l2 (dist s e)) eqn:O; [| reflexivity]. apply is_on_iff in O. exfalso.
    destruct (Rle_dec 0 r') as [P | P].
    - destruct (C84_straight_back s e L N HL l' r' th q P Q) as (t3 & E3). rewrite E in E3. injection E3 as -> _ _. lra.
    - unfold advance in A. pose proof (lateral_nonneg _ _ _ _ _ C). destruct (Rle_dec (r / rate) (t * v)); injection A as _ A; [lra |].
      unfold rate in *. assert (t * v < r / (7 / 10)) by lra. lra. }
  assert (Fin : forall upd seg, seg = Some 0%nat ->
    match (do i <- seg; do s0 <- nth_error [L] i; do c <- local_coordinates s0 p; Some (s0, c)) with
    | Some (s0, (l0, r0, th0)) =>
      let (l'0, r'0) := advance (t * v) l0 r0 in
      match position s0 l'0 r'0 th0 with
      | Some q0 =>
        match (if Rlt_dec (seg_length s0) l'0 then
                 do x <- get_lane_segment [L] q0; do a <- choose [L] (snd x) p r0 th0 vel (None, fst x); do j <- snd a;
                 do n <- nth_error [L] j; do q' <- position n 0 r0 th0; Some (Some j, q')
               else Some (None, q0)) with
        | Some (next, dest) => (match next with Some j => Some (Some (lane, j)) | None => upd end, Some (p, dest))
        | None => (upd, None)
        end
      | None => (upd, None)
      end
    | None => (upd, None)
    end = (upd, if Rlt_dec (dist s e) l' then None else Some (p, q))).
  { intros upd seg ->. cbn [obind nth_error]. rewrite C. cbn [obind]. rewrite A, Q, Len. destruct (Rlt_dec (dist s e) l') as [G | G]; [| reflexivity].
    destruct (C84_straight_coordinates s e N) as (L2 & HL2 & _ & Cq). rewrite HL in HL2. injection HL2 as <-.
    destruct (Cq q) as (l2 & r2 & t2 & E2 & _). rewrite (single_segment L q l2 r2 t2 E2), Len, (Past l2 r2 t2 G E2). reflexivity. }
  destruct (snd vw) as [[[ln i] |] |].
  - apply Fin. destruct (word_eqb ln lane); cbn [andb]; [| reflexivity]. cbn [existsb]. destruct (Nat.eqb i 0) eqn:E; [| reflexivity].
    apply Nat.eqb_eq in E. subst. reflexivity.
  - apply Fin. reflexivity.
  - apply (Fin (Some (option_map (pair lane) (Some 0%nat)))). reflexivity.
Qed.

(** On a lane of one straight segment, from a place with coordinates (l, r): the next waypoint is [est = t v] further on, with
    the lateral distance shrunk by 0.7 est, down to 0; it is on the middle of the lane and exactly [est] away when that is
    reached, and up to the rounding of the angle before.  When it would lie past the end of the lane the call raises and
    no waypoint is stored. *)
Theorem C88_straight : forall lanes lane s e L st agent pos p l r th vel t v, s <> e -> straight_lane s e = Some L ->
  dget word_eqb lane lanes = Some [L] ->
  match pos with Some x => x = p | None => exists from, dget word_eqb agent (curr_wp st) = Some (from, p) end ->
  local_coordinates L p = Some (l, r, th) -> -1 <= l < dist s e -> 0 <= t * v ->
  let r' := Rmax 0 (r - 7 / 10 * (t * v)) in
  exists l', l <= l' /\ (l' - l) * (l' - l) + (r - r') * (r - r') = t * v * (t * v)
  /\ (l' <= dist s e -> exists q st', get_next_point lanes st lane agent pos vel t v = (st', Some (p, q))
        /\ (exists th', local_coordinates L q = Some (l', r', th'))
        /\ (r' = 0 -> q = along s e l' /\ dist p q = t * v)
        /\ Rabs (dist p q - t * v) <= Rmax (1 / 1000) (r * (1 / 100000 * (2 + blur (direction s e)))))
  /\ (dist s e < l' -> exists st', get_next_point lanes st lane agent pos vel t v = (st', None) /\ wps st' = wps st /\ curr_wp st' = curr_wp st).
Proof.
  intros lanes lane s e L st agent pos p l r th vel t v N HL HD HP C On Est r'.
  assert (HP' : (match pos with Some x => Some x | None => option_map snd (fst (view st agent)) end) = Some p).
  { destruct pos; [congruence |]. destruct HP as [from HP]. cbn. rewrite HP. reflexivity. }
  pose proof (lateral_nonneg _ _ _ _ _ C) as Hr. pose proof (advance_spec (t * v) l r Est Hr) as A.
  pose proof (single_core lanes lane s e L (view st agent) pos p l r th vel t v N HL HD HP' C On) as K.
  destruct (advance (t * v) l r) as [l' r'']. destruct A as (-> & Hl & Sq). fold r' in Sq, K. destruct K as (q & Q & K).
  assert (Hr' : 0 <= r') by apply Rmax_l.
  exists l'. split; [apply Hl |]. split; [exact Sq |]. rewrite next_core. cbv zeta. rewrite K. cbn [snd]. split; intros G.
  - destruct (Rlt_dec (dist s e) l'); [lra |]. exists q. eexists. split; [reflexivity |].
    destruct (C84_straight_back s e L N HL l' r' th q Hr' Q) as (th' & Cq).
    split; [exists th'; exact Cq |].
    destruct (C84_straight_cylinder s e L N HL l' r' th) as (q0 & Q0 & Mid & _). rewrite Q in Q0. injection Q0 as <-.
    assert (Dq : forall x, position L l r th = Some x -> dist x q = t * v).
    { intros x X. destruct (C84_straight_cylinder s e L N HL l r th) as (x0 & X0 & _ & _ & _ & D). rewrite X in X0. injection X0 as <-.
      specialize (D l' r' th q Q). replace (th - th) with 0 in D by ring. rewrite cos_0 in D.
      assert (dist x q * dist x q = t * v * (t * v)) by (rewrite D, <- Sq; ring).
      pose proof (dist_pos x q). nra. }
    split.
    + intros Z. specialize (Mid Z). split; [exact Mid |]. rewrite Mid.
      destruct (straight_spec s e N) as (d & E & U & _ & _ & D & Al).
      destruct (C84_straight_coordinates s e N) as (L2 & HL2 & _ & Cp). rewrite HL in HL2. injection HL2 as <-.
      destruct (Cp p) as (l2 & r2 & t2 & E2 & R2 & _). rewrite C in E2. injection E2 as <- <- _.
      rewrite E in HL. injection HL as <-.
      assert (Ll : l = dot (vsub p s) d).
      { cbn [local_coordinates] in C. destruct (Req_EM_T _ 0); [injection C as C _ _; auto |].
        destruct (get_theta_by_coor _ _ _ _ _); [| discriminate]. injection C as C _ _. auto. }
      pose proof (axis_dist s d p l' U) as Ax. cbv zeta in Ax. rewrite <- Ll in Ax. rewrite <- !Al, <- R2 in Ax.
      rewrite Z in Sq. assert (dist p (along s e l') * dist p (along s e l') = t * v * (t * v)) by (rewrite Ax, <- Sq; ring).
      pose proof (dist_pos p (along s e l')). nra.
    + destruct (C84_straight_inverse_partial s e L N HL p l r th C) as (x & X & B). specialize (Dq x X).
      eapply Rle_trans; [| exact B]. pose proof (dist_tri p x q) as T1. pose proof (dist_tri x p q) as T2. rewrite (dist_sym p x) in T1.
      rewrite Dq in T1, T2. apply Rabs_le. lra.
  - destruct (Rlt_dec (dist s e) l'); [| lra]. eexists. split; [reflexivity |]. unfold put; cbn [fst snd].
    destruct (snd (view st agent)); split; reflexivity.
Qed.

(** Asking again and again: after [n] calls the lateral distance is the first one less [0.7 n est], down to 0. *)
Theorem C88_converge : forall lanes lane s e L agent vel t v from p l r th, s <> e -> straight_lane s e = Some L ->
  dget word_eqb lane lanes = Some [L] -> 0 < t * v -> local_coordinates L p = Some (l, r, th) -> -1 <= l ->
  forall n st, dget word_eqb agent (curr_wp st) = Some (from, p) -> l + INR n * (t * v) <= dist s e -> (0 < n)%nat ->
  exists st' rs from' q ln th', calls lanes st (repeat (mk_call lane agent None vel t v) n) = (st', rs)
  /\ Forall (fun x => x <> None) rs /\ dget word_eqb agent (curr_wp st') = Some (from', q)
  /\ local_coordinates L q = Some (ln, Rmax 0 (r - INR n * (7 / 10 * (t * v))), th') /\ l <= ln <= l + INR n * (t * v).
Proof.
  intros lanes lane s e L agent vel t v from p l r th N HL HD Hest C Hl n st HW Hn Pn. revert from p l r th C Hl st HW Hn Pn.
  induction n as [| n IH]; intros from p l r th C Hl st HW Hn Pn; [lia |].
  pose proof (pos_INR n) as Pin. rewrite S_INR in Hn. assert (0 <= INR n * (t * v)) as Pnt by (apply Rmult_le_pos; lra).
  pose proof (lateral_nonneg _ _ _ _ _ C) as Hr.
  destruct (C88_straight lanes lane s e L st agent None p l r th vel t v N HL HD (ex_intro _ from HW) C ltac:(nra) ltac:(lra)) as (l' & L1 & Sq & K & _).
  set (r' := Rmax 0 (r - 7 / 10 * (t * v))) in *. assert (L2 : l' <= l + t * v).
  { pose proof (Rle_0_sqr (r - r')) as Q. unfold Rsqr in Q. nra. }
  destruct K as (q & st1 & E & (th' & Cq) & _ & _); [nra |].
  assert (W1 : dget word_eqb agent (curr_wp st1) = Some (p, q)).
  { rewrite next_core in E. cbv zeta in E. injection E as <- E2. rewrite <- E2. apply (f_equal fst (view_put st agent _)) || idtac.
    pose proof (view_put st agent (core lanes (view st agent) lane None vel t v)) as Vp. apply (f_equal fst) in Vp. cbn [fst] in Vp.
    unfold view in Vp at 1. cbn [fst] in Vp. rewrite Vp. rewrite E2. reflexivity. }
  cbn [repeat calls]. unfold call_of at 1. cbn [c_lane c_agent c_pos c_velocity c_t c_v]. rewrite E.
  destruct n as [| n].
  - cbn [repeat calls]. exists st1, [Some (p, q)], p, q, l', th'. split; [reflexivity |]. split; [constructor; [discriminate | constructor] |].
    split; [exact W1 |]. rewrite S_INR. cbn [INR]. rewrite Cq. unfold r'. split; [do 3 f_equal; f_equal; ring | lra].
  - destruct (IH p q l' r' th' Cq ltac:(lra) st1 W1 ltac:(lra) ltac:(lia)) as (st' & rs & from' & q' & ln & th2 & E' & F & W' & Cn & Ln).
    rewrite E'. exists st', (Some (p, q) :: rs), from', q', ln, th2. split; [reflexivity |]. split; [constructor; [discriminate | exact F] |].
    split; [exact W' |]. rewrite Cn. rewrite (S_INR (S n)). split; [| lra]. do 3 f_equal. unfold r'.
    assert (0 <= INR (S n) * (7 / 10 * (t * v))) by (apply Rmult_le_pos; lra).
    unfold Rmax. repeat destruct (Rle_dec _ _); lra.
Qed.

(** ** Lanes of several segments *)

(** The segment a call works with: the one remembered for the agent when it is one of this lane and the place is beside it, and
    the first of the closest ones otherwise. *)
Definition used (segs : list segment) (st : planner) (lane agent : word) (p : v3) (i : nat) : Prop :=
  (dget word_eqb agent (curr_seg st) = Some (Some (lane, i)) /\ exists r, beside segs p i r)
  \/ ((forall j r, dget word_eqb agent (curr_seg st) = Some (Some (lane, j)) -> ~ beside segs p j r)
      /\ exists m, beside segs p i m /\ forall j r, beside segs p j r -> m <= r /\ ((j < i)%nat -> m < r)).
(** How well the way from [p] to [q] agrees with the velocity. *)
Definition agrees (p q velocity : v3) : R :=
  vx (direction p q) * vx velocity + vy (direction p q) * vy velocity + vz (direction p q) * vz velocity.

Lemma lane_kept lane p i poss : get_lane_segment lane p = Some (i, poss) ->
  exists best, i = option_map fst best /\ kept lane p (length lane) best poss.
Proof.
  unfold get_lane_segment. destruct (find_segment lane 0 None [] p) as [[best poss'] |] eqn:F; [| discriminate]. cbn [obind fst snd].
  intros [= <- <-]. exists best. split; [destruct best as [[? ?] |]; reflexivity |]. refine (find_kept p lane lane [] None [] eq_refl _ best poss' F).
  split; [| split; [reflexivity | intros; cbn in *; lia]]. intros j. split; [intros [] | intros [H _]; cbn in H; lia].
Qed.
Lemma beside_lt lane p j r : beside lane p j r -> (j < length lane)%nat.
Proof. intros (s & l & t & A & _). apply nth_error_Some. congruence. Qed.

Lemma unit_direction p q : q <> p -> unit (vsub q p) = Some (direction p q).
Proof.
  intros N. unfold unit. rewrite <- (dist_norm q p). destruct (Req_EM_T (dist q p) 0) as [E | E].
  - exfalso. apply N. rewrite dist_norm in E. apply vnorm_zero in E. destruct p, q. unfold vsub in E; cbn in E. injection E as A B C. f_equal; lra.
  - f_equal. unfold direction. apply v3_ext; cbn; field; exact E.
Qed.
Lemma unit_same p : unit (vsub p p) = None.
Proof.
  unfold unit. destruct (Req_EM_T _ 0) as [E | E]; [reflexivity |]. exfalso. apply E. rewrite <- dist_norm.
  unfold dist. rewrite <- sqrt_0. f_equal. ring.
Qed.
Lemma v3_dec (p q : v3) : p = q \/ p <> q.
Proof.
  destruct p as [a b c], q as [x y z]. destruct (Req_EM_T a x); [| right; congruence]. destruct (Req_EM_T b y); [| right; congruence].
  destruct (Req_EM_T c z); [left | right]; congruence.
Qed.

Lemma choose_spec segs p r th vel : forall cands acc acc', choose segs cands p r th vel acc = Some acc' ->
  (acc' = acc \/ exists i s q, In i cands /\ nth_error segs i = Some s /\ position s 0 r th = Some q /\ q <> p /\ acc' = (Some (agrees p q vel), Some i))
  /\ (forall m, fst acc = Some m -> exists m', fst acc' = Some m' /\ m <= m')
  /\ (forall i s q, In i cands -> nth_error segs i = Some s -> position s 0 r th = Some q -> q <> p -> exists m, fst acc' = Some m /\ agrees p q vel <= m).
Proof.
  induction cands as [| i cands IH]; intros acc acc' E; cbn [choose] in E.
  - injection E as <-. split; [auto |]. split; [intros m H; exists m; split; [exact H | lra] | intros i s q []].
  - destruct (nth_error segs i) as [s |] eqn:Hs; [| discriminate]. cbn [obind] in E. destruct (position s 0 r th) as [q |] eqn:Hq; [| discriminate].
    cbn [obind] in E. set (a1 := match unit (vsub q p) with Some _ => _ | None => _ end) in E.
    destruct (IH a1 acc' E) as (I1 & I2 & I3). clear IH.
    assert (A : (q = p /\ a1 = acc) \/ (q <> p /\ (a1 = (Some (agrees p q vel), Some i) /\ (forall m, fst acc = Some m -> m <= agrees p q vel)
                \/ a1 = acc /\ exists m, fst acc = Some m /\ agrees p q vel <= m))).
    { unfold a1. destruct (v3_dec q p) as [-> | N].
      - rewrite unit_same. auto.
      - rewrite (unit_direction p q N). right. split; [exact N |]. change (dot (direction p q) vel) with (agrees p q vel).
        destruct acc as [[m |] x]; cbn [fst snd].
        + destruct (Rlt_dec m (agrees p q vel)) as [G | G]; [left; split; [reflexivity |]; intros m' [= <-]; lra | right; split; [reflexivity |]; exists m; split; [reflexivity | lra]].
        + left. split; [reflexivity | intros; discriminate]. }
    clearbody a1. split; [| split].
    + destruct I1 as [-> | (j & s' & q' & H & R)]; [| right; exists j, s', q'; split; [right; exact H | exact R]].
      destruct A as [[_ ->] | [N [[-> _] | [-> _]]]]; [left; reflexivity | | left; reflexivity].
      right. exists i, s, q. repeat split; auto. left; reflexivity.
    + intros m H. destruct A as [[_ ->] | [N [[-> Le] | [-> _]]]]; [exact (I2 m H) | | exact (I2 m H)].
      destruct (I2 _ eq_refl) as (m' & F & G). exists m'. split; [exact F |]. specialize (Le m H). lra.
    + intros j s' q' [<- | H] Es Eq Nq; [| exact (I3 j s' q' H Es Eq Nq)].
      assert (q' = q) as -> by congruence. destruct A as [[-> _] | [N [[-> Le] | [-> (m & Hm & Le)]]]]; [congruence | |].
      * exact (I2 _ eq_refl).
      * destruct (I2 m Hm) as (m' & F & G). exists m'. split; [exact F | lra].
Qed.

(** A waypoint within the segment is at the new coordinates on it.  When the new longitudinal coordinate is past the end of the
    segment, the waypoint leads to the beginning of a segment beside the place reached, and no other such segment begins in a
    direction agreeing more with the velocity; that segment is remembered. *)
Theorem C88_turn : forall lanes lane segs st agent pos p i s l r th vel t v st' wp l',
  dget word_eqb lane lanes = Some segs ->
  match pos with Some x => x = p | None => exists from, dget word_eqb agent (curr_wp st) = Some (from, p) end ->
  used segs st lane agent p i -> nth_error segs i = Some s -> local_coordinates s p = Some (l, r, th) -> 0 <= t * v ->
  let r' := Rmax 0 (r - 7 / 10 * (t * v)) in
  l <= l' -> (l' - l) * (l' - l) + (r - r') * (r - r') = t * v * (t * v) ->
  get_next_point lanes st lane agent pos vel t v = (st', Some wp) ->
  fst wp = p
  /\ (l' <= seg_length s -> position s l' r' th = Some (snd wp))
  /\ (seg_length s < l' -> exists beyond j n, position s l' r' th = Some beyond
        /\ (exists d, beside segs beyond j d) /\ nth_error segs j = Some n /\ position n 0 r th = Some (snd wp)
        /\ dget word_eqb agent (curr_seg st') = Some (Some (lane, j))
        /\ forall k x q, (exists d, beside segs beyond k d) -> nth_error segs k = Some x -> position x 0 r th = Some q -> q <> p ->
             snd wp <> p /\ agrees p q vel <= agrees p (snd wp) vel).
Proof.
  intros lanes lane segs st agent pos p i s l r th vel t v st' wp l' HD HP HU Hs C Est r' Hl Sq E.
  assert (HP' : (match pos with Some x => Some x | None => option_map snd (fst (view st agent)) end) = Some p).
  { destruct pos; [congruence |]. destruct HP as [from HP]. cbn. rewrite HP. reflexivity. }
  pose proof (lateral_nonneg _ _ _ _ _ C) as Hr.
  assert (A : advance (t * v) l r = (l', r')).
  { pose proof (advance_spec (t * v) l r Est Hr) as A. destruct (advance (t * v) l r) as [l2 r2]. destruct A as (A1 & A2 & A3).
    fold r' in A1. subst r2. f_equal. nra. }
  rewrite next_core in E. cbv zeta in E. set (u := core _ _ _ _ _ _ _) in E. injection E as Est' Ewp.
  assert (Cu : snd (view st' agent) = match fst u with Some x => Some x | None => snd (view st agent) end) by (rewrite <- Est', view_put; reflexivity).
  cbn [view snd] in Cu. unfold u, core in Ewp, Cu. clearbody u. clear Est'. rewrite HP', HD in Ewp, Cu. cbn [obind] in Ewp, Cu.
  destruct (get_lane_segment segs p) as [[found possible] |] eqn:G; [| discriminate Ewp]. cbn [obind] in Ewp, Cu.
  destruct (lane_kept segs p found possible G) as (best & Hb & K1 & K2 & _).
  set (sel := match snd (view st agent) with Some _ => _ | None => _ end) in Ewp, Cu.
  assert (Sel : snd sel = Some i).
  { assert (Close : forall m, beside segs p i m -> (forall j r, beside segs p j r -> m <= r /\ ((j < i)%nat -> m < r)) -> found = Some i).
    { intros m Bi Ki. destruct best as [[b mb] |].
      - destruct K2 as (Bb & Hbl & Kb). cbn in Hb. rewrite Hb. f_equal.
        destruct (Kb i m (beside_lt _ _ _ _ Bi) Bi) as [X1 X2]. destruct (Ki b mb Bb) as [Y1 Y2].
        destruct (Nat.lt_trichotomy b i) as [H | [H | H]]; [specialize (Y2 H); lra | exact H | specialize (X2 H); lra].
      - exfalso. assert (In i possible) as X by (apply K1; split; [apply (beside_lt _ _ _ _ Bi) | eauto]). rewrite K2 in X. destruct X. }
    unfold sel. cbn [view snd]. destruct HU as [[U1 [rr U2]] | [U1 (m & U2 & U3)]].
    - rewrite U1. cbn [snd]. rewrite (proj2 (word_eqb_iff lane lane) eq_refl). cbn [andb].
      assert (existsb (Nat.eqb i) possible = true) as ->; [| reflexivity].
      apply existsb_exists. exists i. split; [apply K1; split; [apply (beside_lt _ _ _ _ U2) | eauto] | apply Nat.eqb_refl].
    - specialize (Close m U2 U3). destruct (dget word_eqb agent (curr_seg st)) as [[[ln j] |] |]; cbn [snd]; [| exact Close | exact Close].
      destruct (word_eqb ln lane) eqn:W; cbn [andb]; [| exact Close]. apply word_eqb_iff in W. subst ln.
      destruct (existsb (Nat.eqb j) possible) eqn:X; [| exact Close]. exfalso.
      apply existsb_exists in X. destruct X as (j' & X1 & X2). apply Nat.eqb_eq in X2. subst j'. apply K1 in X1. destruct X1 as (_ & rr & X1).
      exact (U1 j rr eq_refl X1). }
  destruct sel as [upd seg]. cbn [snd] in Sel. subst seg. cbn [obind] in Ewp, Cu. rewrite Hs in Ewp, Cu. cbn [obind] in Ewp, Cu.
  rewrite C in Ewp, Cu. cbn [obind] in Ewp, Cu. rewrite A in Ewp, Cu. destruct (position s l' r' th) as [q |]; [| discriminate Ewp].
  destruct (Rlt_dec (seg_length s) l') as [B | B].
  2:{ cbn [snd] in Ewp. injection Ewp as <-. split; [reflexivity |]. split; [reflexivity | intros; lra]. }
  destruct (get_lane_segment segs q) as [[fq pq] |] eqn:Gq; [| discriminate Ewp]. cbn [obind fst snd] in Ewp, Cu.
  destruct (choose segs pq p r th vel (None, fq)) as [[m o] |] eqn:Ch; [| discriminate Ewp]. cbn [obind fst snd] in Ewp, Cu.
  destruct o as [j |]; [| discriminate Ewp]. cbn [obind fst snd] in Ewp, Cu. destruct (nth_error segs j) as [n |] eqn:Hn; [| discriminate Ewp].
  cbn [obind fst snd] in Ewp, Cu. destruct (position n 0 r th) as [q' |] eqn:Hq'; [| discriminate Ewp]. cbn [obind fst snd] in Ewp, Cu.
  injection Ewp as <-. cbn [fst snd]. split; [reflexivity |]. split; [intros; lra |]. intros _.
  exists q, j, n. split; [reflexivity |].
  destruct (lane_kept segs q fq pq Gq) as (bestq & Hbq & Q1 & Q2 & _). destruct (choose_spec segs p r th vel pq (None, fq) (m, Some j) Ch) as (D1 & _ & D3).
  split.
  { destruct D1 as [D1 | (k & x & y & Ik & _ & _ & _ & D1)].
    - injection D1 as _ D1. destruct bestq as [[b mb] |]; cbn in Hbq; [| congruence]. destruct Q2 as (Q2 & _). exists mb.
      assert (j = b) as -> by congruence. exact Q2.
    - injection D1 as _ D1. subst k. apply Q1 in Ik. apply Ik. }
  split; [exact Hn |]. split; [exact Hq' |]. split; [exact Cu |].
  intros k x y (d & Bk) Hk Py Ny. destruct (D3 k x y (proj2 (Q1 k) (conj (beside_lt _ _ _ _ Bk) (ex_intro _ d Bk))) Hk Py Ny) as (m' & Em & Le).
  cbn [fst] in Em. subst m. destruct D1 as [D1 | (k2 & x2 & y2 & _ & Hx2 & Py2 & Ny2 & D1)]; [discriminate D1 |].
  injection D1 as D1 D2. subst k2. assert (y2 = q') as -> by congruence. subst m'. split; [exact Ny2 | exact Le].
Qed.

Module Example_waypoint.
  (** A lane of two segments in line, 10 and 20 metres long. *)
  Definition lane := [Straight (V 0 0 0) (V 10 0 0) (V 1 0 0) 10; Straight (V 10 0 0) (V 30 0 0) (V 1 0 0) 20].
  Definition lanes : dict word (list segment) := [(w "T0", lane); (w "T1", [Straight (V 0 0 0) (V 10 0 0) (V 1 0 0) 10])].
  Lemma local start len x : local_coordinates (Straight (V start 0 0) (V (start + len) 0 0) (V 1 0 0) len) (V x 0 0) = Some (x - start, 0, 0).
  Proof.
    cbn [local_coordinates]. replace (cross (V 1 0 0) (vsub (V x 0 0) (V start 0 0))) with (V 0 0 0) by (vecs; ring).
    assert (vnorm (V 0 0 0) = 0) as -> by (apply vnorm_eq; [lra | unfold dot; cbn; ring]). 
    assert (pyround 0 3 = 0) as -> by (apply pyround_0). destruct (Req_EM_T 0 0); [| lra]. do 3 f_equal. unfold dot; cbn; ring.
  Qed.
  Lemma pos start len x th : position (Straight (V start 0 0) (V (start + len) 0 0) (V 1 0 0) len) x 0 th = Some (V (start + x) 0 0).
  Proof. cbn [position]. unfold get_coor_by_rt. f_equal. set (k := vadd (vscale (cos th) _) _). vecs; ring. Qed.
  Lemma lane_is : lane = [Straight (V 0 0 0) (V (0 + 10) 0 0) (V 1 0 0) 10; Straight (V 10 0 0) (V (10 + 20) 0 0) (V 1 0 0) 20].
  Proof. unfold lane. replace (0 + 10) with 10 by ring. replace (10 + 20) with 30 by ring. reflexivity. Qed.
  Lemma nth0 : nth_error lane 0 = Some (Straight (V 0 0 0) (V (0 + 10) 0 0) (V 1 0 0) 10). Proof. rewrite lane_is. reflexivity. Qed.
  Lemma nth1 : nth_error lane 1 = Some (Straight (V 10 0 0) (V (10 + 20) 0 0) (V 1 0 0) 20). Proof. rewrite lane_is. reflexivity. Qed.
  Lemma on_lane x : get_lane_segment lane (V x 0 0)
    = Some (if is_on x 10 then (if is_on (x - 10) 20 then (Some 0, [0; 1]) else (Some 0, [0]))%nat
            else (if is_on (x - 10) 20 then (Some 1, [1]) else (None, []))%nat).
  Proof.
    rewrite lane_is. unfold get_lane_segment. cbn [find_segment]. rewrite !local. replace (x - 0) with x by ring. cbn [obind seg_length].
    destruct (is_on x 10); destruct (is_on (x - 10) 20); cbn; try reflexivity. destruct (Rlt_dec 0 0); [lra | reflexivity].
  Qed.
  (** From 8 metres, 4 metres further: the waypoint goes to the beginning of the second segment, which is remembered. *)
  Example past_end : exists st', get_next_point lanes new_planner (w "T0") (w "drone") (Some (V 8 0 0)) (V 1 0 0) 2 2 = (st', Some (V 8 0 0, V 10 0 0))
    /\ dget word_eqb (w "drone") (curr_seg st') = Some (Some (w "T0", 1%nat)).
  Proof.
    eexists. unfold get_next_point. change (dget word_eqb (w "T0") lanes) with (Some lane). cbn [obind].
    assert (On : forall a b, -1 <= a < b -> is_on a b = true) by (intros; apply is_on_iff; assumption).
    assert (Off : forall a b, ~ (-1 <= a < b) -> is_on a b = false).
    { intros a b H. destruct (is_on a b) eqn:E; [apply is_on_iff in E; tauto | reflexivity]. }
    rewrite (on_lane 8), On, (Off (8 - 10) 20) by lra. cbn [obind].
    change (dget word_eqb (w "drone") (curr_seg new_planner)) with (@None (option (word * nat))). cbv iota.
    cbn [option_map obind]. rewrite nth0. cbn [obind]. rewrite local. cbn [obind].
    unfold advance, rate. destruct (Rle_dec (0 / (7 / 10)) (2 * 2)); [| lra].
    replace (8 - 0 + sqrt (2 * 2 * (2 * 2) - 0 * 0)) with 12 by (replace (2 * 2 * (2 * 2) - 0 * 0) with (4 * 4) by ring; rewrite sqrt_square; lra).
    rewrite pos. cbn [seg_length]. destruct (Rlt_dec 10 12); [| lra]. replace (0 + 12) with 12 by ring.
    rewrite (on_lane 12), Off, On by lra. cbn [obind fst snd choose]. rewrite nth1. cbn [obind]. rewrite pos. cbn [obind].
    replace (10 + 0) with 10 by ring. rewrite unit_direction by (intros X; injection X; lra). cbn [obind fst snd]. rewrite nth1. cbn [obind]. rewrite pos. cbn [obind].
    replace (10 + 0) with 10 by ring. split; reflexivity.
  Qed.
  (** A place 3 metres beside the lane of one segment, for [C88_straight] and [C88_converge]. *)
  Example beside_lane : exists L p th, straight_lane (V 0 0 0) (V 10 0 0) = Some L /\ dget word_eqb (w "T1") lanes = Some [L]
    /\ local_coordinates L p = Some (5, 3, th) /\ dist (V 0 0 0) (V 10 0 0) = 10.
  Proof.
    assert (D : dist (V 0 0 0) (V 10 0 0) = 10) by (apply dist_eq; [lra | unfold dot; cbn; ring]).
    assert (N : V 0 0 0 <> V 10 0 0) by (intros X; injection X; lra).
    destruct (straight_spec _ _ N) as (d & E & _ & _ & _ & Dd & _).
    assert (L : straight_lane (V 0 0 0) (V 10 0 0) = Some (Straight (V 0 0 0) (V 10 0 0) (V 1 0 0) 10)).
    { rewrite E, dist_sym, D. do 2 f_equal. rewrite <- Dd. unfold direction. rewrite dist_sym, D. apply v3_ext; cbn; field. }
    destruct (C84_straight_cylinder _ _ _ N L 5 3 0) as (p & P & _). destruct (C84_straight_back _ _ _ N L 5 3 0 p ltac:(lra) P) as (th & T).
    eexists. exists p, th. split; [exact L |]. split; [reflexivity |]. split; [exact T | exact D].
  Qed.
  (** The segment used there is the first one. *)
  Example first_segment : used lane new_planner (w "T0") (w "drone") (V 8 0 0) 0.
  Proof.
    right. split; [intros j r H; discriminate H |]. exists 0. split.
    - rewrite lane_is. eexists _, _, _. split; [reflexivity |]. split; [rewrite local; reflexivity |]. cbn. lra.
    - intros j r H. split; [| intros; lia]. destruct H as (s & l & t & _ & C & _). exact (lateral_nonneg _ _ _ _ _ C).
  Qed.
  Example asked : check_guard_box (mk_planner [(w "drone", (V 8 0 0, V 10 0 0))] [] []) (w "drone") [9; 0; 0] [2; 2; 2] = Some true.
  Proof.
    destruct (C88_guard (mk_planner [(w "drone", (V 8 0 0, V 10 0 0))] [] []) (w "drone") (V 8 0 0) (V 10 0 0) 9 0 0 [] 2 2 2 [] eq_refl) as (a & E & I).
    rewrite E. f_equal. apply I. cbn. rewrite Rabs_left by lra. rewrite !Rminus_0_r, Rabs_R0. lra.
  Qed.
End Example_waypoint.

Print Assumptions C88_guard.
Print Assumptions C88_history.
Print Assumptions C88_independent.
Print Assumptions C88_begin.
Print Assumptions C88_straight.
Print Assumptions C88_converge.
Print Assumptions C88_turn.
