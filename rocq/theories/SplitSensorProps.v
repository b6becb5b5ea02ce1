(** Split sensor analysis: property theorems. *)
From Coq Require Import Ascii String.
From Coq Require Import QArith.Qminmax Reals Qreals Lra.
From Verif Require Import Base BaseFacts PyText Dict Angle ParseArray ParseArraySpec ParseArrayProofs SplitSensor SplitSensorSpec SplitSensorProofs ScanProofs.
Set Implicit Arguments.
Open Scope nat_scope.

Lemma same_converted f32 bs bs' vs : respects f32 -> same_intervals bs bs' -> in_box vs (converted f32 bs) -> in_box vs (converted f32 bs').
Proof.
  intros RS S. revert vs. induction S as [| b b' bs bs' [E1 E2] S IH]; intros vs B; cbn [converted map] in *; [exact B |].
  inversion B as [| v c vs' cs Hv B']; subst. constructor; [| apply IH; exact B']. cbn [fst snd] in *. rewrite <- (Qeq_eqR _ _ (RS _ _ E1)), <- (Qeq_eqR _ _ (RS _ _ E2)). exact Hv.
Qed.

(** Over any history of requests from an empty cache, every answer contains the outputs for every input in the box, as far as
    the converted bounds reach. *)
Theorem C91_cover : forall F (run : F -> list R -> list R) crown f32 K keqb (key : list (Q * Q) -> word -> nat -> K) rs,
  sound_crown run crown -> respects f32 -> (forall a b, keqb a b = true <-> a = b) -> tells_apart key -> names_differ rs ->
  (forall r code bs n, In r rs -> about r code bs n -> 0 < n) ->
  forall i r code bs n vs, nth_error rs i = Some r -> about r code bs n -> in_box vs (converted f32 bs) ->
  exists b, nth_error (snd (serve_all f32 crown keqb key [] rs)) i = Some (Some (Some b)) /\ inside (run code vs) b.
Proof.
  intros F run crown f32 K keqb key rs SC RS EQ TA ND POS i r code bs n vs Er Ab B.
  destruct r as [fn bs' n' | code' bs' n' |]; cbn [about] in Ab; [| | contradiction]; destruct Ab as [Ec [-> ->]].
  - set (good := fun (k : K) (a : answer) => forall fn bs n vs, In (Ask fn bs n) rs -> key bs (sensor_name fn) n = k -> in_box vs (converted f32 bs) ->
      exists b, a = Some b /\ inside (run (sensor_code fn) vs) b).
    destruct (@serve_all_good F f32 crown K keqb EQ key good rs []) with (i := i) (fn := fn) (bs := bs) (n := n) as [a [E1 E2]].
    + intros k x Hx. discriminate Hx.
    + intros f0 b0 n0 H0 f1 b1 n1 v1 H1 Ek B1. apply TA in Ek as [S [Ex ->]].
      rewrite (ND f1 f0 (ex_intro _ b1 (ex_intro _ n0 H1)) (ex_intro _ b0 (ex_intro _ n0 H0)) Ex).
      apply (@bound_covers F f32 crown run SC RS); [apply (POS _ (sensor_code f0) b0 n0 H0); cbn; auto | apply (same_converted RS S B1)].
    + exact Er.
    + destruct (E2 fn bs n vs (nth_error_In _ _ Er) eq_refl B) as [b [-> Hb]]. exists b. split; [exact E1 | rewrite <- Ec; exact Hb].
  - subst code'. rewrite (@serve_all_expr F f32 crown K keqb key rs [] i code bs n Er).
    destruct (@bound_covers F f32 crown run SC RS code bs n vs) as [b [E Hb]]; [apply (POS _ code bs n (nth_error_In _ _ Er)); cbn; auto | exact B |].
    exists b. rewrite E. auto.
Qed.

(** So for bounds that the conversion leaves alone, the whole box is covered. *)
Theorem C91_representable : forall F (run : F -> list R -> list R) crown f32 K keqb (key : list (Q * Q) -> word -> nat -> K) rs,
  sound_crown run crown -> respects f32 -> (forall a b, keqb a b = true <-> a = b) -> tells_apart key -> names_differ rs ->
  (forall r code bs n, In r rs -> about r code bs n -> 0 < n) ->
  forall i r code bs n vs, nth_error rs i = Some r -> about r code bs n -> (forall b, In b bs -> f32 (fst b) == fst b /\ f32 (snd b) == snd b)%Q -> in_box vs bs ->
  exists b, nth_error (snd (serve_all f32 crown keqb key [] rs)) i = Some (Some (Some b)) /\ inside (run code vs) b.
Proof.
  intros F run crown f32 K keqb key rs SC RS EQ TA ND POS i r code bs n vs Er Ab REP B. eapply C91_cover; try eassumption.
  clear - REP B. revert vs B. induction bs as [| b bs IH]; intros vs B; inversion B as [| v c vs' cs Hv B']; subst; [constructor |].
  constructor; [| apply IH; [intros b' H'; apply REP; right; exact H' | exact B']]. destruct (REP b (or_introl eq_refl)) as [E1 E2]. cbn [fst snd].
  rewrite (Qeq_eqR _ _ E1), (Qeq_eqR _ _ E2). exact Hv.
Qed.

(** Nothing is added: every bound is the bound of one of the pieces. *)
Theorem C91_tight : forall F (run : F -> list R -> list R) crown f32 code bs n, sound_crown run crown -> 0 < n ->
  exists lb ub, parsed_sensor_expr f32 crown code bs n = Some (lb, ub) /\ length ub = length lb
    /\ forall j, j < length lb -> (exists p, is_piece n bs p /\ (nth j lb 0 == nth j (fst (crown code (converted f32 p))) 0)%Q)
                              /\ exists p, is_piece n bs p /\ (nth j ub 0 == nth j (snd (crown code (converted f32 p))) 0)%Q.
Proof.
  intros F run crown f32 code bs n SC Hn. destruct (@bound_hull F f32 crown run SC code bs n Hn) as [m [[lb ub] [_ [E [[S1 S2] [_ H]]]]]]. cbn [fst snd] in *.
  exists lb, ub. split; [exact E |]. split; [congruence |].
  assert (PP : forall p, In p (product (map (parts n) bs)) -> is_piece n bs p).
  { intros p Hp. apply In_product in Hp. unfold is_piece. revert p Hp. clear - Hn. induction bs as [| b bs IH]; intros p Hp; inversion Hp as [| c ls p' ls' Hc Hp']; subst; constructor.
    - apply part_point; assumption.
    - apply IH. exact Hp'. }
  intros j Hj. rewrite S1 in Hj. destruct (H j Hj) as [[r1 [I1 E1]] [r2 [I2 E2]]]. apply in_map_iff in I1 as [p1 [<- P1]]. apply in_map_iff in I2 as [p2 [<- P2]].
  split; [exists p1 | exists p2]; (split; [apply PP; assumption | assumption]).
Qed.

(** An answer is repeated until the cache is cleared, whatever is asked in between, even for another function of that name;
    after clearing it is computed anew. *)
Theorem C91_stable : forall F crown f32 K keqb (key : list (Q * Q) -> word -> nat -> K) (st : cache K) (fn fn' : sensor F) bs n rs,
  (forall a b, keqb a b = true <-> a = b) -> sensor_name fn' = sensor_name fn -> ~ In (ClearCache F) rs ->
  let (st1, a) := parsed_sensor f32 crown keqb key st fn bs n in
  let st2 := fst (serve_all f32 crown keqb key st1 rs) in
  parsed_sensor f32 crown keqb key st2 fn' bs n = (st2, a)
  /\ snd (parsed_sensor f32 crown keqb key (clear_sensor_cache st2) fn' bs n) = parsed_sensor_expr f32 crown (sensor_code fn') bs n.
Proof.
  intros F crown f32 K keqb key st fn fn' bs n rs EQ EN NC. destruct (parsed_sensor f32 crown keqb key st fn bs n) as [st1 a] eqn:E. split; [| reflexivity].
  assert (S : dget keqb (key bs (sensor_name fn) n) st1 = Some a).
  { unfold parsed_sensor in E. destruct (dget keqb (key bs (sensor_name fn) n) st) as [r |] eqn:G.
    - injection E as <- <-. exact G.
    - injection E as <- <-. unfold dset. apply dget_alter_same. exact EQ. }
  unfold parsed_sensor. rewrite EN. rewrite (@serve_all_keeps F f32 crown K keqb EQ key rs st1 _ a NC S). reflexivity.
Qed.

(** Without splits there are no bounds, unless every coordinate is a point. *)
Theorem C91_zero : forall F crown f32 (code : F) bs b, In b bs -> ~ (fst b == snd b)%Q -> parsed_sensor_expr f32 crown code bs 0 = None.
Proof.
  intros F crown f32 code bs b Hb NE. unfold parsed_sensor_expr, bound_pieces. enough (E : product (map (parts 0) bs) = []) by (rewrite E; reflexivity).
  assert (P : parts 0 b = []).
  { unfold parts. destruct (Qeq_bool (fst b) (snd b)) eqn:E; [exfalso; apply NE; apply Qeq_bool_iff; exact E | reflexivity]. }
  induction bs as [| c bs IH]; [destruct Hb |]. cbn [map product]. destruct Hb as [-> | Hb]; [rewrite P; reflexivity |]. rewrite (IH Hb).
  generalize (parts 0 c). intros l. induction l; [reflexivity | exact IHl].
Qed.

(** The sensor [x] (code [true]) or [x + 1] (code [false]), with exact bounds. *)
Definition shift (code : bool) : Q := if code then 0%Q else 1%Q.
Definition run_shift (code : bool) (vs : list R) : list R := [(nth 0 vs 0 + Q2R (shift code))%R].
Definition crown_shift (code : bool) (box : list (Q * Q)) : vec * vec :=
  ([(fst (nth 0 box (0, 0)) + shift code)%Q], [(snd (nth 0 box (0, 0)) + shift code)%Q]).
Lemma sound_shift : sound_crown run_shift crown_shift.
Proof.
  split; [| intros code; exists 1; intros box; split; reflexivity]. intros code box vs B. unfold run_shift, crown_shift. split; [reflexivity |]. split; [reflexivity |].
  intros j Hj. assert (j = 0) by (cbn in Hj; lia). subst j. cbn [nth fst snd]. rewrite !Q2R_plus.
  destruct B as [| v b vs bs Hv B]; cbn [nth fst snd]; lra.
Qed.

(** The file name does not depend on the code: a function gets the bounds of another one of its name. *)
Theorem C91_names_refuted : forall K keqb (key : list (Q * Q) -> word -> nat -> K) (name : word), (forall a b, keqb a b = true <-> a = b) ->
  exists b, nth_error (snd (serve_all (fun q => q) crown_shift keqb key [] [Ask (Sensor name true) [(0, 1)]%Q 1; Ask (Sensor name false) [(0, 1)]%Q 1])) 1 = Some (Some (Some b))
    /\ in_box [1%R] [(0, 1)]%Q /\ ~ inside (run_shift false [1%R]) b.
Proof.
  intros K keqb key name EQ. cbn [serve_all serve]. unfold parsed_sensor at 1. cbn [dget]. unfold parsed_sensor. cbn [sensor_name dset dalter dget].
  rewrite (proj2 (EQ _ _) eq_refl). eexists. split; [reflexivity |]. split.
  - constructor; [| constructor]. cbn [fst snd]. rewrite RMicromega.Q2R_0, RMicromega.Q2R_1. lra.
  - intros [_ [_ H]]. specialize (H 0 ltac:(cbn; lia)). cbn [run_shift nth fst snd shift] in H. destruct H as [_ H]. revert H. apply Rlt_not_le.
    replace (1 + Q2R 1)%R with (Q2R 2) by (unfold Q2R; cbn; lra). apply Qlt_Rlt. vm_compute. reflexivity.
Qed.

(** Bounds are converted to 32 bits: when the conversion raises the lower bound, inputs below the raised one are not covered. *)
Theorem C91_rounding_refuted : forall f32 lo hi, respects f32 -> ~ (lo == hi)%Q -> (lo < f32 lo)%Q ->
  exists b, parsed_sensor_expr f32 crown_shift true [(lo, hi)] 1 = Some b /\ ~ inside (run_shift true [Q2R lo]) b.
Proof.
  intros f32 lo hi RS NE L. unfold parsed_sensor_expr, bound_pieces. cbn [map]. unfold parts at 1. cbn [fst snd].
  destruct (Qeq_bool lo hi) eqn:E; [exfalso; apply NE; apply Qeq_bool_iff; exact E |]. cbn [seq map product flat_map app fold_left update].
  eexists. split; [reflexivity |]. intros [_ [_ H]]. specialize (H 0 ltac:(cbn; lia)). cbn [bounded_inputs map crown_shift run_shift nth fst snd shift] in H.
  destruct H as [H _]. revert H. apply Rlt_not_le. rewrite Q2R_plus. assert (Z : Q2R 0 = 0%R) by (unfold Q2R; cbn; lra). rewrite Z.
  assert (S : (split_point lo hi 1 0 == lo)%Q) by (unfold split_point; cbn [Nat.eqb]; change (inject_Z (Z.of_nat 0)) with 0%Q; ring).
  rewrite (Qeq_eqR _ _ (RS _ _ S)). apply Qlt_Rlt in L. lra.
Qed.

Open Scope R_scope.
(** The replacement of atan2 is atan2 to the right of the origin, and on the left away from both axes. *)
Theorem C92_atan2 : forall y x, 0 < x \/ (x < - / 100000000 /\ y <> 0) -> atan2_crown_safe y x = Some (arctan2 y x).
Proof.
  intros y x H. unfold atan2_crown_safe, atan_quotient, arctan2.
  destruct (Req_EM_T (Rabs x) 0) as [E | E]; [exfalso; assert (x = 0) by (unfold Rabs in E; destruct (Rcase_abs x); lra); lra |]. cbn [obind]. f_equal. unfold tsign.
  destruct H as [H | [H N]].
  - destruct (Rlt_dec 0 (x + / 100000000)); [| lra]. destruct (Rlt_dec 0 x); [| lra]. rewrite Rabs_pos_eq by lra. replace (y * 1) with y by ring.
    replace (PI * (1 - 1) / 2 * _) with 0 by (destruct (Rlt_dec 0 y); [| destruct (Rlt_dec y 0)]; field). ring.
  - destruct (Rlt_dec 0 (x + / 100000000)); [lra |]. destruct (Rlt_dec (x + / 100000000) 0); [| lra]. destruct (Rlt_dec 0 x); [lra |]. destruct (Rlt_dec x 0); [| lra].
    rewrite Rabs_left by lra. replace (y * -1 / - x) with (y / x) by (field; lra). destruct (Rlt_dec 0 y).
    + destruct (Rlt_dec y 0); [lra |]. field.
    + destruct (Rlt_dec y 0); [| lra]. field.
Qed.
(** Elsewhere it is not: on the negative half of the first axis it is 0 instead of pi, on the second axis a half turn instead of a
    quarter, and just left of the second axis the sign of the arctangent is wrong; at the origin it is nan. *)
Theorem C92_atan2_refuted :
  (forall x, x < - / 100000000 -> atan2_crown_safe 0 x = Some 0 /\ arctan2 0 x = PI)
  /\ (forall y, 0 < y -> atan2_crown_safe y 0 = Some PI /\ arctan2 y 0 = PI / 2)
  /\ (forall y x, 0 < y -> - / 100000000 < x < 0 -> exists a, atan2_crown_safe y x = Some a /\ a = 2 * PI - arctan2 y x /\ PI < a)
  /\ atan2_crown_safe 0 0 = None.
Proof.
  assert (A0 : Rabs 0 = 0) by apply Rabs_R0. pose proof PI_RGT_0 as PP. split; [| split; [| split]].
  - intros x H. unfold atan2_crown_safe, atan_quotient, arctan2, tsign. destruct (Req_EM_T (Rabs x) 0) as [E | E]; [exfalso; unfold Rabs in E; destruct (Rcase_abs x); lra |].
    cbn [obind]. destruct (Rlt_dec 0 0); [lra |]. destruct (Rlt_dec 0 x); [lra |]. destruct (Rlt_dec x 0); [| lra]. split.
    + f_equal. rewrite Rmult_0_l. unfold Rdiv at 1. rewrite Rmult_0_l, atan_0. field.
    + unfold Rdiv. rewrite Rmult_0_l, atan_0. ring.
  - intros y H. unfold atan2_crown_safe, atan_quotient, arctan2, tsign. rewrite A0. destruct (Req_EM_T 0 0); [| lra]. destruct (Rlt_dec 0 (0 + / 100000000)); [| lra].
    destruct (Req_EM_T (y * 1) 0); [lra |]. cbn [obind]. destruct (Rlt_dec 0 (y * 1)); [| lra]. destruct (Rlt_dec 0 0); [lra |]. destruct (Rlt_dec 0 y); [| lra]. split; [f_equal; field | reflexivity].
  - intros y x H Hx. unfold atan2_crown_safe, atan_quotient, arctan2, tsign. destruct (Req_EM_T (Rabs x) 0) as [E | E]; [exfalso; unfold Rabs in E; destruct (Rcase_abs x); lra |].
    cbn [obind]. destruct (Rlt_dec 0 (x + / 100000000)); [| lra]. destruct (Rlt_dec 0 x); [lra |]. destruct (Rlt_dec x 0); [| lra]. destruct (Rlt_dec 0 y); [| lra]. destruct (Rlt_dec y 0); [lra |].
    eexists. split; [reflexivity |]. rewrite Rabs_left by lra. replace (y * 1 / - x) with (- (y / x)) by (field; lra). rewrite atan_opp.
    assert (N : y / x < 0) by (unfold Rdiv; assert (/ x < 0) by (apply Rinv_lt_0_compat; lra); nra). assert (atan (y / x) < 0) by (rewrite <- atan_0; apply atan_increasing; exact N). split; lra.
  - unfold atan2_crown_safe, atan_quotient. rewrite A0. destruct (Req_EM_T 0 0); [| lra]. rewrite Rmult_0_l. destruct (Req_EM_T 0 0); [reflexivity | lra].
Qed.
(** The replacement of the norm is above it, by at most a ten-thousandth. *)
Definition true_norm (x : list R) : R := sqrt (fold_right (fun a s => a * a + s) 0 x).
Theorem C92_norm : forall x, true_norm x < torch_norm x <= true_norm x + / 10000.
Proof.
  intros x. unfold true_norm, torch_norm. set (q := fold_right (fun a s => a * a + s) 0 x).
  assert (Q0 : 0 <= q) by (unfold q; induction x as [| a x IH]; cbn; [lra | nra]). clearbody q. split; [apply sqrt_lt_1; lra |].
  assert (S : sqrt q * sqrt q = q) by (apply sqrt_sqrt; exact Q0). assert (P : 0 <= sqrt q) by apply sqrt_pos.
  rewrite <- (sqrt_square (sqrt q + / 10000)) by lra. apply sqrt_le_1; nra.
Qed.
Close Scope R_scope.

Module Example_split_sensor.
  Definition qeq (a b : Q) : bool := Z.eqb (Qnum a) (Qnum b) && Pos.eqb (Qden a) (Qden b).
  Lemma qeq_eq a b : qeq a b = true <-> a = b.
  Proof. unfold qeq. rewrite andb_true_iff, Z.eqb_eq, Pos.eqb_eq. destruct a, b. cbn. split; [intros [-> ->]; reflexivity | intros [= -> ->]; auto]. Qed.
  Definition K : Type := list (Q * Q) * word * nat.
  Definition keqb (a b : K) : bool :=
    list_eqb (fun p q => qeq (fst p) (fst q) && qeq (snd p) (snd q)) (fst (fst a)) (fst (fst b)) && word_eqb (snd (fst a)) (snd (fst b)) && (snd a =? snd b).
  Lemma keqb_eq a b : keqb a b = true <-> a = b.
  Proof.
    destruct a as [[l x] n], b as [[l' x'] n']. unfold keqb. cbn [fst snd]. rewrite !andb_true_iff, ScanProofs.word_eqb_iff, Nat.eqb_eq.
    rewrite list_eqb_eq. 2: { intros [p q] [p' q']. cbn. rewrite andb_true_iff, !qeq_eq. split; [intros [-> ->]; reflexivity | intros [= -> ->]; auto]. }
    split; [intros [[-> ->] ->]; reflexivity | intros [= -> -> ->]; auto].
  Qed.
  Definition key (bs : list (Q * Q)) (x : word) (n : nat) : K := (bs, x, n).
  Lemma key_tells : tells_apart key.
  Proof.
    intros bs bs' x x' n n' [= -> -> ->]. split; [| auto]. induction bs' as [| b bs IH]; constructor; [split; reflexivity | exact IH].
  Qed.
  Definition rs : list (request bool) :=
    [Ask (Sensor (w "same") true) [(-1, 2)]%Q 3; ClearCache _; Ask (Sensor (w "next") false) [(-1, 2)]%Q 2; Ask (Sensor (w "same") true) [(-1, 2)]%Q 3; AskExpr false [(1, 1)]%Q 4].
  Lemma names : names_differ rs.
  Proof. intros f g [b [n H]] [b' [n' H']] E. cbn in H, H'. destruct H as [[= <- _ _] | [H | [[= <- _ _] | [[= <- _ _] | [H | []]]]]], H' as [[= <- _ _] | [H' | [[= <- _ _] | [[= <- _ _] | [H' | []]]]]]; try discriminate; reflexivity. Qed.
  Lemma positive : forall r code bs n, In r rs -> about r code bs n -> 0 < n.
  Proof. intros r code bs n H A. cbn in H. destruct H as [<- | [<- | [<- | [<- | [<- | []]]]]]; cbn in A; try contradiction; destruct A as [_ [_ <-]]; lia. Qed.
  Example ex_C91_cover : exists b, nth_error (snd (serve_all (fun q => q) crown_shift keqb key [] rs)) 2 = Some (Some (Some b)) /\ inside (run_shift false [0%R]) b.
  Proof.
    eapply C91_representable with (bs := [(-1, 2)]%Q) (n := 2); [exact sound_shift | intros a b E; exact E | exact keqb_eq | exact key_tells | exact names | exact positive | reflexivity | cbn; auto | |].
    - intros b Hb. split; reflexivity.
    - constructor; [| constructor]. cbn. unfold Q2R. cbn. lra.
  Qed.
  Example ex_answers : map (option_map (option_map (fun b => (map Qred (fst b), map Qred (snd b))))) (snd (serve_all (fun q => q) crown_shift keqb key [] rs))
    = [Some (Some ([-1 # 1], [2 # 1])); None; Some (Some ([0], [3 # 1])); Some (Some ([-1 # 1], [2 # 1])); Some (Some ([2 # 1], [2 # 1]))]%Q.
  Proof. vm_compute. reflexivity. Qed.
  (** Conversion to multiples of 1/4 raises 1/10 to 1/4. *)
  Example ex_C91_rounding : exists f32, respects f32 /\ (1 # 10 < f32 (1 # 10))%Q.
  Proof.
    exists (fun q => (inject_Z (Qround.Qceiling (q * 4)) / 4)%Q). split; [| vm_compute; reflexivity]. intros a b E. rewrite E. reflexivity.
  Qed.
  Example ex_C92_atan2 : atan2_crown_safe 1 (-1) = Some (arctan2 1 (-1)).
  Proof. apply C92_atan2. right. lra. Qed.
End Example_split_sensor.

Print Assumptions C91_cover.
Print Assumptions C91_representable.
Print Assumptions C91_tight.
Print Assumptions C91_stable.
Print Assumptions C91_zero.
Print Assumptions C91_names_refuted.
Print Assumptions C91_rounding_refuted.
Print Assumptions C92_atan2.
Print Assumptions C92_atan2_refuted.
Print Assumptions C92_norm.
