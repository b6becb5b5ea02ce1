(** The separation invariant over histories, and the lane modes. *)
From Coq Require Import Ascii String.
From Verif Require Import Base BaseFacts PyText Dict ResetProofs Scenario ScenarioSpec ScenarioProofs.
Set Implicit Arguments.
Open Scope nat_scope.

Lemma dget_put {V} (k a : word) (v : V) d : dget word_eqb a (put k v d) = if word_eqb a k then Some v else dget word_eqb a d.
Proof.
  unfold put, dset. destruct (word_eqb a k) eqn:E.
  - apply word_eqb_eq in E. subst a. rewrite (dget_alter_same word_eqb word_eqb_eq). reflexivity.
  - apply word_eqb_neq in E. rewrite (dget_alter_other word_eqb word_eqb_eq) by congruence. reflexivity.
Qed.

(** A list all of whose parts were created by the scenario. *)
Definition safe (h : heap) (oi oo : list nat) (o : nat) : Prop :=
  In o oo /\ exists rows, nth_error (outer h) o = Some rows /\ incl rows oi.

Definition agree (h h' : heap) (oi oo : list nat) : Prop :=
  (forall a, In a oi -> nth_error (inner h') a = nth_error (inner h) a) /\
  (forall o, In o oo -> nth_error (outer h') o = nth_error (outer h) o).

Lemma safe_read h h' oi oo o : agree h h' oi oo -> safe h oi oo o -> read h' o = read h o /\ safe h' oi oo o.
Proof.
  intros [A B] [Ho [rows [R I]]]. split.
  - unfold read. rewrite (B o Ho), R. cbn [obind]. apply mapM_nth_ext. intros a Ha. apply A, I, Ha.
  - split; [exact Ho|]. exists rows. rewrite (B o Ho). auto.
Qed.
Lemma safe_more h oi oo oi' oo' o : safe h oi oo o -> safe h (oi ++ oi') (oo ++ oo') o.
Proof.
  intros [Ho [rows [R I]]]. split; [apply in_or_app; auto|]. exists rows. split; [exact R|].
  intros a Ha. apply in_or_app. left. apply I, Ha.
Qed.

Record Inv (c : config) : Prop := {
  inv_wf : wf (hp (st c));
  inv_in : forall a, In a (own_in c) -> a < length (inner (hp (st c)));
  inv_out : forall o, In o (own_out c) -> o < length (outer (hp (st c)));
  inv_init : forall id, match dget word_eqb id (init_dict (st c)) with
    | Some o => safe (hp (st c)) (own_in c) (own_out c) o /\ read (hp (st c)) o = given c id
    | None => given c id = None end;
  inv_static : forall id, match dget word_eqb id (static_dict (st c)) with
    | Some a => In a (own_in c) /\ read_flat (hp (st c)) a = given_static c id
    | None => given_static c id = None end;
  inv_uncertain : forall id, match dget word_eqb id (uncertain_param_dict (st c)) with
    | Some o => safe (hp (st c)) (own_in c) (own_out c) o /\ read (hp (st c)) o = given_uncertain c id
    | None => given_uncertain c id = None end }.

Lemma created_In {A} (l l' : list A) a : length l <= length l' -> (In a (created l l') <-> length l <= a < length l').
Proof. intros H. unfold created. rewrite in_seq. lia. Qed.

Lemma fresh_safe h h' oi oo o : ext h h' -> fresh h h' o ->
  safe h' (oi ++ created (inner h) (inner h')) (oo ++ created (outer h) (outer h')) o.
Proof.
  intros E [Ho [rows [R F]]]. split.
  - apply in_or_app. right. apply created_In; [apply (ext_len_out E)|exact Ho].
  - exists rows. split; [exact R|]. intros a Ha. apply in_or_app. right. apply created_In; [apply (ext_len_in E)|].
    rewrite Forall_forall in F. apply F, Ha.
Qed.

(** A call: the heap grows, owned lists are kept, fresh ones become owned. *)
Lemma call_agree c h' : Inv c -> ext (hp (st c)) h' -> agree (hp (st c)) h' (own_in c) (own_out c).
Proof.
  intros V E. split; intros x Hx; [apply (ext_in E), (inv_in V _ Hx)|apply (ext_out E), (inv_out V _ Hx)].
Qed.
Lemma call_in c h' : Inv c -> ext (hp (st c)) h' ->
  forall a, In a (own_in c ++ created (inner (hp (st c))) (inner h')) -> a < length (inner h').
Proof.
  intros V E a Ha. assert (L := ext_len_in E). apply in_app_or in Ha. destruct Ha as [Ha|Ha].
  - assert (K := inv_in V _ Ha). lia.
  - apply created_In in Ha; [lia|exact L].
Qed.
Lemma call_out c h' : Inv c -> ext (hp (st c)) h' ->
  forall o, In o (own_out c ++ created (outer (hp (st c))) (outer h')) -> o < length (outer h').
Proof.
  intros V E a Ha. assert (L := ext_len_out E). apply in_app_or in Ha. destruct Ha as [Ha|Ha].
  - assert (K := inv_out V _ Ha). lia.
  - apply created_In in Ha; [lia|exact L].
Qed.

Lemma old_init c h' id : Inv c -> ext (hp (st c)) h' ->
  match dget word_eqb id (init_dict (st c)) with
  | Some o => safe h' (own_in c ++ created (inner (hp (st c))) (inner h')) (own_out c ++ created (outer (hp (st c))) (outer h')) o
              /\ read h' o = given c id
  | None => given c id = None end.
Proof.
  intros V E. assert (K := inv_init V id). destruct (dget word_eqb id (init_dict (st c))) as [o|]; [|exact K].
  destruct K as [S R]. destruct (safe_read (call_agree V E) S) as [R' S']. split; [apply safe_more, S'|congruence].
Qed.
Lemma old_uncertain c h' id : Inv c -> ext (hp (st c)) h' ->
  match dget word_eqb id (uncertain_param_dict (st c)) with
  | Some o => safe h' (own_in c ++ created (inner (hp (st c))) (inner h')) (own_out c ++ created (outer (hp (st c))) (outer h')) o
              /\ read h' o = given_uncertain c id
  | None => given_uncertain c id = None end.
Proof.
  intros V E. assert (K := inv_uncertain V id). destruct (dget word_eqb id (uncertain_param_dict (st c))) as [o|]; [|exact K].
  destruct K as [S R]. destruct (safe_read (call_agree V E) S) as [R' S']. split; [apply safe_more, S'|congruence].
Qed.
Lemma old_static c h' id : Inv c -> ext (hp (st c)) h' ->
  match dget word_eqb id (static_dict (st c)) with
  | Some a => In a (own_in c ++ created (inner (hp (st c))) (inner h')) /\ read_flat h' a = given_static c id
  | None => given_static c id = None end.
Proof.
  intros V E. assert (K := inv_static V id). destruct (dget word_eqb id (static_dict (st c))) as [a|]; [|exact K].
  destruct K as [S R]. split; [apply in_or_app; auto|]. rewrite (ext_flat E (inv_in V _ S)). exact R.
Qed.

(** [set_init_single] on a well-formed heap: it is accepted exactly when the documented conditions hold. *)
Lemma accepted_iff s id o mode rows v ag : wf (hp s) ->
  nth_error (outer (hp s)) o = Some rows -> Forall2 (fun a p => nth_error (inner (hp s)) a = Some p) rows v ->
  dget word_eqb id (agent_dict s) = Some ag ->
  (init_accepted (hp s) ag rows mode = true <-> acceptable s id v mode).
Proof.
  intros W R F A. assert (L : length rows = length v) by (eapply Forall2_len; exact F).
  unfold init_accepted, acceptable. rewrite andb_true_iff, orb_true_iff, !Nat.eqb_eq, L.
  assert (Q : forall nc, forallb (fun a => match nth_error (inner (hp s)) a with Some l => length l =? nc | None => false end) rows = true
     <-> Forall (fun p => length p = nc) v).
  { intros nc. clear -F. induction F as [|a p rows v E F IH]; simpl; [split; auto|].
    rewrite E, andb_true_iff, Nat.eqb_eq, IH. split; [intros []; constructor; auto|intros H; inversion H; auto]. }
  split.
  - intros [Hl Hc]. exists ag. split; [exact A|]. split; [exact Hl|]. intros Hlog. rewrite Hlog in Hc.
    destruct (first_def ag) as [[nc nd]|]; [|discriminate]. exists nc, nd. split; [reflexivity|].
    apply andb_true_iff in Hc. rewrite Q, Nat.eqb_eq in Hc. exact Hc.
  - intros [ag' [A' [Hl Hc]]]. rewrite A in A'. injection A' as <-. split; [exact Hl|].
    destruct (has_logic ag); [|reflexivity]. destruct (Hc eq_refl) as [nc [nd [-> H]]].
    apply andb_true_iff. rewrite Q, Nat.eqb_eq. exact H.
Qed.

Lemma set_ok_spec s id o mode static uncertain s' : wf (hp s) ->
  o < length (outer (hp s)) -> flat_ok (hp s) static -> outer_ok (hp s) uncertain ->
  set_init_single s id o mode static uncertain = (s', true) ->
  exists v i x u ag ag', read (hp s) o = Some v /\ acceptable s id v mode /\ ext (hp s) (hp s') /\ wf (hp s') /\
    init_dict s' = put id i (init_dict s) /\ init_mode_dict s' = put id mode (init_mode_dict s) /\
    static_dict s' = put id x (static_dict s) /\ uncertain_param_dict s' = put id u (uncertain_param_dict s) /\
    dget word_eqb id (agent_dict s) = Some ag /\
    agent_dict s' = put id ag' (agent_dict s) /\ (has_logic ag' = has_logic ag /\ first_def ag' = first_def ag /\ mode_defs ag' = mode_defs ag) /\
    map_lanes s' = map_lanes s /\
    fresh (hp s) (hp s') i /\ read (hp s') i = Some (as_box v) /\
    fresh_flat (hp s) (hp s') x /\ read_flat (hp s') x = or_nil (do a <- static; read_flat (hp s) a) /\
    fresh (hp s) (hp s') u /\ read (hp s') u = or_nil (do a <- uncertain; read (hp s) a).
Proof.
  intros W Ho Os Ou H. destruct (read_some W Ho) as [rows [v [R [Rv F]]]].
  unfold set_init_single in H. destruct (dget word_eqb id (agent_dict s)) as [ag|] eqn:A; [|discriminate].
  rewrite R in H. destruct (init_accepted (hp s) ag rows mode) eqn:Acc; [|discriminate].
  destruct (@store_spec s id ag o rows mode static uncertain v W R Rv Os Ou)
    as [s2 [i [x [u [S [E [W' [I1 [I2 [I3 [I4 [[ag' [I5 [I6 [I7 [I8 I9]]]]] [I10 [F1 [R1 [F2 [R2 [F3 R3]]]]]]]]]]]]]]]]]].
  rewrite S in H. injection H as <-.
  exists v, i, x, u, ag, ag'. split; [exact Rv|]. split; [apply (@accepted_iff s id o mode rows _ ag W R F A), Acc|].
  repeat (split; [first [assumption|reflexivity]|]). split; [auto|]. repeat (split; [assumption|]). assumption.
Qed.

Lemma set_ok_iff s id o mode static uncertain v : wf (hp s) ->
  o < length (outer (hp s)) -> flat_ok (hp s) static -> outer_ok (hp s) uncertain -> read (hp s) o = Some v ->
  (snd (set_init_single s id o mode static uncertain) = true <-> acceptable s id v mode).
Proof.
  intros W Ho Os Ou Rv'. destruct (read_some W Ho) as [rows [v' [R [Rv F]]]]. rewrite Rv in Rv'. injection Rv' as <-.
  unfold set_init_single. destruct (dget word_eqb id (agent_dict s)) as [ag|] eqn:A.
  - rewrite R. assert (K := @accepted_iff s id o mode rows _ ag W R F A).
    destruct (init_accepted (hp s) ag rows mode).
    + destruct (@store_spec s id ag o rows mode static uncertain v' W R Rv Os Ou) as [s2 [i [x [u [S _]]]]].
      rewrite S. simpl. tauto.
    + simpl. rewrite <- K. split; discriminate.
  - simpl. split; [discriminate|]. intros [ag [A' _]]. congruence.
Qed.

Lemma set_fail_same s id o mode static uncertain s' :
  set_init_single s id o mode static uncertain = (s', false) -> s' = s.
Proof.
  unfold set_init_single. destruct (dget word_eqb id (agent_dict s)); [|intros [= <-]; reflexivity].
  destruct (nth_error (outer (hp s)) o); [|intros [= <-]; reflexivity].
  destruct (init_accepted _ _ _ _); [|intros [= <-]; reflexivity].
  destruct (store_init _ _ _ _ _ _ _ _); [discriminate|intros [= <-]; reflexivity].
Qed.

Lemma upd_eq {V} (f : word -> V) k v x : upd f k v x = if word_eqb x k then v else f x.
Proof. reflexivity. Qed.

Lemma step_Inv c e c' : Inv c -> step c e c' -> Inv c'.
Proof.
  intros V S. destruct S as [lanes | ag s' Oi Os Ou A | id o mode static uncertain s' Ho Os Ou A | id o mode static uncertain s' Ho Os Ou A
     | a l inn Ha Hl E | o rows out Ha Hl Hr E | l | rows Hr].
  - destruct V. constructor; assumption.
  - destruct (@add_agent_spec (st c) ag (inv_wf V) Oi Os Ou) as [s2 [i [x [u [A2 [E [W [D1 [D2 [D3 [D4 [P1 [F2 [R2 [F3 R3]]]]]]]]]]]]]]].
    rewrite A in A2. injection A2 as <-. constructor; cbn [st own_in own_out given given_static given_uncertain].
    + exact W.
    + apply call_in; assumption.
    + apply call_out; assumption.
    + intros id. assert (K := old_init id V E). rewrite D1.
      destruct (init_cont ag) as [o|]; [|exact K]. rewrite dget_put, upd_eq.
      destruct (word_eqb id (aid ag)); [|exact K]. destruct P1 as [Fr R]. split; [apply fresh_safe; assumption|exact R].
    + intros id. assert (K := old_static id V E). rewrite D3, dget_put, upd_eq.
      destruct (word_eqb id (aid ag)); [|exact K]. split; [|exact R2]. apply in_or_app. right.
      apply created_In; [apply (ext_len_in E)|exact F2].
    + intros id. assert (K := old_uncertain id V E). rewrite D4, dget_put, upd_eq.
      destruct (word_eqb id (aid ag)); [|exact K]. split; [apply fresh_safe; assumption|exact R3].
  - destruct (@set_ok_spec (st c) id o mode static uncertain s' (inv_wf V) Ho Os Ou A)
      as [v [i [x [u [ag [ag' [Rv [_ [E [W [D1 [D2 [D3 [D4 [_ [_ [_ [_ [F1 [R1 [F2 [R2 [F3 R3]]]]]]]]]]]]]]]]]]]]]]].
    constructor; cbn [st own_in own_out given given_static given_uncertain].
    + exact W.
    + apply call_in; assumption.
    + apply call_out; assumption.
    + intros id'. assert (K := old_init id' V E). rewrite D1, dget_put, upd_eq.
      destruct (word_eqb id' id); [|exact K]. split; [apply fresh_safe; assumption|]. rewrite Rv. exact R1.
    + intros id'. assert (K := old_static id' V E). rewrite D3, dget_put, upd_eq.
      destruct (word_eqb id' id); [|exact K]. split; [|exact R2]. apply in_or_app. right.
      apply created_In; [apply (ext_len_in E)|exact F2].
    + intros id'. assert (K := old_uncertain id' V E). rewrite D4, dget_put, upd_eq.
      destruct (word_eqb id' id); [|exact K]. split; [apply fresh_safe; assumption|exact R3].
  - apply set_fail_same in A. subst s'.
    assert (N : forall {A} (l : list A), created l l = []) by (intros; unfold created; rewrite Nat.sub_diag; reflexivity).
    rewrite !N, !app_nil_r. destruct V. constructor; assumption.
  - subst inn. assert (G : agree (hp (st c)) (mkheap (set_nth a l (inner (hp (st c)))) (outer (hp (st c)))) (own_in c) (own_out c)).
    { split; simpl; [|reflexivity]. intros b Hb. apply nth_error_set_nth_other. intros ->. contradiction. }
    destruct V as [W Vi Vo V1 V2 V3]. constructor; cbn [st own_in own_out given given_static given_uncertain hp init_dict static_dict uncertain_param_dict].
    + unfold wf in *. simpl. rewrite set_nth_length. exact W.
    + intros b Hb. simpl. rewrite set_nth_length. auto.
    + exact Vo.
    + intros id. specialize (V1 id). destruct (dget word_eqb id (init_dict (st c))) as [o|]; [|exact V1].
      destruct V1 as [S R]. destruct (safe_read G S). split; [assumption|congruence].
    + intros id. specialize (V2 id). destruct (dget word_eqb id (static_dict (st c))) as [o|]; [|exact V2].
      destruct V2 as [S R]. split; [exact S|]. unfold read_flat. rewrite (proj1 G _ S). exact R.
    + intros id. specialize (V3 id). destruct (dget word_eqb id (uncertain_param_dict (st c))) as [o|]; [|exact V3].
      destruct V3 as [S R]. destruct (safe_read G S). split; [assumption|congruence].
  - subst out. assert (G : agree (hp (st c)) (mkheap (inner (hp (st c))) (set_nth o rows (outer (hp (st c))))) (own_in c) (own_out c)).
    { split; simpl; [reflexivity|]. intros b Hb. apply nth_error_set_nth_other. intros ->. contradiction. }
    destruct V as [W Vi Vo V1 V2 V3]. constructor; cbn [st own_in own_out given given_static given_uncertain hp init_dict static_dict uncertain_param_dict].
    + unfold wf in *. simpl. apply Forall_forall. intros r Hr'. apply In_nth_error in Hr'. destruct Hr' as [k Hk].
      destruct (Nat.eq_dec o k) as [<-|N].
      * rewrite nth_error_set_nth_same in Hk by exact Hl. injection Hk as <-. exact Hr.
      * rewrite nth_error_set_nth_other in Hk by exact N. apply nth_error_In in Hk. rewrite Forall_forall in W. apply W, Hk.
    + exact Vi.
    + intros b Hb. simpl. rewrite set_nth_length. auto.
    + intros id. specialize (V1 id). destruct (dget word_eqb id (init_dict (st c))) as [i|]; [|exact V1].
      destruct V1 as [S R]. destruct (safe_read G S). split; [assumption|congruence].
    + exact V2.
    + intros id. specialize (V3 id). destruct (dget word_eqb id (uncertain_param_dict (st c))) as [i|]; [|exact V3].
      destruct V3 as [S R]. destruct (safe_read G S). split; [assumption|congruence].
  - assert (E := ext_new_inner (hp (st c)) l). assert (G := call_agree V E). assert (W' := wf_new_inner l (inv_wf V)).
    assert (L1 := ext_len_in E). assert (L2 := ext_len_out E).
    destruct V as [W Vi Vo V1 V2 V3]. constructor; cbn [st own_in own_out given given_static given_uncertain hp init_dict static_dict uncertain_param_dict].
    + exact W'.
    + intros b Hb. specialize (Vi b Hb). lia.
    + intros b Hb. specialize (Vo b Hb). lia.
    + intros id. specialize (V1 id). destruct (dget word_eqb id (init_dict (st c))) as [o|]; [|exact V1].
      destruct V1 as [S R]. destruct (safe_read G S). split; [assumption|congruence].
    + intros id. specialize (V2 id). destruct (dget word_eqb id (static_dict (st c))) as [o|]; [|exact V2].
      destruct V2 as [S R]. split; [exact S|]. unfold read_flat. rewrite (proj1 G _ S). exact R.
    + intros id. specialize (V3 id). destruct (dget word_eqb id (uncertain_param_dict (st c))) as [o|]; [|exact V3].
      destruct V3 as [S R]. destruct (safe_read G S). split; [assumption|congruence].
  - assert (E := ext_new_outer (hp (st c)) rows). assert (G := call_agree V E). assert (W' := wf_new_outer (inv_wf V) Hr).
    assert (L1 := ext_len_in E). assert (L2 := ext_len_out E).
    destruct V as [W Vi Vo V1 V2 V3]. constructor; cbn [st own_in own_out given given_static given_uncertain hp init_dict static_dict uncertain_param_dict].
    + exact W'.
    + intros b Hb. specialize (Vi b Hb). lia.
    + intros b Hb. specialize (Vo b Hb). lia.
    + intros id. specialize (V1 id). destruct (dget word_eqb id (init_dict (st c))) as [o|]; [|exact V1].
      destruct V1 as [S R]. destruct (safe_read G S). split; [assumption|congruence].
    + intros id. specialize (V2 id). destruct (dget word_eqb id (static_dict (st c))) as [o|]; [|exact V2].
      destruct V2 as [S R]. split; [exact S|]. unfold read_flat. rewrite (proj1 G _ S). exact R.
    + intros id. specialize (V3 id). destruct (dget word_eqb id (uncertain_param_dict (st c))) as [o|]; [|exact V3].
      destruct V3 as [S R]. destruct (safe_read G S). split; [assumption|congruence].
Qed.

Lemma start_Inv h : wf h -> Inv (start h).
Proof. intros W. constructor; simpl; try (intros ? []); auto. Qed.

Lemma history_Inv c evs c' : Inv c -> history c evs c' -> Inv c'.
Proof. intros V H. induction H; [exact V|]. eapply step_Inv; eauto. Qed.

(** ** Lane modes *)
Definition new_lanes (ms lanes ms' : list word) : Prop :=
  exists added, ms' = ms ++ added /\ NoDup added /\ forall l, In l added <-> In l lanes /\ ~ In l ms.

Lemma existsb_word l ms : existsb (word_eqb l) ms = true <-> In l ms.
Proof.
  rewrite existsb_exists. split; [intros [x [Hx E]]; apply word_eqb_eq in E; subst; exact Hx|].
  intros H. exists l. split; [exact H|apply word_eqb_refl].
Qed.

Lemma update_lane_other d lane k : k <> Track -> dget word_eqb k (update_lane d lane) = dget word_eqb k d.
Proof.
  intros H. unfold update_lane. destruct (dget word_eqb Track d) as [ms|]; [|reflexivity].
  destruct (existsb (word_eqb lane) ms); [reflexivity|]. change (dset word_eqb Track (ms ++ [lane]) d) with (put Track (ms ++ [lane]) d).
  rewrite (dget_put Track k).
  rewrite (proj2 (word_eqb_neq k Track) H). reflexivity.
Qed.
Lemma update_lanes_other lanes : forall d k, k <> Track -> dget word_eqb k (fold_left update_lane lanes d) = dget word_eqb k d.
Proof. induction lanes as [|l lanes IH]; intros d k H; simpl; [reflexivity|]. rewrite IH by exact H. apply update_lane_other, H. Qed.
Lemma update_lanes_none lanes : forall d, dget word_eqb Track d = None -> fold_left update_lane lanes d = d.
Proof.
  induction lanes as [|l lanes IH]; intros d H; simpl; [reflexivity|].
  unfold update_lane at 2. rewrite H. apply IH, H.
Qed.
Lemma update_lanes_track lanes : forall d ms, dget word_eqb Track d = Some ms ->
  exists ms', dget word_eqb Track (fold_left update_lane lanes d) = Some ms' /\ new_lanes ms lanes ms'.
Proof.
  induction lanes as [|l lanes IH]; intros d ms H; simpl.
  - exists ms. split; [exact H|]. exists []. rewrite app_nil_r. split; [reflexivity|]. split; [constructor|]. simpl. tauto.
  - unfold update_lane at 2. rewrite H. destruct (existsb (word_eqb l) ms) eqn:E.
    + apply existsb_word in E. destruct (IH d ms H) as [ms' [H' [added [-> [N A]]]]]. eexists. split; [exact H'|].
      exists added. split; [reflexivity|]. split; [exact N|]. intros x. rewrite A. simpl. split; [tauto|].
      intros [[->|Hx] Hn]; [contradiction|tauto].
    + assert (Nl : ~ In l ms) by (rewrite <- existsb_word; congruence).
      destruct (IH (put Track (ms ++ [l]) d) (ms ++ [l])) as [ms' [H' [added [-> [N A]]]]].
      { rewrite dget_put, word_eqb_refl. reflexivity. }
      eexists. split; [exact H'|]. exists (l :: added). split; [rewrite <- app_assoc; reflexivity|]. split.
      * constructor; [|exact N]. rewrite A. intros [_ K]. apply K. apply in_or_app. simpl. auto.
      * intros x. simpl. rewrite A, in_app_iff. simpl. split.
        -- intros [<-|[Hx Hn]]; [auto|]. split; [auto|tauto].
        -- intros [[<-|Hx] Hn]; [auto|]. destruct (list_eq_dec ascii_dec l x) as [E'|E']; [auto|]. right. split; [exact Hx|]. intros [K|[K|[]]]; [contradiction|congruence].
Qed.
