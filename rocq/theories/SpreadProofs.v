From Coq Require Import Ascii String Qabs.
From Verif Require Import Base BaseFacts Dict PyText Tree StarDiam StarDiamSpec StarDiamProofs Spread SpreadSpec.
From Coq Require Import Lqa Lia.
Set Implicit Arguments.
Open Scope nat_scope.

(** * Dictionaries whose keys are compared by an equivalence *)
Section EqDict.
  Variables (K V : Type) (eqb : K -> K -> bool).
  Hypothesis refl : forall a, eqb a a = true.
  Hypothesis symm : forall a b, eqb a b = eqb b a.
  Hypothesis trans : forall a b c, eqb a b = true -> eqb b c = true -> eqb a c = true.
  Lemma eqb_same a b c : eqb a b = true -> eqb a c = eqb b c.
  Proof.
    intros H. destruct (eqb b c) eqn:E; [apply (trans H E)|]. destruct (eqb a c) eqn:F; [|reflexivity]. rewrite symm in H. rewrite (trans H F) in E. discriminate.
  Qed.
  Lemma get_alter (f : option V -> V) k k' d : dget eqb k' (dalter eqb f k d) = if eqb k' k then Some (f (dget eqb k d)) else dget eqb k' d.
  Proof.
    induction d as [|[a v] d IH]; cbn; [reflexivity|]. destruct (eqb k a) eqn:E; cbn.
    - rewrite (symm k' k), (eqb_same k' E), (symm a k'). destruct (eqb k' a); reflexivity.
    - rewrite IH. destruct (eqb k' a) eqn:F; [|reflexivity]. destruct (eqb k' k) eqn:G; [|reflexivity]. rewrite symm in G. rewrite (trans G F) in E. discriminate.
  Qed.
  Fixpoint distinct (d : dict K V) : Prop :=
    match d with [] => True | (k, _) :: d' => (forall p, In p d' -> eqb k (fst p) = false) /\ distinct d' end.
  Lemma alter_In (f : option V -> V) k d p : In p (dalter eqb f k d) -> In p d \/ (eqb k (fst p) = true /\ snd p = f (dget eqb k d)).
  Proof.
    induction d as [|[a v] d IH]; cbn; [intros [<-|[]]; right; cbn; auto|]. destruct (eqb k a) eqn:E; cbn.
    - intros [<-|H]; auto.
    - intros [<-|H]; [auto|]. destruct (IH H); auto.
  Qed.
  Lemma alter_distinct (f : option V -> V) k d : distinct d -> distinct (dalter eqb f k d).
  Proof.
    induction d as [|[a v] d IH]; cbn [dalter distinct]; [intros _; split; [intros p []|exact I]|]. intros [H D]. destruct (eqb k a) eqn:E; cbn [distinct].
    - split; assumption.
    - split; [|apply IH, D]. intros p Hp. apply alter_In in Hp. destruct Hp as [Hp|[Hp _]]; [apply H, Hp|]. destruct (eqb a (fst p)) eqn:F; [|reflexivity].
      rewrite symm in F. rewrite (trans Hp F) in E. discriminate.
  Qed.
  Lemma in_get k (v : V) d : distinct d -> In (k, v) d -> dget eqb k d = Some v.
  Proof.
    induction d as [|[a u] d IH]; cbn; [intros _ []|]. intros [H D] [[= -> ->]|Hin]; [rewrite refl; reflexivity|].
    rewrite symm. specialize (H _ Hin) as H'. cbn in H'. rewrite H'. apply IH; assumption.
  Qed.
  Lemma get_in k (v : V) d : dget eqb k d = Some v -> exists k', In (k', v) d /\ eqb k k' = true.
  Proof. induction d as [|[a u] d IH]; cbn; [discriminate|]. destruct (eqb k a) eqn:E; [intros [= ->]; eauto|]. intros H. destruct (IH H) as [k' [Hin Hk]]. eauto. Qed.
End EqDict.

Lemma qeqb_refl a : Qeq_bool a a = true. Proof. apply Qeq_bool_iff. reflexivity. Qed.
Lemma qeqb_sym a b : Qeq_bool a b = Qeq_bool b a.
Proof. destruct (Qeq_bool a b) eqn:E, (Qeq_bool b a) eqn:F; try reflexivity; [apply Qeq_bool_iff, Qeq_sym, Qeq_bool_iff in E|apply Qeq_bool_iff, Qeq_sym, Qeq_bool_iff in F]; congruence. Qed.
Lemma qeqb_trans a b c : Qeq_bool a b = true -> Qeq_bool b c = true -> Qeq_bool a c = true.
Proof. rewrite !Qeq_bool_iff. apply Qeq_trans. Qed.
Lemma zeqb_trans a b c : Z.eqb a b = true -> Z.eqb b c = true -> Z.eqb a c = true.
Proof. rewrite !Z.eqb_eq. congruence. Qed.
Notation qget_alter := (get_alter Qeq_bool qeqb_sym qeqb_trans).
Notation zget_alter := (get_alter Z.eqb Z.eqb_sym zeqb_trans).
Notation qdistinct := (distinct Qeq_bool).
Notation zdistinct := (distinct Z.eqb).

(** * One node *)
Definition odef (o : option vec) : vec := match o with Some v => v | None => [] end.
Definition timed (tau : Q) (rows : list vec) : Prop := exists t x, In (t :: x) rows /\ (t == tau)%Q.
Lemma add_row_get temp r temp' tau : add_row temp r = Some temp' -> qdistinct temp ->
  qdistinct temp' /\ odef (dget Qeq_bool tau temp') = odef (dget Qeq_bool tau temp) ++ state_at tau [r] /\
  (dget Qeq_bool tau temp' <> None <-> dget Qeq_bool tau temp <> None \/ timed tau [r]).
Proof.
  intros H D. destruct r as [|t x]; [discriminate|]. cbn in H. injection H as <-. split; [apply alter_distinct; [exact qeqb_refl|exact qeqb_sym|exact qeqb_trans|exact D]|].
  rewrite qget_alter. unfold state_at, timed. cbn. rewrite (qeqb_sym t tau), app_nil_r. destruct (Qeq_bool tau t) eqn:E.
  - split.
    + cbn. assert (G : dget Qeq_bool tau temp = dget Qeq_bool t temp).
      { clear D. induction temp as [|[a v] temp IH]; cbn; [reflexivity|]. rewrite (eqb_same _ qeqb_sym qeqb_trans _ _ a E), IH. reflexivity. }
      rewrite G. destruct (dget Qeq_bool t temp); reflexivity.
    + split; [|discriminate]. intros _. right. exists t, x. split; [auto|]. apply Qeq_bool_iff. rewrite qeqb_sym. exact E.
  - rewrite app_nil_r. split; [reflexivity|]. split; [auto|]. intros [H|[t' [x' [[G|[]] H]]]]; [exact H|]. injection G as -> ->. apply Qeq_sym, Qeq_bool_iff in H. congruence.
Qed.
Lemma timed_cons tau r rows : timed tau (r :: rows) <-> timed tau [r] \/ timed tau rows.
Proof.
  unfold timed. split.
  - intros [t [x [[->|H] E]]]; [left; exists t, x; cbn; auto|right; eauto].
  - intros [[t [x [[->|[]] E]]]|[t [x [H E]]]]; exists t, x; cbn; auto.
Qed.
Lemma state_cons tau r rows : state_at tau (r :: rows) = state_at tau [r] ++ state_at tau rows.
Proof. unfold state_at. cbn. rewrite app_nil_r. reflexivity. Qed.
Lemma add_rows_get rows : forall temp temp' tau, add_rows temp rows = Some temp' -> qdistinct temp ->
  qdistinct temp' /\ odef (dget Qeq_bool tau temp') = odef (dget Qeq_bool tau temp) ++ state_at tau rows /\
  (dget Qeq_bool tau temp' <> None <-> dget Qeq_bool tau temp <> None \/ timed tau rows).
Proof.
  induction rows as [|r rows IH]; intros temp temp' tau H D; cbn [add_rows] in H.
  - injection H as <-. split; [exact D|]. unfold state_at. cbn. rewrite app_nil_r. split; [reflexivity|]. split; [auto|]. intros [H|[t [x [[] _]]]]; exact H.
  - destruct (add_row temp r) as [t1|] eqn:E; cbn [obind] in H; [|discriminate]. destruct (add_row_get _ _ tau E D) as (D1 & G1 & N1).
    destruct (IH _ _ tau H D1) as (D2 & G2 & N2). split; [exact D2|]. rewrite G2, G1, <- app_assoc, <- state_cons. split; [reflexivity|]. rewrite N2, N1, (timed_cons tau r rows). tauto.
Qed.
Lemma add_agents_get trs : forall temp temp' tau, add_agents temp trs = Some temp' -> qdistinct temp ->
  qdistinct temp' /\ odef (dget Qeq_bool tau temp') = odef (dget Qeq_bool tau temp) ++ concat (map (fun kv => state_at tau (snd kv)) trs) /\
  (dget Qeq_bool tau temp' <> None <-> dget Qeq_bool tau temp <> None \/ exists a rows, In (a, rows) trs /\ timed tau rows).
Proof.
  induction trs as [|[a rows] trs IH]; intros temp temp' tau H D; cbn [add_agents] in H.
  - injection H as <-. split; [exact D|]. cbn. rewrite app_nil_r. split; [reflexivity|]. split; [auto|]. intros [H|[t [x [[] _]]]]; exact H.
  - cbn [snd] in H. destruct (add_rows temp rows) as [t1|] eqn:E; cbn [obind] in H; [|discriminate]. destruct (add_rows_get _ _ tau E D) as (D1 & G1 & N1).
    destruct (IH _ _ tau H D1) as (D2 & G2 & N2). split; [exact D2|]. rewrite G2, G1, <- app_assoc. split; [reflexivity|]. rewrite N2, N1. split.
    + intros [[K|K]|[a' [rs [K T]]]]; [auto|right; exists a, rows; cbn; auto|right; exists a', rs; cbn; auto].
    + intros [K|[a' [rs [[[= <- <-]|K] T]]]]; [auto|auto|right; eauto].
Qed.
Lemma temp_spec n temp : add_agents [] (sn_trace n) = Some temp ->
  forall tau x, (exists t, In (t, x) temp /\ (t == tau)%Q) <-> has_time n tau /\ x = joint_at n tau.
Proof.
  intros H tau x. destruct (add_agents_get _ _ tau H I) as (D & G & N). cbn in G, N. fold (joint_at n tau) in G.
  assert (T : has_time n tau <-> dget Qeq_bool tau temp <> None).
  { rewrite N. split; [intros (a & rows & t & y & Hin & Hr & E); right; exists a, rows; split; [exact Hin|exists t, y; auto]|].
    intros [K|(a & rows & Hin & t & y & Hr & E)]; [congruence|]. exists a, rows, t, y. auto. }
  split.
  - intros [t [Hin E]]. assert (Hg := in_get Qeq_bool qeqb_refl qeqb_sym _ _ _ D Hin).
    assert (Hg' : dget Qeq_bool tau temp = Some x).
    { rewrite <- Hg. apply Qeq_bool_iff in E. rewrite qeqb_sym in E. clear -E. induction temp as [|[a v] temp IH]; cbn; [reflexivity|]. rewrite (eqb_same _ qeqb_sym qeqb_trans _ _ a E), IH. reflexivity. }
    rewrite T, Hg'. split; [discriminate|]. rewrite Hg' in G. exact G.
  - intros [Ht ->]. apply T in Ht. destruct (dget Qeq_bool tau temp) as [v|] eqn:E; [|congruence]. cbn in G. subst v. destruct (get_in _ _ _ E) as [t [Hin Hq]].
    exists t. split; [exact Hin|]. apply Qeq_bool_iff. rewrite qeqb_sym. exact Hq.
Qed.

(** * The dictionary of histories *)
Definition look (d : dict Z (dict Q (list vec))) (k : Z) (tau : Q) : list vec :=
  match dget Z.eqb k d with Some m => match dget Qeq_bool tau m with Some l => l | None => [] end | None => [] end.
Definition wf (d : dict Z (dict Q (list vec))) : Prop :=
  zdistinct d /\ forall k m, In (k, m) d -> qdistinct m /\ forall t l, In (t, l) m -> l <> [].

Lemma get_wf k d m : wf d -> dget Z.eqb k d = Some m -> qdistinct m /\ forall t l, In (t, l) m -> l <> [].
Proof. intros [_ W] H. destruct (get_in _ _ _ H) as [k' [Hin _]]. exact (W _ _ Hin). Qed.
Lemma ensure_look key d k tau : look (ensure key d) k tau = look d k tau.
Proof.
  unfold look, ensure. rewrite zget_alter. destruct (Z.eqb k key) eqn:E; [|reflexivity]. apply Z.eqb_eq in E. subst. destruct (dget Z.eqb key d); reflexivity.
Qed.
Lemma ensure_wf key d : wf d -> wf (ensure key d).
Proof.
  intros W. split; [apply alter_distinct; [exact Z.eqb_refl|exact Z.eqb_sym|exact zeqb_trans|apply W]|]. intros k m H. apply alter_In in H; [|exact Z.eqb_refl]. destruct H as [H|[_ H]]; [apply (proj2 W _ _ H)|].
  cbn in H. subst m. destruct (dget Z.eqb key d) as [m|] eqn:E; [exact (get_wf _ W E)|]. split; [exact I|intros t l []].
Qed.
Lemma dappend_get {V} t (v : V) m tau : dget Qeq_bool tau (dappend Qeq_bool t v m) =
  if Qeq_bool tau t then Some (match dget Qeq_bool t m with Some l => l ++ [v] | None => [v] end) else dget Qeq_bool tau m.
Proof. unfold dappend. rewrite qget_alter. reflexivity. Qed.
Lemma get_eq {V} (m : dict Q V) t tau : Qeq_bool tau t = true -> dget Qeq_bool tau m = dget Qeq_bool t m.
Proof. intros E. induction m as [|[a v] m IH]; cbn; [reflexivity|]. rewrite (eqb_same _ qeqb_sym qeqb_trans _ _ a E), IH. reflexivity. Qed.
Lemma record_look key d t x k tau : look (record_state key d (t, x)) k tau = if Z.eqb k key && Qeq_bool tau t then look d k tau ++ [x] else look d k tau.
Proof.
  unfold look, record_state. cbn [fst snd]. rewrite zget_alter. destruct (Z.eqb k key) eqn:E; cbn [andb]; [|reflexivity]. apply Z.eqb_eq in E. subst k.
  rewrite dappend_get. destruct (dget Z.eqb key d) as [m|] eqn:G.
  - destruct (Qeq_bool tau t) eqn:F; [|reflexivity]. rewrite (get_eq m _ _ F). destruct (dget Qeq_bool t m); reflexivity.
  - cbn. destruct (Qeq_bool tau t); reflexivity.
Qed.
Lemma dappend_wf {V} t (v : V) m : (qdistinct m /\ forall t l, In (t, l) m -> l <> []) ->
  qdistinct (dappend Qeq_bool t v m) /\ forall t' l, In (t', l) (dappend Qeq_bool t v m) -> l <> [].
Proof.
  intros [D N]. split; [apply alter_distinct; [exact qeqb_refl|exact qeqb_sym|exact qeqb_trans|exact D]|]. intros t' l H. apply alter_In in H; [|exact qeqb_refl]. destruct H as [H|[_ H]]; [exact (N _ _ H)|].
  cbn in H. subst l. destruct (dget Qeq_bool t m) as [l|]; [destruct l|]; discriminate.
Qed.
Lemma record_wf key d ts : wf d -> wf (record_state key d ts).
Proof.
  intros W. split; [apply alter_distinct; [exact Z.eqb_refl|exact Z.eqb_sym|exact zeqb_trans|apply W]|]. intros k m H. apply alter_In in H; [|exact Z.eqb_refl]. destruct H as [H|[_ H]]; [apply (proj2 W _ _ H)|].
  cbn in H. subst m. apply dappend_wf. destruct (dget Z.eqb key d) as [m|] eqn:E; [exact (get_wf _ W E)|]. split; [exact I|intros t l []].
Qed.
Lemma records key temp : forall d, wf d -> wf (fold_left (record_state key) temp d) /\
  forall k tau x, In x (look (fold_left (record_state key) temp d) k tau) <-> In x (look d k tau) \/ (k = key /\ exists t, In (t, x) temp /\ (t == tau)%Q).
Proof.
  induction temp as [|[t s] temp IH]; intros d W; cbn [fold_left].
  - split; [exact W|]. intros k tau x. split; [auto|]. intros [H|[_ [t [[] _]]]]. exact H.
  - destruct (IH _ (record_wf key (t, s) W)) as [W' M]. split; [exact W'|]. intros k tau x. rewrite M, record_look. clear M W' IH.
    destruct (Z.eqb k key) eqn:E; cbn [andb].
    + apply Z.eqb_eq in E. subst k. destruct (Qeq_bool tau t) eqn:F.
      * rewrite in_app_iff. apply Qeq_bool_iff in F. split.
        -- intros [[H|[<-|[]]]|[_ [t' [H E]]]]; [auto|right; split; [reflexivity|]; exists t; split; [left; reflexivity|lra]|right; split; [reflexivity|]; exists t'; cbn; auto].
        -- intros [H|[_ [t' [[[= <- <-]|H] E]]]]; [auto|left; right; left; reflexivity|right; eauto].
      * split.
        -- intros [H|[_ [t' [H E]]]]; [auto|]. right. split; [reflexivity|]. exists t'. cbn. auto.
        -- intros [H|[_ [t' [[[= <- <-]|H] E]]]]; [auto| |right; eauto]. apply Qeq_sym, Qeq_bool_iff in E. congruence.
    + apply Z.eqb_neq in E. split; intros [H|[K _]]; auto; congruence.
Qed.
(** * The walk over the trees *)
Section Walk.
  Variable hash : word -> Z.
  Inductive below (t : tree simnode) (o : option Z) : Z -> tree simnode -> Prop :=
  | BHere : below t o (new_hist hash o (content t)) t
  | BDown k n c : below t o k n -> In c (child n) -> below t o (new_hist hash (Some k) (content c)) c.
  Lemma below_in c t o k n : In c (child t) -> below c (Some (new_hist hash o (content t))) k n -> below t o k n.
  Proof. intros H B. induction B as [|k n c' B IH Hc]; [apply BDown with t; [constructor|exact H]|apply BDown with n; assumption]. Qed.
  Lemma below_out t o k n : below t o k n -> (k = new_hist hash o (content t) /\ n = t) \/ exists c, In c (child t) /\ below c (Some (new_hist hash o (content t))) k n.
  Proof.
    intros B. induction B as [|k n c B IH Hc]; [auto|]. right. destruct IH as [[-> ->]|[c' [H' B']]].
    - exists c. split; [exact Hc|constructor].
    - exists c'. split; [exact H'|]. apply BDown with n; assumption.
  Qed.
  Definition holds_at (n : simnode) (tau : Q) (x : vec) : Prop := has_time n tau /\ x = joint_at n tau.
  Lemma walk_spec : forall fuel q d d', walk hash fuel q d = Some d' -> wf d -> wf d' /\
    forall k tau x, In x (look d' k tau) <-> In x (look d k tau) \/ exists t o n, In (t, o) q /\ below t o k n /\ holds_at (content n) tau x.
  Proof.
    induction fuel as [|f IH]; intros [|[t o] q] d d' H W; cbn [walk] in H; try discriminate.
    1,2: injection H as <-; split; [exact W|]; intros k tau x; split; [auto|]; intros [K|(t & o & n & [] & _)]; exact K.
    destruct (add_agents [] (sn_trace (content t))) as [temp|] eqn:T; cbn [obind] in H; [|discriminate]. set (key := new_hist hash o (content t)) in *.
    destruct (@records key temp _ (ensure_wf key W)) as [W1 M1]. destruct (IH _ _ _ H W1) as [W2 M2]. split; [exact W2|]. intros k tau x. rewrite M2, M1, ensure_look.
    rewrite (temp_spec _ T). fold (holds_at (content t) tau x). clear M2 M1. split.
    - intros [[K|[-> K]]|(t' & o' & n & Hin & B & K)]; [auto|right; exists t, o, t; split; [left; reflexivity|]; split; [constructor|exact K]|]. right. apply in_app_or in Hin. destruct Hin as [Hin|Hin].
      + exists t', o', n. cbn. auto.
      + apply in_map_iff in Hin. destruct Hin as [c [[= <- <-] Hc]]. exists t, o, n. split; [left; reflexivity|]. split; [exact (below_in _ Hc B)|exact K].
    - intros [K|(t' & o' & n & [[= <- <-]|Hin] & B & K)]; [auto| |right; exists t', o', n; split; [apply in_or_app; auto|auto]]. apply below_out in B. destruct B as [[-> ->]|[c [Hc B]]]; [auto|].
      right. exists c, (Some key), n. split; [apply in_or_app; right; apply in_map_iff; exists c; auto|auto].
  Qed.
  Lemma sim_loop_spec sims : forall d d', sim_loop hash sims d = Some d' -> wf d -> wf d' /\
    forall k tau x, In x (look d' k tau) <-> In x (look d k tau) \/ exists t n, In t sims /\ below t None k n /\ holds_at (content n) tau x.
  Proof.
    induction sims as [|t sims IH]; intros d d' H W; cbn [sim_loop] in H.
    - injection H as <-. split; [exact W|]. intros k tau x. split; [auto|]. intros [K|(t & n & [] & _)]. exact K.
    - destruct (walk hash (size t) [(t, None)] d) as [d1|] eqn:E; cbn [obind] in H; [|discriminate]. destruct (walk_spec _ _ E W) as [W1 M1]. destruct (IH _ _ H W1) as [W2 M2].
      split; [exact W2|]. intros k tau x. rewrite M2, M1. split.
      + intros [[K|(t' & o & n & [[= <- <-]|[]] & K)]|(t' & n & Hin & K)]; [auto|right; exists t, n; cbn; auto|right; exists t', n; cbn; auto].
      + intros [K|(t' & n & [<-|Hin] & K)]; [auto|left; right; exists t, None, n; cbn; auto|right; eauto].
  Qed.

  (** Success *)
  Definition rows_ok (n : simnode) : Prop := forall a rows, In (a, rows) (sn_trace n) -> Forall (fun r => r <> []) rows.
  Fixpoint all_ok (t : tree simnode) : Prop := match t with Node a ch => rows_ok a /\ (fix go l := match l with [] => True | c :: l' => all_ok c /\ go l' end) ch end.
  Lemma all_ok_child t c : all_ok t -> In c (child t) -> all_ok c.
  Proof. destruct t as [a ch]. cbn. intros [_ H]. induction ch as [|b ch IH]; intros Hin; [destruct Hin|]. destruct H as [H1 H2]. destruct Hin as [<-|Hin]; auto. Qed.
  Lemma all_ok_here t : all_ok t -> rows_ok (content t). Proof. destruct t. cbn. tauto. Qed.
  Lemma add_rows_some rows : forall temp, Forall (fun r => r <> []) rows -> exists t', add_rows temp rows = Some t'.
  Proof. induction rows as [|r rows IH]; intros temp F; [eexists; reflexivity|]. inversion F; subst. cbn [add_rows]. destruct r as [|t x]; [congruence|]. cbn [add_row obind]. apply IH. assumption. Qed.
  Lemma add_agents_some trs : forall temp, (forall a rows, In (a, rows) trs -> Forall (fun r => r <> []) rows) -> exists t', add_agents temp trs = Some t'.
  Proof.
    induction trs as [|[a rows] trs IH]; intros temp F; [eexists; reflexivity|]. cbn [add_agents snd]. destruct (@add_rows_some rows temp (F a rows (or_introl eq_refl))) as [t1 ->]. cbn [obind].
    apply IH. intros a' rs H. apply (F a'). right. exact H.
  Qed.
  Lemma walk_some : forall fuel q d, list_sum (map (fun p => size (fst p)) q) <= fuel -> Forall (fun p => all_ok (fst p)) q -> exists d', walk hash fuel q d = Some d'.
  Proof.
    induction fuel as [|f IH]; intros [|[t o] q] d S F; cbn [walk]; try (eexists; reflexivity); [destruct t; cbn in S; lia|]. inversion F as [|? ? Ft Fq]; subst. cbn [fst] in Ft.
    destruct (@add_agents_some (sn_trace (content t)) [] (all_ok_here _ Ft)) as [temp ->]. cbn [obind]. apply IH.
    - rewrite map_app, list_sum_app, map_map. cbn [fst]. destruct t as [a ch]. cbn [map fst size child] in S |- *. change (map (fun x : tree simnode => size x) ch) with (map (@size simnode) ch). change (Datatypes.S (list_sum (map (@size simnode) ch)) + list_sum (map (fun p => size (fst p)) q) <= Datatypes.S f) in S. lia.
    - apply Forall_app. split; [exact Fq|]. apply Forall_forall. intros p Hp. apply in_map_iff in Hp. destruct Hp as [c [<- Hc]]. exact (all_ok_child _ _ Ft Hc).
  Qed.
  Lemma sim_loop_some sims : forall d, Forall all_ok sims -> exists d', sim_loop hash sims d = Some d'.
  Proof.
    induction sims as [|t sims IH]; intros d F; cbn [sim_loop]; [eexists; reflexivity|]. inversion F; subst. destruct (@walk_some (size t) [(t, None)] d) as [d1 ->]; [cbn; lia|constructor; [assumption|constructor]|]. cbn [obind]. apply IH. assumption.
  Qed.

  (** The key of a history *)
  Definition keys (h : list (list (list word))) : option Z := fold_left (fun o ms => Some (hash (str_hist o ++ written ms))) h None.
  Lemma comp_written n : comp_modes n = written (modes_of n).
  Proof. unfold comp_modes, written, modes_of. rewrite map_map. induction (sn_mode n) as [|a l IH]; [reflexivity|]. cbn [map join_with barred]. destruct l; [reflexivity|]. cbn [map] in *. rewrite IH. reflexivity. Qed.
  Lemma keys_app h ms : keys (h ++ [ms]) = Some (hash (str_hist (keys h) ++ written ms)).
  Proof. unfold keys. rewrite fold_left_app. reflexivity. Qed.
  Lemma below_visited t k n : below t None k n <-> exists h, visited t h n /\ keys h = Some k.
  Proof.
    split.
    - intros B. induction B as [|k n c B [h [V E]] Hc].
      + exists [modes_of (content t)]. split; [constructor|]. unfold new_hist. rewrite comp_written. reflexivity.
      + exists (h ++ [modes_of (content c)]). split; [apply VChild with n; assumption|]. rewrite keys_app, E. unfold new_hist. rewrite comp_written. reflexivity.
    - intros [h [V E]]. revert k E. induction V as [|h n c V IH Hc]; intros k E.
      + unfold keys in E. cbn [fold_left] in E. injection E as <-. rewrite <- comp_written. constructor.
      + rewrite keys_app in E. injection E as <-. destruct (keys h) as [k'|] eqn:K; [|destruct V; [discriminate|rewrite keys_app in K; discriminate]].
        rewrite <- comp_written. apply BDown with n; [apply IH; reflexivity|exact Hc].
  Qed.
  Definition key_class (sims : list (tree simnode)) (k : Z) (tau : Q) (x : vec) : Prop := exists h, keys h = Some k /\ seen sims h tau x.
  Lemma dict_spec sims d : sim_traces_to_dict_composed hash sims = Some d -> wf d /\ forall k tau x, In x (look d k tau) <-> key_class sims k tau x.
  Proof.
    intros H. destruct (sim_loop_spec _ H) as [W M]; [split; [exact I|intros k m []]|]. split; [exact W|]. intros k tau x. rewrite M. cbn. unfold key_class, seen. split.
    - intros [[]|(t & n & Ht & B & K1 & K2)]. apply below_visited in B. destruct B as [h [V E]]. exists h. split; [exact E|]. exists t, n. auto.
    - intros (h & E & t & n & Ht & V & K1 & K2). right. exists t, n. split; [exact Ht|]. split; [apply below_visited; eauto|split; assumption].
  Qed.
End Walk.
