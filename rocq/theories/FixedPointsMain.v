(** Reach sets of whole trees. *)
From Coq Require Import Ascii String Reals Qreals Lra.
From Verif Require Import Base BaseFacts PyText Dict ResetProofs FixedPoints FixedPointsSpec FixedPointsProofs.
Set Implicit Arguments.
Open Scope nat_scope.

Definition step_enums (es : list enum) (nd : fnode) : list enum := zipw (fun d ms => fold_left number ms d) es (fmode nd).
Definition finals (es : list enum) (nodes : list fnode) : list enum := fold_left step_enums nodes es.

Definition rows_of (tr : option (list row)) : list row := match tr with Some r => r | None => [] end.
Definition css (E : list enum) (nd : fnode) : list (list Q) := zipw (fun d ms => map (code d) ms) E (fmode nd).
Definition picks (E : list enum) (nd : fnode) (ks : list nat) : list (list row) :=
  zipw (fun tr cs => pick (rows_of tr) cs ks) (ftrace nd) (css E nd).

(** The steps selected by a call of [reach_at_fix]. *)
Definition steps (win : option (Q * Q)) (T : Q) (times : list Q) : list nat :=
  match win with
  | Some (lo, hi) => filter (inside times lo hi) (seq 0 (length times / 2))
  | None => if Qeq_bool (end_time times) T then [last_step times] else []
  end.

Definition modes_ok (dims : list (nat * nat)) (ms : list (list word)) : Prop :=
  Forall2 (fun d ms => length ms = snd d /\ ~ In (w "_index") ms) dims ms.

Lemma step_enums_spec dims : forall modes es, modes_ok dims modes -> length es = length dims -> Forall EI es ->
  let es' := zipw (fun d ms => fold_left number ms d) es modes in
  length es' = length dims /\ Forall EI es' /\ Forall2 extends es es'.
Proof.
  induction dims as [|d dims IH]; intros modes es M L F; inversion M; subst; destruct es as [|e es]; simpl in L; try lia; simpl.
  - repeat split; constructor.
  - inversion F; subst. destruct H1 as [_ N]. match goal with K : EI e |- _ => destruct (numbers_spec _ K N) as [A [B _]] end.
    destruct (IH l' es H3) as [C [D G]]; [lia|assumption|]. split; [lia|]. split; constructor; assumption.
Qed.

Lemma ext2_refl es : Forall2 extends es es.
Proof. induction es; constructor; [apply ext_refl'|assumption]. Qed.
Lemma ext2_trans a : forall b c, Forall2 extends a b -> Forall2 extends b c -> Forall2 extends a c.
Proof.
  induction a as [|x a IH]; intros b c H1 H2; inversion H1; subst; inversion H2; subst; constructor.
  - eapply ext_trans'; eassumption.
  - eapply IH; eassumption.
Qed.
Lemma finals_spec dims nodes : forall es, (forall nd, In nd nodes -> modes_ok dims (fmode nd)) -> length es = length dims -> Forall EI es ->
  length (finals es nodes) = length dims /\ Forall EI (finals es nodes) /\ Forall2 extends es (finals es nodes).
Proof.
  induction nodes as [|nd nodes IH]; intros es M L F; simpl.
  - split; [exact L|]. split; [exact F|apply ext2_refl].
  - destruct (@step_enums_spec dims (fmode nd) es (M nd (or_introl eq_refl)) L F) as [L' [F' E']].
    destruct (IH (step_enums es nd)) as [A [B C]]; [intros x Hx; apply M; right; exact Hx|exact L'|exact F'|].
    split; [exact A|]. split; [exact B|]. exact (ext2_trans E' C).
Qed.

(** All modes of a node that was passed are numbered in the end. *)
Definition numbered (E : list enum) (modes : list (list word)) : Prop :=
  Forall2 (fun e ms => forall m, In m ms -> exists c, dget word_eqb m e = Some c) E modes.
Lemma step_numbered dims : forall modes es E, modes_ok dims modes -> length es = length dims -> Forall EI es ->
  Forall2 extends (zipw (fun d ms => fold_left number ms d) es modes) E -> numbered E modes.
Proof.
  unfold numbered. induction dims as [|d dims IH]; intros modes es E M L F X; inversion M; subst; destruct es as [|e es]; simpl in L; try lia; simpl in X.
  - inversion X; constructor.
  - inversion X; subst. inversion F; subst. destruct H1 as [_ N]. constructor; [|apply IH with es; auto].
    match goal with K : EI e |- _ => destruct (numbers_spec _ K N) as [_ [_ P]] end. intros m Hm. destruct (P m Hm) as [c C]. exists c.
    match goal with K : extends _ y0 |- _ => apply K; [|exact C] end. intros ->. contradiction.
Qed.
Lemma finals_numbered dims nodes : forall es nd, (forall nd, In nd nodes -> modes_ok dims (fmode nd)) -> length es = length dims -> Forall EI es ->
  In nd nodes -> numbered (finals es nodes) (fmode nd).
Proof.
  induction nodes as [|n nodes IH]; intros es nd M L F Hin; [destruct Hin|]. simpl.
  destruct (@step_enums_spec dims (fmode n) es (M n (or_introl eq_refl)) L F) as [L' [F' E']].
  destruct Hin as [->|Hin].
  - destruct (@finals_spec dims nodes (step_enums es nd)) as [_ [_ C]]; [intros x Hx; apply M; right; exact Hx|exact L'|exact F'|].
    eapply (@step_numbered dims (fmode nd) es); [apply M; left; reflexivity|exact L|exact F|exact C].
  - apply IH; [intros x Hx; apply M; right; exact Hx|exact L'|exact F'|exact Hin].
Qed.

(** One node. *)
Lemma agent_rows_ok win T times d tr cs : tube_ok times d tr ->
  (exists m, length times = 2 * S m) -> ~ (nth 0 times 0 == nth 1 times 0)%Q ->
  (forall i j, i <= j -> 2 * j + 1 < length times -> (nth (2 * i + 1) times 0 <= nth (2 * j + 1) times 0)%Q) ->
  agent_rows win T cs tr = Some (pick (rows_of tr) cs (steps win T times)).
Proof.
  intros [rows [-> F]] L N M. destruct win as [[lo hi]|]; cbn [rows_of steps].
  - eapply window_agent; eassumption.
  - eapply end_agent; eassumption.
Qed.

Lemma node_rows_ok win T times (L : exists m, length times = 2 * S m) (N : ~ (nth 0 times 0 == nth 1 times 0)%Q)
  (M : forall i j, i <= j -> 2 * j + 1 < length times -> (nth (2 * i + 1) times 0 <= nth (2 * j + 1) times 0)%Q) dims :
  forall trs modes es E, Forall2 (fun d tr => tube_ok times (fst d) tr) dims trs -> modes_ok dims modes ->
  length es = length dims -> Forall EI es -> Forall2 extends (zipw (fun d ms => fold_left number ms d) es modes) E ->
  node_rows win T es modes trs = Some (zipw (fun d ms => fold_left number ms d) es modes,
     zipw (fun tr cs => pick (rows_of tr) cs (steps win T times)) trs (zipw (fun d ms => map (code d) ms) E modes)).
Proof.
  induction dims as [|d dims IH]; intros trs modes es E Ft Fm Le Fe X; inversion Ft; subst; inversion Fm; subst;
    destruct es as [|e es]; simpl in Le; try lia; simpl in X.
  - inversion X; reflexivity.
  - inversion X; subst. inversion Fe; subst. match goal with K : _ /\ ~ In _ _ |- _ => destruct K as [_ Nm] end. simpl.
    match goal with K : EI e |- _ => destruct (numbers_spec _ K Nm) as [_ [_ P]] end.
    rewrite (@codes_total _ y1 _ ltac:(eassumption) Nm P). cbn [obind].
    rewrite (@agent_rows_ok win T times (fst d) y _ ltac:(eassumption) L N M). cbn [obind].
    erewrite IH; [|eassumption|eassumption|lia|assumption|eassumption]. reflexivity.
Qed.

Lemma reach_nodes_ok win T dims (times : fnode -> list Q) nodes : forall es,
  dims <> [] -> (forall nd, In nd nodes -> node_ok dims (times nd) nd) -> length es = length dims -> Forall EI es ->
  (forall nd, In nd nodes -> steps win T (times nd) <> [] -> exists c, compose None (picks (finals es nodes) nd (steps win T (times nd))) = Some (Some c)) ->
  exists out, reach_nodes win T es nodes = Some out /\
    (forall x, In (Some x) out <-> exists nd, In nd nodes /\ steps win T (times nd) <> [] /\
        compose None (picks (finals es nodes) nd (steps win T (times nd))) = Some (Some x)) /\
    ((exists nd, In nd nodes /\ steps win T (times nd) <> []) -> exists x tail, out = Some x :: tail).
Proof.
  induction nodes as [|nd nodes IH]; intros es D H L F X.
  - exists []. split; [reflexivity|]. split; [|intros [nd [[] _]]]. intros x. split; [intros []|intros [nd [[] _]]].
  - assert (Hn := H nd (or_introl eq_refl)). destruct Hn as [L1 [N1 [M1 [Ft Fm]]]].
    assert (Mall : forall n, In n (nd :: nodes) -> modes_ok dims (fmode n)) by (intros n Hn; apply (H n Hn)).
    destruct (@step_enums_spec dims (fmode nd) es Fm L F) as [L' [F' E']].
    fold (step_enums es nd) in L', F', E'.
    destruct (@finals_spec dims nodes (step_enums es nd)) as [LE [FE XE]]; [intros n Hn; apply Mall; right; exact Hn|exact L'|exact F'|].
    assert (NR := @node_rows_ok win T (times nd) L1 N1 M1 dims (ftrace nd) (fmode nd) es (finals (step_enums es nd) nodes) Ft Fm L F XE).
    fold (css (finals (step_enums es nd) nodes) nd) in NR.
    fold (picks (finals (step_enums es nd) nodes) nd (steps win T (times nd))) in NR.
    fold (step_enums es nd) in NR.
    change (finals es (nd :: nodes)) with (finals (step_enums es nd) nodes) in X |- *. set (E := finals (step_enums es nd) nodes) in *.
    destruct (IH (step_enums es nd) D) as [out [R [P Q]]]; [intros n Hn; apply H; right; exact Hn|exact L'|exact F'
        |intros n Hn; apply X; right; exact Hn|]. clear IH.
    simpl. rewrite NR. cbn [obind fst snd].
    destruct (steps win T (times nd)) as [|k ks] eqn:S.
    + assert (C0 : compose None (picks E nd []) = Some None).
      { apply compose_none. unfold picks. clear. generalize (css E nd). induction (ftrace nd) as [|tr trs IH]; intros [|c l]; simpl; constructor; auto. }
      rewrite C0. cbn [obind]. rewrite R. cbn [obind].
      destruct nodes as [|n2 nodes'].
      * eexists. split; [reflexivity|]. split.
        -- intros x. split; [intros [K|[]]; discriminate|]. intros [n [[<-|[]] [K _]]]. congruence.
        -- intros [n [[<-|[]] K]]. congruence.
      * exists out. split; [reflexivity|]. split.
        -- intros x. rewrite P. split; intros [n [Hn K]]; exists n; (split; [|exact K]).
           ++ right; exact Hn.
           ++ destruct Hn as [<-|Hn]; [destruct K; congruence|exact Hn].
        -- intros [n [[<-|Hn] K]]; [congruence|]. apply Q. exists n. auto.
    + destruct (X nd (or_introl eq_refl)) as [c C]; [rewrite S; discriminate|]. rewrite S in C. rewrite C. cbn [obind]. rewrite R. cbn [obind].
      eexists. split; [reflexivity|]. split; [|intros _; exists c, out; reflexivity].
      intros x. simpl. rewrite P. split.
      * intros [[= <-]|[n [Hn K]]]; [exists nd; rewrite S; split; [auto|split; [discriminate|exact C]]|exists n; auto].
      * intros [n [[<-|Hn] K]]; [|right; exists n; auto]. left. rewrite S in K. destruct K as [_ K]. congruence.
Qed.

(** ** What a composed box means *)
Lemma pick_length rows cs ks : length (pick rows cs ks) = 2 * length ks.
Proof. induction ks; simpl; lia. Qed.
Lemma pick_lo rows cs ks j : j < length ks -> nth (2 * j) (pick rows cs ks) [] = tl (nth (2 * nth j ks 0) rows []) ++ cs.
Proof.
  revert j. induction ks as [|k ks IH]; intros j H; [simpl in H; lia|]. destruct j as [|j]; [reflexivity|].
  replace (2 * S j) with (S (S (2 * j))) by lia. change (pick rows cs (k :: ks)) with ([tl (nth (2 * k) rows []) ++ cs; tl (nth (2 * k + 1) rows []) ++ cs] ++ pick rows cs ks).
  cbn [app nth]. apply IH. simpl in H. lia.
Qed.
Lemma pick_hi rows cs ks j : j < length ks -> nth (2 * j + 1) (pick rows cs ks) [] = tl (nth (2 * nth j ks 0 + 1) rows []) ++ cs.
Proof.
  revert j. induction ks as [|k ks IH]; intros j H; [simpl in H; lia|]. destruct j as [|j]; [reflexivity|].
  replace (2 * S j + 1) with (S (S (2 * j + 1))) by lia. change (pick rows cs (k :: ks)) with ([tl (nth (2 * k) rows []) ++ cs; tl (nth (2 * k + 1) rows []) ++ cs] ++ pick rows cs ks).
  cbn [app nth]. apply IH. simpl in H. lia.
Qed.

Lemma between_len lo hi x : between lo hi x -> length lo = length x /\ length hi = length x.
Proof. intros H. apply between_nth in H. tauto. Qed.
Lemma between_app a : forall b x a' b', length a = length b ->
  (between (a ++ a') (b ++ b') x <-> exists y z, x = y ++ z /\ between a b y /\ between a' b' z).
Proof.
  induction a as [|p a IH]; intros [|q b] x a' b' L; simpl in L; try lia.
  - simpl. split.
    + intros H. exists [], x. simpl. auto.
    + intros [y [z [-> [H1 H2]]]]. destruct y; [exact H2|destruct H1].
  - destruct x as [|v x]; simpl.
    + split; [intros []|]. intros [y [z [E [H1 _]]]]. destruct y; [exact H1|discriminate].
    + rewrite (IH b x a' b') by lia. split.
      * intros [H [y [z [-> [H1 H2]]]]]. exists (v :: y), z. simpl. auto.
      * intros [y [z [E [H1 H2]]]]. destruct y as [|v' y]; [destruct H1|]. simpl in E, H1. injection E as <- ->.
        split; [apply H1|]. exists y, z. split; [reflexivity|]. split; [apply H1|exact H2].
Qed.
Lemma between_self cs z : between cs cs z <-> z = map Q2R cs.
Proof.
  revert z. induction cs as [|c cs IH]; intros [|v z]; simpl; try (split; [intros []|discriminate]).
  - tauto.
  - rewrite IH. split.
    + intros [H ->]. f_equal. lra.
    + intros [= -> ->]. split; [lra|reflexivity].
Qed.

Definition flat (ys : list (list R)) (cs : list (list Q)) : list R := concat (zipw (fun y c => y ++ map Q2R c) ys cs).

Definition at_step (k : nat) (tr : option (list row)) (x : list R) : Prop :=
  exists rows lo hi, tr = Some rows /\ nth_error rows (2 * k) = Some lo /\ nth_error rows (2 * k + 1) = Some hi /\ between (tl lo) (tl hi) x.

Lemma tube_rows times d tr k : tube_ok times d tr -> 2 * k + 1 < length times ->
  length (tl (nth (2 * k) (rows_of tr) [])) = d /\ length (tl (nth (2 * k + 1) (rows_of tr) [])) = d /\
  forall x, at_step k tr x <-> between (tl (nth (2 * k) (rows_of tr) [])) (tl (nth (2 * k + 1) (rows_of tr) [])) x.
Proof.
  intros [rows [-> F]] H. simpl rows_of.
  destruct (@rows_time times rows d (2 * k) F) as [t [x [E1 [N1 [_ L1]]]]]; [lia|].
  destruct (@rows_time times rows d (2 * k + 1) F) as [t' [x' [E2 [N2 [_ L2]]]]]; [lia|].
  rewrite N1, N2. simpl tl. split; [exact L1|]. split; [exact L2|]. intros y. split.
  - intros [rows' [lo [hi [[= <-] [A [B C]]]]]]. rewrite E1 in A. rewrite E2 in B. injection A as <-. injection B as <-. exact C.
  - intros C. exists rows, (t :: x), (t' :: x'). auto.
Qed.

Lemma concat_step times k (dims : list (nat * nat)) : 2 * k + 1 < length times ->
  forall trs cs x, Forall2 (fun d tr => tube_ok times (fst d) tr) dims trs -> length cs = length trs ->
  (between (concat (zipw (fun tr c => tl (nth (2 * k) (rows_of tr) []) ++ c) trs cs))
           (concat (zipw (fun tr c => tl (nth (2 * k + 1) (rows_of tr) []) ++ c) trs cs)) x <->
   exists ys, Forall2 (at_step k) trs ys /\ x = flat ys cs).
Proof.
  intros Hk. induction dims as [|d dims IH]; intros trs cs x F L; inversion F; subst; destruct cs as [|c cs]; simpl in L; try lia.
  - simpl. split.
    + destruct x; [|intros []]. intros _. exists []. split; [constructor|reflexivity].
    + intros [ys [G ->]]. inversion G; subst. reflexivity.
  - destruct (@tube_rows times (fst d) y k H1 Hk) as [L1 [L2 A]]. cbn [zipw concat].
    rewrite between_app by (rewrite !app_length; lia). split.
    + intros [u [v [-> [B1 B2]]]]. apply between_app in B1; [|lia]. destruct B1 as [p [q [-> [B1 B3]]]].
      apply between_self in B3. subst q. apply (IH l' cs v H3) in B2; [|lia]. destruct B2 as [ys [G ->]].
      exists (p :: ys). split; [constructor; [apply A, B1|exact G]|reflexivity].
    + intros [ys [G ->]]. inversion G; subst. exists (y0 ++ map Q2R c), (flat l'0 cs). split; [reflexivity|]. split.
      * apply between_app; [lia|]. exists y0, (map Q2R c). split; [reflexivity|]. split; [apply A; assumption|apply between_self; reflexivity].
      * apply (IH l' cs _ H3); [lia|]. exists l'0. auto.
Qed.

Lemma flat_inj (dims : list (nat * nat)) : forall ys ys' cs cs',
  Forall2 (fun d y => length y = fst d) dims ys -> Forall2 (fun d y => length y = fst d) dims ys' ->
  Forall2 (fun d c => length c = snd d) dims cs -> Forall2 (fun d c => length c = snd d) dims cs' ->
  flat ys cs = flat ys' cs' -> ys = ys' /\ Forall2 (Forall2 Qeq) cs cs'.
Proof.
  induction dims as [|d dims IH]; intros ys ys' cs cs' F1 F2 F3 F4 E; inversion F1; inversion F2; inversion F3; inversion F4; subst.
  - split; [reflexivity|constructor].
  - unfold flat in E. simpl in E. fold (flat l' l'1) in E. fold (flat l'0 l'2) in E. rewrite <- !app_assoc in E.
    assert (Inj : forall A (a b a' b' : list A), length a = length b -> a ++ a' = b ++ b' -> a = b /\ a' = b').
    { clear. intros A. induction a as [|x a IH]; intros [|y b] a' b' L E; simpl in *; try discriminate; [auto|].
      injection E as -> E. injection L as L. destruct (IH b a' b' L E) as [-> ->]. auto. }
    apply Inj in E; [|congruence]. destruct E as [-> E]. apply Inj in E; [|rewrite !map_length; congruence]. destruct E as [E1 E2].
    destruct (IH l' l'0 l'1 l'2) as [-> G]; try assumption. split; [reflexivity|]. constructor; [|exact G].
    assert (LL : length y1 = length y2) by congruence. clear -E1 LL. revert y2 E1 LL.
    induction y1 as [|a y1 IH]; intros [|b y2] E1 LL; simpl in *; try discriminate; constructor.
    + injection E1 as E _. apply eqR_Qeq, E.
    + apply IH; [injection E1; auto|lia].
Qed.

Lemma flat_ext ys : forall cs cs', Forall2 (Forall2 Qeq) cs cs' -> flat ys cs = flat ys cs'.
Proof.
  unfold flat. induction ys as [|y ys IH]; intros cs cs' F; [reflexivity|]. destruct F as [|c c' cs cs' H F]; [reflexivity|].
  simpl. f_equal; [|apply IH, F]. f_equal. induction H as [|a b c c' E H IH2]; simpl; [reflexivity|]. f_equal; [apply Qeq_eqR, E|exact IH2].
Qed.

Lemma zipw_nil_iff {A B C} (f : A -> B -> C) l m : length l = length m -> l <> [] -> zipw f l m <> [].
Proof. destruct l, m; simpl; try congruence; discriminate. Qed.

(** The boxes of one node. *)
Lemma node_union dims times E nd ks : dims <> [] -> node_ok dims times nd -> length E = length dims ->
  ks <> [] -> (forall k, In k ks -> 2 * k + 1 < length times) ->
  exists c, compose None (picks E nd ks) = Some (Some c) /\ length c = 2 * length ks /\
    (exists n, Forall (fun v => length v = n) c /\ n = list_sum (map (fun d => fst d + snd d) dims)) /\
    forall x, (exists j lo hi, nth_error c (2 * j) = Some lo /\ nth_error c (2 * j + 1) = Some hi /\ between lo hi x) <->
              (exists k ys, In k ks /\ Forall2 (at_step k) (ftrace nd) ys /\ x = flat ys (css E nd)).
Proof.
  intros D [_ [_ [_ [Ft Fm]]]] LE K B.
  assert (Ltr : length (ftrace nd) = length dims) by (symmetry; eapply Forall2_len; exact Ft).
  assert (Lms : length (fmode nd) = length dims) by (symmetry; eapply Forall2_len; exact Fm).
  assert (Lcs : length (css E nd) = length (ftrace nd)) by (unfold css; rewrite zipw_len; congruence).
  destruct (@compose_spec (2 * length ks) (picks E nd ks)) as [c [C [Lc H]]].
  - destruct ks; [congruence|simpl; lia].
  - unfold picks. apply zipw_nil_iff; [congruence|]. intros Z. rewrite Z in Ltr. destruct dims; [congruence|discriminate].
  - unfold picks. clear. generalize (css E nd). induction (ftrace nd) as [|tr trs IH]; intros [|c l]; simpl; constructor; auto.
    apply pick_length.
  - assert (Lo : forall j, j < length ks -> nth (2 * j) c [] =
       concat (zipw (fun tr c => tl (nth (2 * nth j ks 0) (rows_of tr) []) ++ c) (ftrace nd) (css E nd))).
    { intros j Hj. rewrite H by lia. f_equal. unfold picks. clear -Hj. generalize (css E nd). induction (ftrace nd) as [|tr trs IH]; intros [|c0 l]; cbn [zipw map]; try reflexivity.
      f_equal; [apply pick_lo, Hj|apply IH]. }
    assert (Hi : forall j, j < length ks -> nth (2 * j + 1) c [] =
       concat (zipw (fun tr c => tl (nth (2 * nth j ks 0 + 1) (rows_of tr) []) ++ c) (ftrace nd) (css E nd))).
    { intros j Hj. rewrite H by lia. f_equal. unfold picks. clear -Hj. generalize (css E nd). induction (ftrace nd) as [|tr trs IH]; intros [|c0 l]; cbn [zipw map]; try reflexivity.
      f_equal; [apply pick_hi, Hj|apply IH]. }
    assert (Bj : forall j, j < length ks -> 2 * nth j ks 0 + 1 < length times) by (intros j Hj; apply B, nth_In, Hj).
    exists c. split; [exact C|]. split; [exact Lc|]. split.
    + eexists. split; [|reflexivity]. apply Forall_forall. intros v Hv. apply (In_nth c v []) in Hv. destruct Hv as [i [Hi' <-]].
      rewrite Lc in Hi'. destruct (Nat.Even_or_Odd i) as [[j ->]|[j ->]].
      * rewrite Lo by lia. specialize (Bj j). clear -Ft Fm LE Bj Hi'. assert (Bj' : 2 * nth j ks 0 + 1 < length times) by (apply Bj; lia). clear Bj Hi'.
        unfold css. revert Ft Fm LE. generalize (ftrace nd) (fmode nd). revert E. induction dims as [|d dims IH]; intros E trs mss Ft Fm LE; inversion Ft; inversion Fm; subst; destruct E as [|e E]; simpl in LE; try lia; cbn [zipw concat map list_sum fold_right length]; [reflexivity|].
        destruct (@tube_rows times (fst d) y _ H1 Bj') as [L1 [L2 _]]. rewrite !app_length, map_length, (IH E l' l'0) by (try assumption; lia).
        rewrite L1. match goal with K : _ /\ ~ In _ _ |- _ => destruct K as [-> _] end. unfold list_sum. lia.
      * rewrite Hi by lia. specialize (Bj j). clear -Ft Fm LE Bj Hi'. assert (Bj' : 2 * nth j ks 0 + 1 < length times) by (apply Bj; lia). clear Bj Hi'.
        unfold css. revert Ft Fm LE. generalize (ftrace nd) (fmode nd). revert E. induction dims as [|d dims IH]; intros E trs mss Ft Fm LE; inversion Ft; inversion Fm; subst; destruct E as [|e E]; simpl in LE; try lia; cbn [zipw concat map list_sum fold_right length]; [reflexivity|].
        destruct (@tube_rows times (fst d) y _ H1 Bj') as [L1 [L2 _]]. rewrite !app_length, map_length, (IH E l' l'0) by (try assumption; lia).
        rewrite L2. match goal with K : _ /\ ~ In _ _ |- _ => destruct K as [-> _] end. unfold list_sum. lia.
    + intros x. split.
      * intros [j [lo [hi [E1 [E2 Bt]]]]].
        assert (Hj : j < length ks) by (assert (2 * j + 1 < length c) by (apply nth_error_Some; congruence); lia).
        apply (nth_error_nth _ _ []) in E1. apply (nth_error_nth _ _ []) in E2. rewrite Lo in E1 by exact Hj. rewrite Hi in E2 by exact Hj.
        subst lo hi. apply (@concat_step times (nth j ks 0) dims (Bj j Hj) (ftrace nd) (css E nd) x Ft Lcs) in Bt.
        destruct Bt as [ys [G ->]]. exists (nth j ks 0), ys. split; [apply nth_In, Hj|auto].
      * intros [k [ys [Hk [G ->]]]]. apply (In_nth ks k 0) in Hk. destruct Hk as [j [Hj Ej]].
        exists j, (nth (2 * j) c []), (nth (2 * j + 1) c []).
        split; [apply nth_error_nth'; lia|]. split; [apply nth_error_nth'; lia|].
        rewrite Lo, Hi by exact Hj. rewrite Ej. rewrite <- Ej in Hk || idtac.
        apply (@concat_step times k dims) with (1 := eq_ind_r (fun z => 2 * z + 1 < length times) (Bj j Hj) (eq_sym Ej)); [exact Ft|exact Lcs|].
        exists ys. auto.
Qed.

Lemma half m : (2 * S m) / 2 = S m.
Proof. rewrite Nat.mul_comm. apply Nat.div_mul. lia. Qed.
Lemma steps_bound win T times k : (exists m, length times = 2 * S m) -> In k (steps win T times) -> 2 * k + 1 < length times.
Proof.
  intros [m L]. unfold steps. destruct win as [[lo hi]|].
  - intros H. apply filter_In in H. destruct H as [H _]. apply in_seq in H. rewrite L in *. rewrite half in H. lia.
  - destruct (Qeq_bool _ _); [|intros []]. intros [<-|[]]. unfold last_step. rewrite L, half. lia.
Qed.
Lemma steps_eq win T T' times : (T == T')%Q -> steps win T times = steps win T' times.
Proof.
  intros E. unfold steps. destruct win; [reflexivity|]. destruct (Qeq_bool (end_time times) T) eqn:A; destruct (Qeq_bool (end_time times) T') eqn:B; try reflexivity.
  - apply Qeq_bool_iff in A. rewrite E in A. apply Qeq_bool_iff in A. congruence.
  - apply Qeq_bool_iff in B. rewrite <- E in B. apply Qeq_bool_iff in B. congruence.
Qed.

Definition enums0 (dims : list (nat * nat)) : list enum := map (fun _ => new_enum) dims.
Lemma enums0_ok dims : length (enums0 dims) = length dims /\ Forall EI (enums0 dims).
Proof. unfold enums0. split; [apply map_length|]. apply Forall_forall. intros e H. apply in_map_iff in H. destruct H as [_ [<- _]]. apply new_EI. Qed.
Definition final_enums dims (t : ftree) : list enum := finals (enums0 dims) (fnodes t).

Lemma reach_at_ok dims times t win : tree_ok dims times t ->
  exists out, reach_at_fix t win = Some out /\ rectangular (list_sum (map (fun d => fst d + snd d) dims)) out /\
    (forall x, in_union out x <-> exists nd k ys, In nd (fnodes t) /\ In k (steps win (end_time (times (fleaf t))) (times nd)) /\
         in_step nd k ys /\ x = flat ys (css (final_enums dims t) nd)) /\
    ((exists nd, In nd (fnodes t) /\ steps win (end_time (times (fleaf t))) (times nd) <> []) -> exists v rows tail, out = Some (v :: rows) :: tail).
Proof.
  intros [D [Hl H]].
  destruct (enums0_ok dims) as [L0 F0].
  assert (Mall : forall n, In n (fnodes t) -> modes_ok dims (fmode n)) by (intros n Hn; apply (H n Hn)).
  destruct (finals_spec (fnodes t) Mall L0 F0) as [LE _]. fold (final_enums dims t) in LE.
  assert (U : forall T nd, In nd (fnodes t) -> steps win T (times nd) <> [] ->
     exists c, compose None (picks (final_enums dims t) nd (steps win T (times nd))) = Some (Some c) /\ length c = 2 * length (steps win T (times nd)) /\
      (exists n, Forall (fun v => length v = n) c /\ n = list_sum (map (fun d => fst d + snd d) dims)) /\
      forall x, (exists j lo hi, nth_error c (2 * j) = Some lo /\ nth_error c (2 * j + 1) = Some hi /\ between lo hi x) <->
              (exists k ys, In k (steps win T (times nd)) /\ Forall2 (at_step k) (ftrace nd) ys /\ x = flat ys (css (final_enums dims t) nd))).
  { intros T nd Hn K. apply node_union with (times := times nd) (dims := dims); [exact D|apply H, Hn|exact LE|exact K|].
    intros k Hk. eapply steps_bound; [apply (H nd Hn)|exact Hk]. }
  assert (TT : exists T, match win with
          | Some _ => Some 0%Q
          | None => do o <- hd_error (ftrace (fleaf t)); do tr <- o; do l <- nth_error (rev tr) 0; time_of l
          end = Some T /\ forall nd, steps win T (times nd) = steps win (end_time (times (fleaf t))) (times nd)).
  { destruct win as [[lo hi]|]; [exists 0%Q; split; reflexivity|].
    destruct (H _ Hl) as [[m Lm] [_ [_ [Ft _]]]]. inversion Ft as [E1 E2|d tr dims' trs Htr Ft' E1 E2]; [congruence|].
    destruct Htr as [rows [-> F]]. assert (Lr := Forall2_len F).
    destruct (@rows_time _ _ _ (length (times (fleaf t)) - 1) F) as [t' [x [N1 [_ [Et _]]]]]; [lia|].
    exists t'. split; [|intros nd; apply steps_eq; exact Et].
    cbn [hd_error obind]. rewrite nth_error_rev by lia. rewrite <- Lr. replace (length (times (fleaf t)) - 1 - 0) with (length (times (fleaf t)) - 1) by lia.
    rewrite N1. reflexivity. }
  destruct TT as [T [ET ES]].
  assert (FR : exists first rest, fnodes t = first :: rest) by (destruct (fnodes t); [destruct Hl|eauto]).
  destruct FR as [first [rest FR]].
  assert (EN : map (fun _ => new_enum) (ftrace first) = enums0 dims).
  { assert (In first (fnodes t)) as Hf by (rewrite FR; left; reflexivity). destruct (H _ Hf) as [_ [_ [_ [Ft _]]]].
    clear -Ft. unfold enums0. induction Ft; simpl; congruence. }
  destruct (@reach_nodes_ok win T dims times (fnodes t) (enums0 dims) D H L0 F0) as [out [R [P Q]]].
  { intros nd Hn K. destruct (U T nd Hn K) as [c [C _]]. exists c. exact C. }
  exists out. split; [|split; [|split]].
  - unfold reach_at_fix. rewrite FR at 1. cbn [hd_error obind]. rewrite EN, ET. exact R.
  - intros rows Hr. apply P in Hr. destruct Hr as [nd [Hn [K C]]]. destruct (U T nd Hn K) as [c [C' [Lc [[n [Fc ->]] _]]]].
    fold (final_enums dims t) in C. rewrite C in C'. injection C' as ->. split; [eexists; exact Lc|exact Fc].
  - intros x. split.
    + intros [rows [j [lo [hi [Hr [E1 [E2 B]]]]]]]. apply P in Hr. destruct Hr as [nd [Hn [K C]]].
      destruct (U T nd Hn K) as [c [C' [_ [_ X]]]]. fold (final_enums dims t) in C. rewrite C in C'. injection C' as ->.
      destruct (proj1 (X x)) as [k [ys [Hk [G ->]]]]; [exists j, lo, hi; auto|]. exists nd, k, ys. rewrite <- ES. auto.
    + intros [nd [k [ys [Hn [Hk [G ->]]]]]]. rewrite <- ES in Hk.
      destruct (U T nd Hn) as [c [C [_ [_ X]]]]; [intros K; rewrite K in Hk; destruct Hk|].
      destruct (proj2 (X (flat ys (css (final_enums dims t) nd)))) as [j [lo [hi B]]]; [exists k, ys; auto|].
      exists c, j, lo, hi. split; [|exact B]. apply P. exists nd. split; [exact Hn|]. split; [intros K; rewrite K in Hk; destruct Hk|exact C].
  - intros [nd [Hn K]]. destruct Q as [x [tail ->]]; [exists nd; split; [exact Hn|rewrite ES; exact K]|].
    destruct (proj1 (P x) (or_introl eq_refl)) as [nd' [Hn' [K' C]]]. destruct (U T nd' Hn' K') as [c [C' [Lc _]]].
    fold (final_enums dims t) in C. rewrite C in C'. injection C' as ->. destruct c as [|v c]; [|eauto].
    destruct (steps win T (times nd')); [congruence|discriminate Lc].
Qed.

Lemma in_step_lens dims times nd k ys : node_ok dims times nd -> 2 * k + 1 < length times -> in_step nd k ys ->
  Forall2 (fun d y => length y = fst d) dims ys.
Proof.
  intros [_ [_ [_ [Ft _]]]] Hk. unfold in_step. revert ys. induction Ft as [|d tr dims trs H Ft IH]; intros ys G; inversion G; subst; constructor.
  - destruct (@tube_rows times (fst d) tr k H Hk) as [L1 [_ A]]. apply A in H2. apply between_len in H2. lia.
  - apply IH. assumption.
Qed.
Lemma css_lens dims E nd : modes_ok dims (fmode nd) -> length E = length dims -> Forall2 (fun d c => length c = snd d) dims (css E nd).
Proof.
  unfold css. intros M. revert E. induction M as [|d ms dims mss [L _] M IH]; intros [|e E] LE; simpl in LE; try lia; simpl; constructor.
  - rewrite map_length. exact L.
  - apply IH. lia.
Qed.
Lemma css_inj dims : forall E ms ms', length E = length dims -> Forall EI E -> modes_ok dims ms -> modes_ok dims ms' -> numbered E ms -> numbered E ms' ->
  Forall2 (Forall2 Qeq) (zipw (fun d ms => map (code d) ms) E ms) (zipw (fun d ms => map (code d) ms) E ms') -> ms = ms'.
Proof.
  induction dims as [|d dims IH]; intros E ms ms' L F M M' N N' X; inversion M; inversion M'; subst; [reflexivity|].
  inversion N; subst. inversion N'; subst. inversion F; subst. simpl in X. inversion X; subst.
  match goal with K : _ /\ ~ In _ y, K' : _ /\ ~ In _ y0 |- _ => destruct K as [_ K]; destruct K' as [_ K'] end.
  f_equal.
  - eapply code_inj with (d := x); eassumption.
  - apply (IH l); try assumption. simpl in L. lia.
Qed.

Lemma tree_flat_inj dims times t nd nd' k k' ys ys' : tree_ok dims times t -> In nd (fnodes t) -> In nd' (fnodes t) ->
  2 * k + 1 < length (times nd) -> 2 * k' + 1 < length (times nd') -> in_step nd k ys -> in_step nd' k' ys' ->
  flat ys (css (final_enums dims t) nd) = flat ys' (css (final_enums dims t) nd') -> ys = ys' /\ fmode nd = fmode nd'.
Proof.
  intros [D [Hl H]] Hn Hn' Hk Hk' G G' E. destruct (enums0_ok dims) as [L0 F0].
  assert (Mall : forall n, In n (fnodes t) -> modes_ok dims (fmode n)) by (intros n Hx; apply (H n Hx)).
  destruct (finals_spec (fnodes t) Mall L0 F0) as [LE [FE _]]. fold (final_enums dims t) in LE, FE.
  destruct (@flat_inj dims ys ys' (css (final_enums dims t) nd) (css (final_enums dims t) nd')) as [Ey Ec];
    [exact (in_step_lens (H nd Hn) Hk G)|exact (in_step_lens (H nd' Hn') Hk' G')
    |apply css_lens; [apply Mall|]; assumption|apply css_lens; [apply Mall|]; assumption|exact E|].
  split; [exact Ey|]. apply (@css_inj dims (final_enums dims t)); auto; apply (@finals_numbered dims); auto.
Qed.

Theorem fixed_points_main unsat dims times t T dt : tree_ok dims times t ->
  (forall e r q, reach_at_fix t None = Some e -> reach_at_fix t (Some (0, T - dt + dt * (1 # 100))%Q) = Some r ->
     query e r = Some q -> exact unsat q) ->
  exists b, fixed_points_fix unsat t T dt = Some b /\
    (b = true <-> forall nd xs, In nd (fnodes t) -> (end_time (times nd) == end_time (times (fleaf t)))%Q ->
       in_step nd (last_step (times nd)) xs ->
       exists nd' k, In nd' (fnodes t) /\ fmode nd' = fmode nd /\ 2 * k + 1 < length (times nd') /\
         (0 <= nth (2 * k) (times nd') 0)%Q /\ (nth (2 * k + 1) (times nd') 0 <= T - dt + dt * (1 # 100))%Q /\
         in_step nd' k xs).
Proof.
  intros Ht X. assert (Ht' := Ht). destruct Ht' as [D [Hl H]].
  destruct (@reach_at_ok dims times t None Ht) as [e [Re [Qe [Ue Ne]]]].
  destruct (@reach_at_ok dims times t (Some (0, T - dt + dt * (1 # 100))%Q) Ht) as [r [Rr [Qr [Ur _]]]].
  destruct Ne as [v [rows [tail ->]]].
  { exists (fleaf t). split; [exact Hl|]. unfold steps. rewrite (proj2 (Qeq_bool_iff _ _) (Qeq_refl _)). discriminate. }
  unfold fixed_points_fix. rewrite Re, Rr. cbn [obind].
  destruct (@contains_exact unsat _ rows v tail r Qe Qr) as [b [Eb B]]; [intros q Hq; eapply X; eauto|].
  exists b. split; [exact Eb|]. rewrite B. clear B Eb. split.
  - intros K nd xs Hn Et G. destruct (proj1 (Ur (flat xs (css (final_enums dims t) nd)))) as [nd' [k [ys [Hn' [Hk [G' E]]]]]].
    { apply K. apply Ue. exists nd, (last_step (times nd)), xs. split; [exact Hn|]. split; [|auto].
      unfold steps. rewrite (proj2 (Qeq_bool_iff _ _) Et). left; reflexivity. }
    assert (Bk := @steps_bound _ _ (times nd') k (proj1 (H nd' Hn')) Hk).
    assert (Bl : 2 * last_step (times nd) + 1 < length (times nd)).
    { destruct (proj1 (H nd Hn)) as [m L]. unfold last_step. rewrite L, half. lia. }
    destruct (@tree_flat_inj dims times t nd nd' _ k xs ys Ht Hn Hn' Bl Bk G G' E) as [<- Em].
    exists nd', k. unfold steps in Hk. apply filter_In in Hk. destruct Hk as [_ Hk]. unfold inside in Hk. apply andb_true_iff in Hk.
    destruct Hk as [K1 K2]. apply Qle_bool_iff in K1, K2. auto 10.
  - intros K x Hx. apply Ue in Hx. destruct Hx as [nd [k [ys [Hn [Hk [G ->]]]]]]. apply Ur.
    unfold steps in Hk. destruct (Qeq_bool (end_time (times nd)) _) eqn:E; [|destruct Hk]. destruct Hk as [<-|[]].
    apply Qeq_bool_iff in E. destruct (K nd ys Hn E G) as [nd' [k [Hn' [Em [Bk [K1 [K2 G']]]]]]].
    exists nd', k, ys. split; [exact Hn'|]. split; [|split; [exact G'|unfold css; rewrite Em; reflexivity]].
    unfold steps. apply filter_In. split.
    + apply in_seq. destruct (proj1 (H nd' Hn')) as [m L]. rewrite L in *. rewrite half. lia.
    + unfold inside. apply andb_true_iff. split; apply Qle_bool_iff; assumption.
Qed.
