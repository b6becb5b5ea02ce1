From Verif Require Import Base BaseFacts Boxes BoxesSpec BoxesProofs Overlay OverlaySpec.
From Coq Require Import Lqa Sorting.Sorted.
Set Implicit Arguments.
Open Scope nat_scope.

(** ** Tubes as lists of pairs of rows *)
Definition shape (N d : nat) (bs : list (vec * vec)) : Prop :=
  length bs = N /\ forall b, In b bs -> length (fst b) = S d /\ length (snd b) = S d.

Lemma rows_of_app bs cs : rows_of (bs ++ cs) = rows_of bs ++ rows_of cs.
Proof. unfold rows_of. apply flat_map_app. Qed.

Lemma tube_shape_rows N d t : tube_shape N d t -> exists bs, t = rows_of bs /\ shape N d bs.
Proof.
  intros [HL Hr]. revert t HL Hr. induction N as [|N IH]; intros t HL Hr.
  - destruct t; [|simpl in HL; lia]. exists []. split; [reflexivity|]. split; [reflexivity|intros ? []].
  - destruct t as [|l [|h t]]; simpl in HL; try lia.
    destruct (IH t) as (bs & -> & Hs & Hd); [lia|intros; apply Hr; simpl; auto|].
    exists ((l, h) :: bs). split; [reflexivity|]. split; [simpl; lia|].
    intros b [<-|Hb]; auto. simpl. split; apply Hr; simpl; auto.
Qed.

Lemma shape_tube N d bs : shape N d bs -> tube_shape N d (rows_of bs).
Proof.
  intros [HL Hd]. split; [rewrite rows_of_length; lia|].
  intros row Hrow. apply In_rows_of in Hrow. destruct Hrow as (b & Hb & [->| ->]); apply Hd in Hb; tauto.
Qed.

Lemma firstn_rows k bs : firstn (2 * k) (rows_of bs) = rows_of (firstn k bs).
Proof.
  revert bs; induction k as [|k IH]; intros bs; [reflexivity|].
  replace (2 * S k) with (S (S (2 * k))) by lia.
  destruct bs as [|[l h] bs]; [reflexivity|].
  change (rows_of ((l, h) :: bs)) with (l :: h :: rows_of bs).
  cbn [firstn]. rewrite IH. reflexivity.
Qed.
Lemma skipn_rows k bs : skipn (2 * k) (rows_of bs) = rows_of (skipn k bs).
Proof.
  revert bs; induction k as [|k IH]; intros bs; [reflexivity|].
  replace (2 * S k) with (S (S (2 * k))) by lia.
  destruct bs as [|[l h] bs]; [reflexivity|].
  change (rows_of ((l, h) :: bs)) with (l :: h :: rows_of bs).
  cbn [skipn]. rewrite IH. reflexivity.
Qed.

Definition ov (b c : vec * vec) : vec * vec := (overlay_row Qmin (fst b) (fst c), overlay_row Qmax (snd b) (snd c)).

Lemma overlay_rows_eq bs cs : length bs = length cs -> overlay_rows (rows_of bs) (rows_of cs) = Some (rows_of (zipw ov bs cs)).
Proof.
  revert cs; induction bs as [|[l h] bs IH]; intros [|[l' h'] cs] HL; simpl in HL; try lia; [reflexivity|].
  change (rows_of ((l, h) :: bs)) with (l :: h :: rows_of bs).
  change (rows_of ((l', h') :: cs)) with (l' :: h' :: rows_of cs).
  cbn [overlay_rows]. rewrite IH by lia. reflexivity.
Qed.

Lemma slice_rows N k cs : k <= N -> length cs = N ->
  slice_to (Z.of_nat (2 * N) - 2 * Z.of_nat k) (rows_of cs) = rows_of (firstn (N - k) cs).
Proof.
  intros Hk HL. unfold slice_to. destruct (Z.ltb_spec (Z.of_nat (2 * N) - 2 * Z.of_nat k) 0); [lia|].
  rewrite <- firstn_rows. f_equal. lia.
Qed.

Definition ovl (k : nat) (bs cs : list (vec * vec)) := firstn k bs ++ zipw ov (skipn k bs) (firstn (length bs - k) cs).

Lemma overlay_eq N k bs cs : k <= N -> length bs = N -> length cs = N ->
  overlay (2 * N) k (rows_of bs) (rows_of cs) = Some (rows_of (ovl k bs cs)).
Proof.
  intros Hk Hb Hc. unfold overlay. rewrite (@slice_rows N k cs Hk Hc), skipn_rows, firstn_rows.
  rewrite overlay_rows_eq.
  - simpl. unfold ovl. rewrite rows_of_app, Hb. reflexivity.
  - rewrite skipn_length, firstn_length. lia.
Qed.

Lemma ovl_length k bs cs : k <= length bs -> length cs = length bs -> length (ovl k bs cs) = length bs.
Proof.
  intros H1 H2. unfold ovl. rewrite app_length, zipw_length, !firstn_length, skipn_length. lia.
Qed.

Lemma ovl_nth_lt k bs cs r dflt : k <= length bs -> r < k -> nth r (ovl k bs cs) dflt = nth r bs dflt.
Proof.
  intros H1 H2. unfold ovl. rewrite app_nth1 by (rewrite firstn_length; lia).
  rewrite <- (firstn_skipn k bs) at 2. rewrite app_nth1 by (rewrite firstn_length; lia). reflexivity.
Qed.

Lemma ovl_nth_ge k bs cs r dflt : k <= r -> r < length bs -> length cs = length bs ->
  nth r (ovl k bs cs) dflt = ov (nth r bs dflt) (nth (r - k) cs dflt).
Proof.
  intros H1 H2 H3. unfold ovl. rewrite app_nth2 by (rewrite firstn_length; lia).
  rewrite firstn_length, Nat.min_l by lia.
  rewrite (zipw_nth _ _ _ dflt dflt).
  2: rewrite skipn_length; lia.
  2: rewrite firstn_length; lia.
  f_equal.
  - rewrite <- (firstn_skipn k bs) at 2. rewrite app_nth2 by (rewrite firstn_length; lia).
    rewrite firstn_length, Nat.min_l by lia. reflexivity.
  - rewrite <- (firstn_skipn (length bs - k) cs) at 2. rewrite app_nth1; [reflexivity|].
    rewrite firstn_length. lia.
Qed.

(** ** State containment in a pair of rows *)
Definition bcov (b : vec * vec) (s : vec) : Prop := in_box (tl (fst b)) (tl (snd b)) s.

Lemma covers_rows bs r s : covers (rows_of bs) r s <-> r < length bs /\ bcov (nth r bs ([], [])) s.
Proof.
  unfold covers, bcov. rewrite rows_of_nth_even, rows_of_nth_odd.
  destruct (Nat.lt_ge_cases r (length bs)) as [H|H].
  - rewrite (nth_error_nth' bs ([], []) H). simpl. split.
    + intros (lo & hi & [= <-] & [= <-] & Hs). auto.
    + intros [_ Hs]. eauto.
  - rewrite (proj2 (nth_error_None bs r) H). simpl. split; [intros (? & ? & ? & _); discriminate|lia].
Qed.

Lemma ov_cover_l b c s :
  length (fst b) = length (fst c) -> length (snd b) = length (snd c) -> fst b <> [] -> snd b <> [] ->
  bcov b s -> bcov (ov b c) s.
Proof.
  destruct b as [[|t lo] [|t' hi]], c as [[|u lo'] [|u' hi']]; unfold bcov, ov; simpl; intros H1 H2 N1 N2; try lia; try congruence.
  assert (L1 : length lo = length lo') by lia. assert (L2 : length hi = length hi') by lia. clear H1 H2 N1 N2.
  revert lo' hi hi' s L1 L2. induction lo as [|a lo IH]; intros [|a' lo'] [|b hi] [|b' hi'] [|x s] L1 L2;
    simpl in *; try lia; try tauto.
  intros [[A B] C]. split.
  + split; [eapply Qle_trans; [apply Q.le_min_l|exact A]|eapply Qle_trans; [exact B|apply Q.le_max_l]].
  + apply IH; auto; lia.
Qed.

Lemma ov_cover_r b c s :
  length (fst b) = length (fst c) -> length (snd b) = length (snd c) -> fst b <> [] -> snd b <> [] ->
  bcov c s -> bcov (ov b c) s.
Proof.
  destruct b as [[|t lo] [|t' hi]], c as [[|u lo'] [|u' hi']]; unfold bcov, ov; simpl; intros H1 H2 N1 N2; try lia; try congruence.
  assert (L1 : length lo = length lo') by lia. assert (L2 : length hi = length hi') by lia. clear H1 H2 N1 N2.
  revert lo' hi hi' s L1 L2. induction lo as [|a lo IH]; intros [|a' lo'] [|b hi] [|b' hi'] [|x s] L1 L2;
    simpl in *; try lia; try tauto.
  intros [[A B] C]. split.
  + split; [eapply Qle_trans; [apply Q.le_min_r|exact A]|eapply Qle_trans; [exact B|apply Q.le_max_r]].
  + apply IH; auto; lia.
Qed.

Lemma overlay_row_length f r c : length r = length c -> length (overlay_row f r c) = length r.
Proof. destruct r, c; simpl; auto; intros; try lia. rewrite zipw_length. lia. Qed.

Lemma ov_shape N d k bs cs : k <= N -> shape N d bs -> shape N d cs -> shape N d (ovl k bs cs).
Proof.
  intros Hk [L1 D1] [L2 D2]. split; [rewrite ovl_length; lia|].
  intros b Hb. apply In_nth with (d := ([], [])) in Hb. destruct Hb as (i & Hi & <-).
  rewrite ovl_length in Hi by lia.
  destruct (Nat.lt_ge_cases i k).
  - rewrite ovl_nth_lt by lia. apply D1, nth_In. lia.
  - rewrite ovl_nth_ge by lia.
    destruct (D1 (nth i bs ([], []))) as [A1 A2]; [apply nth_In; lia|].
    destruct (D2 (nth (i - k) cs ([], []))) as [B1 B2]; [apply nth_In; lia|].
    unfold ov; simpl. rewrite !overlay_row_length by lia. auto.
Qed.

(** Column [S i] of an overlaid pair of rows comes from one of the two. *)
Lemma ov_attained b c i d :
  length (fst b) = S d -> length (snd b) = S d -> length (fst c) = S d -> length (snd c) = S d -> i < d ->
  (nth (S i) (fst (ov b c)) 0%Q = nth (S i) (fst b) 0%Q \/ nth (S i) (fst (ov b c)) 0%Q = nth (S i) (fst c) 0%Q) /\
  (nth (S i) (snd (ov b c)) 0%Q = nth (S i) (snd b) 0%Q \/ nth (S i) (snd (ov b c)) 0%Q = nth (S i) (snd c) 0%Q).
Proof.
  destruct b as [[|t lo] [|t' hi]], c as [[|u lo'] [|u' hi']]; unfold ov; simpl; intros; try lia.
  rewrite !(zipw_nth _ _ _ 0%Q 0%Q) by lia. split; [apply Qmin_case'|apply Qmax_case'].
Qed.

(** ** The loop without a cache *)
Section Loop.
  Variables (N d : nat) (engine : box -> tube) (inits : list box) (L : nat).
  Hypothesis eng_shape : forall b, length (fst b) = d -> length (snd b) = d -> tube_shape N d (engine b).
  Hypothesis inits_dim : dim_ok d inits.
  Hypothesis L_pos : 0 < L.

  (** The engine tube of segment [k], as a list of pairs of rows: [is_seg k cs]. *)
  Definition is_seg (k : nat) (cs : list (vec * vec)) : Prop :=
    exists b, seg_hull inits L k = Some b /\ engine b = rows_of cs /\ shape N d cs.

  Lemma seg_hull_ok k : k < length inits ->
    exists b, seg_hull inits L k = Some b /\ length (fst b) = d /\ length (snd b) = d /\
      forall i c s, k <= i < k + L -> nth_error inits i = Some c -> in_box (fst c) (snd c) s -> in_box (fst b) (snd b) s.
  Proof.
    intros Hk. unfold seg_hull.
    destruct (@combine_all_hull (firstn L (skipn k inits)) d) as (lo & hi & E & Hh & L1 & L2).
    - intros E. apply (f_equal (@length _)) in E. rewrite firstn_length, skipn_length in E. simpl in E. lia.
    - intros b Hb. apply inits_dim. apply In_nth_error in Hb. destruct Hb as (j & Hj).
      apply (nth_error_In _ (k + j)).
      assert (Hjl : j < L).
      { assert (j < length (firstn L (skipn k inits))) by (apply nth_error_Some; congruence).
        rewrite firstn_length in *. lia. }
      rewrite <- (firstn_skipn k inits). rewrite nth_error_app2 by (rewrite firstn_length; lia).
      rewrite firstn_length, Nat.min_l by lia. replace (k + j - k) with j by lia.
      rewrite <- (firstn_skipn L (skipn k inits)). rewrite nth_error_app1; [exact Hj|].
      apply nth_error_Some; congruence.
    - exists (lo, hi). split; [exact E|]. split; [exact L1|]. split; [exact L2|].
      intros i c s Hi Hc Hs. destruct Hh as (Hin & _).
      eapply box_le_in_box; [apply (Hin c)|exact Hs].
      apply (nth_error_In _ (i - k)).
      rewrite <- (firstn_skipn k inits) in Hc. rewrite nth_error_app2 in Hc by (rewrite firstn_length; lia).
      rewrite firstn_length, Nat.min_l in Hc by lia.
      rewrite <- (firstn_skipn L (skipn k inits)) in Hc. rewrite nth_error_app1 in Hc; [exact Hc|].
      rewrite firstn_length, skipn_length.
      assert (i < length inits).
      { assert (i - k < length (firstn L (skipn k inits) ++ skipn L (skipn k inits))) by (apply nth_error_Some; congruence).
        rewrite firstn_skipn, skipn_length in *. lia. }
      lia.
  Qed.

  Lemma is_seg_ex k : k < length inits -> exists cs, is_seg k cs.
  Proof.
    intros Hk. destruct (seg_hull_ok Hk) as (b & E & L1 & L2 & _).
    destruct (tube_shape_rows (eng_shape b L1 L2)) as (cs & E2 & Hs). exists cs, b. auto.
  Qed.

  (** [bs] is the overlay of the tubes of the segments in [S]. *)
  Definition overlaid (segs : list nat) (bs : list (vec * vec)) : Prop :=
    shape N d bs /\
    (forall k cs r s, In k segs -> is_seg k cs -> k <= r -> r < N ->
       bcov (nth (r - k) cs ([], [])) s -> bcov (nth r bs ([], [])) s) /\
    (forall r i, r < N -> i < d ->
       (exists k cs, In k segs /\ is_seg k cs /\ k <= r /\
          nth (S i) (fst (nth r bs ([], []))) 0%Q = nth (S i) (fst (nth (r - k) cs ([], []))) 0%Q) /\
       (exists k cs, In k segs /\ is_seg k cs /\ k <= r /\
          nth (S i) (snd (nth r bs ([], []))) 0%Q = nth (S i) (snd (nth (r - k) cs ([], []))) 0%Q)).

  Lemma overlaid_one cs : is_seg 0 cs -> overlaid [0] cs.
  Proof.
    intros Hc. pose proof Hc as (b & Eb & Ee & Hs). split; [exact Hs|]. split.
    - intros k cs' r s [<-|[]] (b' & Eb' & Ee' & Hs') _ Hr H.
      assert (b' = b) by congruence. subst b'. assert (rows_of cs' = rows_of cs) by congruence.
      rewrite Nat.sub_0_r in H.
      enough (bcov (nth r cs ([], [])) s /\ r < length cs) by tauto.
      assert (r < length cs' /\ bcov (nth r cs' ([], [])) s) as H1.
      { split; [destruct Hs'; lia|exact H]. }
      apply covers_rows in H1. rewrite H0 in H1. apply covers_rows in H1. tauto.
    - intros r i Hr Hi. split; exists 0, cs; rewrite Nat.sub_0_r; repeat split; simpl; auto; lia.
  Qed.

  Lemma overlaid_snoc segs bs k cs : k <= N -> overlaid segs bs -> is_seg k cs -> overlaid (segs ++ [k]) (ovl k bs cs).
  Proof.
    intros Hk (Hs & Hc & Ha) Hseg. pose proof Hseg as (b & Eb & Ee & Hcs).
    pose proof Hs as [Lb Db]. pose proof Hcs as [Lc Dc].
    assert (Dn : forall r, r < N -> length (fst (nth r bs ([], []))) = S d /\ length (snd (nth r bs ([], []))) = S d).
    { intros r Hr. apply Db, nth_In. lia. }
    assert (Cn : forall r, r < N -> length (fst (nth r cs ([], []))) = S d /\ length (snd (nth r cs ([], []))) = S d).
    { intros r Hr. apply Dc, nth_In. lia. }
    split; [apply ov_shape; auto|]. split.
    - intros k' cs' r s Hin Hseg' Hk' Hr H. apply in_app_iff in Hin.
      destruct (Nat.lt_ge_cases r k) as [Hrk|Hrk].
      + rewrite ovl_nth_lt by lia. destruct Hin as [Hin|[<-|[]]]; [|lia]. eapply Hc; eauto.
      + rewrite ovl_nth_ge by lia. destruct (Dn r Hr) as [A1 A2]. destruct (Cn (r - k) ltac:(lia)) as [B1 B2].
        destruct Hin as [Hin|[<-|[]]].
        * apply ov_cover_l; try lia.
          -- intros E. rewrite E in A1. simpl in A1. lia.
          -- intros E. rewrite E in A2. simpl in A2. lia.
          -- eapply Hc; eauto.
        * apply ov_cover_r; try lia.
          -- intros E. rewrite E in A1. simpl in A1. lia.
          -- intros E. rewrite E in A2. simpl in A2. lia.
          -- destruct Hseg' as (b' & Eb' & Ee' & Hs'). assert (b' = b) by congruence. subst b'.
             assert (E : rows_of cs' = rows_of cs) by congruence.
             assert (r - k < length cs' /\ bcov (nth (r - k) cs' ([], [])) s) as H1.
             { split; [destruct Hs'; lia|exact H]. }
             apply covers_rows in H1. rewrite E in H1. apply covers_rows in H1. tauto.
    - intros r i Hr Hi. destruct (Ha r i Hr Hi) as [(k1 & c1 & I1 & S1 & K1 & E1) (k2 & c2 & I2 & S2 & K2 & E2)].
      destruct (Nat.lt_ge_cases r k) as [Hrk|Hrk].
      + rewrite ovl_nth_lt by lia. split.
        * exists k1, c1. rewrite in_app_iff. auto.
        * exists k2, c2. rewrite in_app_iff. auto.
      + rewrite ovl_nth_ge by lia. destruct (Dn r Hr) as [A1 A2]. destruct (Cn (r - k) ltac:(lia)) as [B1 B2].
        destruct (@ov_attained (nth r bs ([], [])) (nth (r - k) cs ([], [])) i d A1 A2 B1 B2 Hi) as [[F1|F1] [F2|F2]];
          (split; [rewrite F1|rewrite F2]);
          first [ exists k1, c1; rewrite in_app_iff; solve [auto]
                | exists k2, c2; rewrite in_app_iff; solve [auto]
                | exists k, cs; rewrite in_app_iff; simpl; solve [auto] ].
  Qed.

  (** Segments beyond the tube add nothing. *)
  Lemma overlaid_skip segs bs rest : (forall k, In k rest -> N <= k) -> overlaid segs bs -> overlaid (segs ++ rest) bs.
  Proof.
    intros Hr (Hs & Hc & Ha). split; [exact Hs|]. split.
    - intros k cs r s Hin Hseg Hk HrN H. apply in_app_iff in Hin. destruct Hin as [Hin|Hin].
      + eapply Hc; eauto.
      + specialize (Hr k Hin). lia.
    - intros r i HrN Hi. destruct (Ha r i HrN Hi) as [(k1 & c1 & I1 & R1) (k2 & c2 & I2 & R2)]. split.
      + exists k1, c1. rewrite in_app_iff. auto.
      + exists k2, c2. rewrite in_app_iff. auto.
  Qed.

  (** The loop, continued from an overlay at address [a]. *)
  Lemma calc_loop_some segs : forall done h a bs upd,
    (forall k, In k segs -> k < length inits) -> StronglySorted lt segs ->
    nth_error h a = Some (rows_of bs) -> overlaid done bs ->
    exists h' bs' upd', calc_loop engine inits L segs (h, Some a, upd) = Some (h', Some a, upd') /\
      nth_error h' a = Some (rows_of bs') /\ overlaid (done ++ segs) bs' /\
      length h <= length h' /\ (forall b, b <> a -> b < length h -> nth_error h' b = nth_error h b).
  Proof.
    induction segs as [|k segs IH]; intros done h a bs upd Hlt Hsort Ha Hov.
    - exists h, bs, upd. rewrite app_nil_r. split; [reflexivity|]. split; [exact Ha|]. split; [exact Hov|]. split; auto.
    - cbn [calc_loop].
      destruct (@is_seg_ex k) as (cs & Hseg); [apply Hlt; simpl; auto|].
      pose proof Hseg as (b & Eb & Ee & Hcs). rewrite Eb. cbn [obind].
      assert (Hal : a < length h) by (apply nth_error_Some; congruence).
      rewrite nth_error_app1 by exact Hal. rewrite Ha. cbn [obind].
      pose proof Hov as ((Lb & Db) & _). pose proof Hcs as (Lc & Dc).
      rewrite rows_of_length, Lb.
      inversion Hsort as [|k0 segs0 Hsort' Hall]; subst.
      destruct (Nat.leb_spec (2 * N) (2 * k)) as [Hbrk|Hbrk].
      + exists (h ++ [engine b]), bs, (upd ++ [(b, length h)]). split; [reflexivity|]. split.
        { rewrite nth_error_app1 by exact Hal. exact Ha. }
        split.
        { apply overlaid_skip; auto. intros k' [<-|Hk']; [lia|].
          rewrite Forall_forall in Hall. specialize (Hall k' Hk'). lia. }
        split; [rewrite app_length; simpl; lia|]. intros c Hc1 Hc2. rewrite nth_error_app1 by lia. reflexivity.
      + rewrite Ee. rewrite (@overlay_eq N k bs cs) by lia. cbn [obind].
        set (h1 := set_nth a (rows_of (ovl k bs cs)) (h ++ [rows_of cs])).
        destruct (IH (done ++ [k]) h1 a (ovl k bs cs) (upd ++ [(b, length h)])) as (h' & bs' & upd' & E & G & O & LL & Hoth).
        * intros; apply Hlt; simpl; auto.
        * exact Hsort'.
        * unfold h1. apply nth_error_set_nth_same. rewrite app_length; simpl; lia.
        * apply overlaid_snoc; auto. lia.
        * exists h', bs', upd'. split; [exact E|]. split; [exact G|]. split.
          { rewrite <- app_assoc in O. exact O. }
          unfold h1 in LL, Hoth. rewrite set_nth_length, app_length in LL, Hoth. simpl in LL, Hoth.
          split; [lia|]. intros c Hc1 Hc2. rewrite Hoth by lia.
          rewrite nth_error_set_nth_other by lia. rewrite nth_error_app1 by lia. reflexivity.
  Qed.
End Loop.

(** ** Segment starts *)
Lemma seg_starts_eq len L : 0 < L -> seg_starts len L = Some (map (fun i => i * L) (seq 0 ((len + (L - 1)) / L))).
Proof. destruct L; [lia|reflexivity]. Qed.

Lemma seg_starts_spec len L segs : seg_starts len L = Some segs ->
  0 < L /\ StronglySorted lt segs /\ (forall k, In k segs -> k < len) /\
  (forall i, i < len -> exists k, In k segs /\ k <= i < k + L) /\
  (0 < len -> exists rest, segs = 0 :: rest) /\ (L = 1 -> forall i, i < len -> In i segs).
Proof.
  intros Es. assert (HL : 0 < L) by (destruct L; [discriminate|lia]).
  rewrite (seg_starts_eq len HL) in Es. assert (E : segs = map (fun i => i * L) (seq 0 ((len + (L - 1)) / L))) by congruence.
  subst segs. clear Es.
  split; [exact HL|]. split.
  - cut (forall n st, StronglySorted lt (map (fun i => i * L) (seq st n))); [auto|].
    induction n as [|n IH]; intros st; simpl; [constructor|].
    constructor; [apply IH|]. rewrite Forall_forall. intros x Hx. apply in_map_iff in Hx. destruct Hx as (i & <- & Hi).
    apply in_seq in Hi. simpl. nia.
  - split; [|split; [|split]].
    + intros k Hk. apply in_map_iff in Hk. destruct Hk as (i & <- & Hi). apply in_seq in Hi. destruct Hi as [_ Hi]. simpl in Hi.
      assert ((len + (L - 1)) / L * L <= len + (L - 1)) by (rewrite Nat.mul_comm; apply Nat.mul_div_le; lia).
      nia.
    + intros i Hi. exists (i / L * L). split.
      * apply in_map_iff. exists (i / L). split; [reflexivity|]. apply in_seq. split; [lia|].
        change (0 + (len + (L - 1)) / L) with ((len + (L - 1)) / L).
        assert (i / L + 1 <= (len + (L - 1)) / L); [|lia].
        replace (i / L + 1) with ((i + 1 * L) / L) by (rewrite Nat.div_add by lia; reflexivity).
        apply Nat.div_le_mono; lia.
      * pose proof (Nat.div_mod i L ltac:(lia)). pose proof (Nat.mod_upper_bound i L ltac:(lia)). nia.
    + intros Hlen. assert (0 < (len + (L - 1)) / L).
      { apply Nat.div_str_pos. lia. }
      destruct ((len + (L - 1)) / L) as [|n]; [lia|]. simpl. eauto.
    + intros E1 i Hi. apply in_map_iff. exists i. split; [rewrite E1; lia|]. apply in_seq.
      rewrite E1. replace (len + (1 - 1)) with len by lia. rewrite Nat.div_1_r. lia.
Qed.

Section Plain.
  Variables (N d : nat) (flow : vec -> nat -> vec -> Prop) (engine : box -> tube) (inits : list box) (L : nat).
  Hypothesis eng : engine_sound N d flow engine.
  Hypothesis inits_dim : dim_ok d inits.

  Lemma eng_shape' b : length (fst b) = d -> length (snd b) = d -> tube_shape N d (engine b).
  Proof. destruct b as [lo hi]. intros H1 H2. exact (proj1 (eng lo hi H1 H2)). Qed.

  Lemma calc_full_plain_overlaid : inits <> [] -> 0 < L ->
    exists segs bs, seg_starts (length inits) L = Some segs /\
      calc_full_plain engine inits L = Some (rows_of bs) /\ overlaid N d engine inits L segs bs.
  Proof.
    intros Hne HL. destruct (seg_starts (length inits) L) as [segs|] eqn:Es.
    2: { unfold seg_starts in Es. destruct L; [lia|discriminate]. }
    destruct (seg_starts_spec _ _ Es) as (_ & Hsort & Hlt & _ & H0 & _).
    destruct H0 as (rest & ->). { destruct inits; [congruence|simpl; lia]. }
    destruct (@is_seg_ex N d engine inits L eng_shape' inits_dim HL 0) as (cs & Hseg).
    { apply Hlt; simpl; auto. }
    pose proof Hseg as (b & Eb & Ee & Hcs).
    inversion Hsort as [|k0 segs0 Hsort' Hall]; subst.
    destruct (@calc_loop_some N d engine inits L eng_shape' inits_dim HL rest [0] [engine b] 0 cs [(b, 0)])
      as (h' & bs' & upd' & E & G & O & _).
    - intros; apply Hlt; simpl; auto.
    - exact Hsort'.
    - simpl. congruence.
    - apply overlaid_one; auto.
    - exists (0 :: rest), bs'. split; [reflexivity|]. split; [|exact O].
      unfold calc_full_plain, calc_full. rewrite Es. cbn [obind calc_loop]. rewrite Eb. cbn [obind].
      cbn [app length] in *. rewrite E. cbn [obind]. rewrite G. reflexivity.
  Qed.

  (** Any segment length: a start in segment [k] is covered as if it had started at row [k]. *)
  Lemma calc_full_plain_shifted : inits <> [] -> 0 < L ->
    exists t, calc_full_plain engine inits L = Some t /\ tube_shape N d t /\
    forall i b s j s', nth_error inits i = Some b -> in_box (fst b) (snd b) s -> flow s j s' ->
      i / L * L + j < N -> covers t (i / L * L + j) s'.
  Proof.
    intros Hne HL. destruct (calc_full_plain_overlaid Hne HL) as (segs & bs & Es & E & (Hs & Hc & _)).
    exists (rows_of bs). split; [exact E|]. split; [apply shape_tube; exact Hs|].
    intros i b s j s' Hi Hb Hf HN.
    destruct (seg_starts_spec _ _ Es) as (_ & _ & Hlt & Hcov & _).
    assert (Hil : i < length inits) by (apply nth_error_Some; congruence).
    assert (Hin : In (i / L * L) segs).
    { destruct (Hcov i Hil) as (k & Hk & Hki).
      rewrite (seg_starts_eq _ HL) in Es.
      assert (E0 : segs = map (fun i => i * L) (seq 0 ((length inits + (L - 1)) / L))) by congruence. subst segs.
      apply in_map_iff in Hk. destruct Hk as (m & <- & Hm).
      replace (i / L) with m; [apply in_map_iff; eauto|].
      apply Nat.div_unique with (r := i - m * L); lia. }
    set (k := i / L * L) in *.
    assert (Hki : k <= i < k + L).
    { unfold k. pose proof (Nat.div_mod i L ltac:(lia)). pose proof (Nat.mod_upper_bound i L ltac:(lia)). nia. }
    destruct (@seg_hull_ok d inits L inits_dim HL k) as (hb & Ehb & D1 & D2 & Hsub); [lia|].
    destruct (@is_seg_ex N d engine inits L eng_shape' inits_dim HL k) as (cs & Hseg); [lia|].
    pose proof Hseg as (b' & Eb' & Ee & Hcs). assert (b' = hb) by congruence. subst b'.
    apply covers_rows. split; [destruct Hs; lia|].
    eapply Hc; eauto; [lia|]. replace (k + j - k) with j by lia.
    destruct hb as [lo hi]. simpl in D1, D2.
    destruct (eng lo hi D1 D2) as [_ Heng].
    assert (H1 : covers (engine (lo, hi)) j s').
    { apply (Heng s); auto; [|lia]. eapply Hsub; eauto. }
    rewrite Ee in H1. apply covers_rows in H1. tauto.
  Qed.

End Plain.

(** Segments of length one: exact timing. *)
Lemma calc_full_plain_one N d flow engine inits :
  engine_sound N d flow engine -> dim_ok d inits -> inits <> [] ->
  exists t, calc_full_plain engine inits 1 = Some t /\ tube_shape N d t /\
  forall i b s j s', nth_error inits i = Some b -> in_box (fst b) (snd b) s -> flow s j s' ->
    i + j < N -> covers t (i + j) s'.
Proof.
  intros He Hd Hne. destruct (@calc_full_plain_shifted N d flow engine inits 1 He Hd Hne ltac:(lia)) as (t & E & Hs & Hc).
  exists t. split; [exact E|]. split; [exact Hs|].
  intros i b s j s' H1 H2 H3 H4. specialize (Hc i b s j s' H1 H2 H3).
  rewrite Nat.div_1_r, Nat.mul_1_r in Hc. auto.
Qed.

(** Segments of length one: every bound of the result is the bound, at the right step, of the engine's
    tube for one of the initial sets. *)
Lemma seg_hull_one inits k b : nth_error inits k = Some b -> length (fst b) = length (snd b) -> seg_hull inits 1 k = Some b.
Proof.
  intros H Hl. unfold seg_hull.
  assert (E : firstn 1 (skipn k inits) = [b]).
  { revert inits H. induction k as [|k IH]; intros [|c inits] H; simpl in *; try discriminate; [congruence|auto]. }
  rewrite E. unfold combine_all. simpl. rewrite <- Hl, Nat.eqb_refl. destruct b. reflexivity.
Qed.

Lemma calc_full_plain_tight N d flow engine inits t :
  engine_sound N d flow engine -> dim_ok d inits -> inits <> [] -> calc_full_plain engine inits 1 = Some t ->
  forall r i, r < N -> i < d ->
   (exists k b lo lo', k <= r /\ nth_error inits k = Some b /\ nth_error t (2 * r) = Some lo /\
      nth_error (engine b) (2 * (r - k)) = Some lo' /\ nth (S i) lo 0%Q = nth (S i) lo' 0%Q) /\
   (exists k b hi hi', k <= r /\ nth_error inits k = Some b /\ nth_error t (2 * r + 1) = Some hi /\
      nth_error (engine b) (2 * (r - k) + 1) = Some hi' /\ nth (S i) hi 0%Q = nth (S i) hi' 0%Q).
Proof.
  intros He Hd Hne Et r i Hr Hi.
  destruct (@calc_full_plain_overlaid N d flow engine inits 1 He Hd Hne ltac:(lia)) as (segs & bs & Es & E & (Hs & _ & Ha)).
  assert (t = rows_of bs) by congruence. subst t.
  destruct (seg_starts_spec _ _ Es) as (_ & _ & Hlt & _).
  assert (Hb : forall k cs, In k segs -> is_seg N d engine inits 1 k cs ->
            exists b, nth_error inits k = Some b /\ engine b = rows_of cs /\ length cs = N).
  { intros k cs Hk (b & Eb & Ee & Hsh & _). exists b. split; [|auto].
    specialize (Hlt k Hk). destruct (nth_error inits k) as [b'|] eqn:En.
    - destruct (Hd b' (nth_error_In _ _ En)) as [L1 L2].
      rewrite (seg_hull_one _ _ En) in Eb by lia. congruence.
    - apply nth_error_None in En. lia. }
  destruct (Ha r i Hr Hi) as [(k1 & c1 & I1 & S1 & K1 & E1) (k2 & c2 & I2 & S2 & K2 & E2)].
  destruct (Hb _ _ I1 S1) as (b1 & N1 & R1 & L1). destruct (Hb _ _ I2 S2) as (b2 & N2 & R2 & L2).
  destruct Hs as [Ls _].
  split.
  - exists k1, b1, (fst (nth r bs ([], []))), (fst (nth (r - k1) c1 ([], []))).
    rewrite R1, !rows_of_nth_even. rewrite (nth_error_nth' bs ([], [])) by lia.
    rewrite (nth_error_nth' c1 ([], [])) by lia. auto.
  - exists k2, b2, (snd (nth r bs ([], []))), (snd (nth (r - k2) c2 ([], []))).
    rewrite R2, !rows_of_nth_odd. rewrite (nth_error_nth' bs ([], [])) by lia.
    rewrite (nth_error_nth' c2 ([], [])) by lia. auto.
Qed.

(** ** With a cache *)

Lemma grows_refl t : grows t t.
Proof. intros r s H. exact H. Qed.
Lemma grows_trans t1 t2 t3 : grows t1 t2 -> grows t2 t3 -> grows t1 t3.
Proof. intros H1 H2 r s H. auto. Qed.
Lemma heap_grows_refl h : heap_grows h h.
Proof. intros a t H. exists t. split; [exact H|apply grows_refl]. Qed.
Lemma heap_grows_trans h1 h2 h3 : heap_grows h1 h2 -> heap_grows h2 h3 -> heap_grows h1 h3.
Proof.
  intros H1 H2 a t H. destruct (H1 a t H) as (t2 & E2 & G2). destruct (H2 a t2 E2) as (t3 & E3 & G3).
  exists t3. split; [exact E3|]. eapply grows_trans; eauto.
Qed.
Lemma heap_grows_set h a t t' : nth_error h a = Some t -> grows t t' -> heap_grows h (set_nth a t' h).
Proof.
  intros Ha Hg b u Hb. destruct (Nat.eq_dec a b) as [<-|Hne].
  - exists t'. split; [apply nth_error_set_nth_same, nth_error_Some; congruence|].
    assert (u = t) by congruence. subst u. exact Hg.
  - exists u. rewrite nth_error_set_nth_other by auto. split; [exact Hb|apply grows_refl].
Qed.
Lemma heap_grows_app h k : heap_grows h (h ++ k).
Proof.
  intros a t H. exists t. split; [|apply grows_refl]. rewrite nth_error_app1; [exact H|].
  apply nth_error_Some; congruence.
Qed.

Section Cached.
  Variables (N d : nat) (flow : vec -> nat -> vec -> Prop) (engine : box -> tube) (inits : list box) (L : nat)
            (lookup : box -> option nat).
  Hypothesis eng : engine_sound N d flow engine.
  Hypothesis inits_dim : dim_ok d inits.
  Hypothesis L_pos : 0 < L.
  Hypothesis N_big : length inits <= N.

  Definition heap_ok (h : heap) : Prop := forall a t, nth_error h a = Some t -> tube_shape N d t.
  Definition sound_at (t : tube) (k : nat) (b : box) : Prop :=
    forall s j s', in_box (fst b) (snd b) s -> flow s j s' -> k + j < N -> covers t (k + j) s'.
  Definition lookup_ok (h : heap) : Prop :=
    forall b c, length (fst b) = d -> length (snd b) = d -> lookup b = Some c ->
      exists t, nth_error h c = Some t /\ sound_at t 0 b.

  Lemma sound_at_grows t t' k b : grows t t' -> sound_at t k b -> sound_at t' k b.
  Proof. intros G H s j s' H1 H2 H3. apply G, (H s j s'); auto. Qed.

  Lemma lookup_ok_grows h h' : heap_grows h h' -> lookup_ok h -> lookup_ok h'.
  Proof.
    intros G H b c H1 H2 H3. destruct (H b c H1 H2 H3) as (t & E & S). destruct (G c t E) as (t' & E' & G').
    exists t'. split; [exact E'|]. eapply sound_at_grows; eauto.
  Qed.

  Lemma overlay_sem k t c : k <= N -> tube_shape N d t -> tube_shape N d c ->
    exists t', overlay (length t) k t c = Some t' /\ tube_shape N d t' /\ grows t t' /\
      (forall b, sound_at c 0 b -> sound_at t' k b).
  Proof.
    intros Hk Ht Hc. destruct (tube_shape_rows Ht) as (bs & -> & Hs). destruct (tube_shape_rows Hc) as (cs & -> & Hs').
    pose proof Hs as [Lb Db]. pose proof Hs' as [Lc Dc].
    exists (rows_of (ovl k bs cs)). rewrite rows_of_length, Lb.
    split; [apply overlay_eq; auto|]. split; [apply shape_tube, ov_shape; auto|].
    assert (Dn : forall r, r < N -> length (fst (nth r bs ([], []))) = S d /\ length (snd (nth r bs ([], []))) = S d).
    { intros r Hr. apply Db, nth_In. lia. }
    assert (Cn : forall r, r < N -> length (fst (nth r cs ([], []))) = S d /\ length (snd (nth r cs ([], []))) = S d).
    { intros r Hr. apply Dc, nth_In. lia. }
    assert (NE : forall r, r < N -> fst (nth r bs ([], [])) <> [] /\ snd (nth r bs ([], [])) <> []).
    { intros r Hr. destruct (Dn r Hr) as [A B]. split; intros E; rewrite E in *; simpl in *; lia. }
    split.
    - intros r s H. apply covers_rows in H. destruct H as [Hr H]. apply covers_rows.
      split; [rewrite ovl_length; lia|]. destruct (Nat.lt_ge_cases r k).
      + rewrite ovl_nth_lt by lia. exact H.
      + rewrite ovl_nth_ge by lia. destruct (Dn r ltac:(lia)), (Cn (r - k) ltac:(lia)), (NE r ltac:(lia)).
        apply ov_cover_l; auto; lia.
    - intros b Hb s j s' H1 H2 H3. specialize (Hb s j s' H1 H2 ltac:(lia)). simpl in Hb.
      apply covers_rows in Hb. destruct Hb as [Hj Hb]. apply covers_rows.
      split; [rewrite ovl_length; lia|]. rewrite ovl_nth_ge by lia. replace (k + j - k) with j by lia.
      destruct (Dn (k + j) ltac:(lia)), (Cn j ltac:(lia)), (NE (k + j) ltac:(lia)).
      apply ov_cover_r; auto; lia.
  Qed.

  Definition is_missing (k : nat) : bool :=
    match seg_hull inits L k with
    | Some b => match lookup b with Some _ => false | None => true end
    | None => true
    end.

  (** Every segment in [ks] is covered by [t], with its own offset. *)
  Definition segs_sound (t : tube) (ks : list nat) : Prop :=
    forall k b, In k ks -> seg_hull inits L k = Some b -> sound_at t k b.

  Lemma heap_ok_set h a t : heap_ok h -> tube_shape N d t -> heap_ok (set_nth a t h).
  Proof.
    intros H Ht b u Hb. destruct (Nat.eq_dec a b) as [<-|Hne].
    - assert (Ha : a < length (set_nth a t h)) by (apply nth_error_Some; congruence).
      rewrite set_nth_length in Ha. rewrite nth_error_set_nth_same in Hb by exact Ha. congruence.
    - rewrite nth_error_set_nth_other in Hb by auto. eauto.
  Qed.

  Lemma check_loop_some segs : forall h a t missing,
    (forall k, In k segs -> k < length inits) -> heap_ok h -> lookup_ok h -> nth_error h a = Some t ->
    exists h' t', check_loop lookup inits L segs h (Some (a, 2 * N)) missing
                  = Some (h', Some a, missing ++ filter is_missing segs) /\
      heap_ok h' /\ heap_grows h h' /\ nth_error h' a = Some t' /\ grows t t' /\
      segs_sound t' (filter (fun k => negb (is_missing k)) segs).
  Proof.
    induction segs as [|k segs IH]; intros h a t missing Hlt Hok Hlk Ha.
    - exists h, t. simpl. rewrite app_nil_r. split; [reflexivity|]. split; [exact Hok|].
      split; [apply heap_grows_refl|]. split; [exact Ha|]. split; [apply grows_refl|]. intros k b [].
    - destruct (@seg_hull_ok d inits L inits_dim L_pos k) as (b & Eb & D1 & D2 & _); [apply Hlt; simpl; auto|].
      cbn [check_loop filter]. rewrite Eb. cbn [obind].
      assert (Em : is_missing k = match lookup b with Some _ => false | None => true end).
      { unfold is_missing. rewrite Eb. reflexivity. }
      rewrite Em. destruct (lookup b) as [c|] eqn:El; cbn [negb].
      + destruct (Hlk b c D1 D2 El) as (ct & Ec & Sc). rewrite Ec. cbn [obind]. rewrite Ha. cbn [obind].
        assert (Hk : k < length inits) by (apply Hlt; simpl; auto).
        destruct (@overlay_sem k t ct) as (t1 & Eo & Hs1 & G1 & S1); [lia|eauto|eauto|].
        assert (Lt : length t = 2 * N) by apply (Hok a t Ha). rewrite Lt in Eo. rewrite Eo. cbn [obind].
        assert (HG : heap_grows h (set_nth a t1 h)) by (eapply heap_grows_set; eauto).
        destruct (IH (set_nth a t1 h) a t1 missing) as (h' & t' & E & Hok' & G' & Ea & Gt & Hss).
        * intros; apply Hlt; simpl; auto.
        * apply heap_ok_set; auto.
        * eapply lookup_ok_grows; eauto.
        * apply nth_error_set_nth_same, nth_error_Some; congruence.
        * exists h', t'. split; [exact E|]. split; [exact Hok'|]. split; [eapply heap_grows_trans; eauto|].
          split; [exact Ea|]. split; [eapply grows_trans; eauto|].
          intros k' b' [<-|Hk'] Eb'.
          -- assert (b' = b) by congruence. subst b'. eapply sound_at_grows; eauto.
          -- eapply Hss; eauto.
      + destruct (IH h a t (missing ++ [k])) as (h' & t' & E & R); auto.
        { intros; apply Hlt; simpl; auto. }
        exists h', t'. rewrite E, <- app_assoc. split; [reflexivity|exact R].
  Qed.

  (** Nothing cached at all. *)
  Lemma check_loop_none segs : forall h missing,
    (forall k, In k segs -> k < length inits) -> (forall k, In k segs -> is_missing k = true) ->
    check_loop lookup inits L segs h None missing = Some (h, None, missing ++ segs).
  Proof.
    induction segs as [|k segs IH]; intros h missing Hlt Hm; simpl; [rewrite app_nil_r; reflexivity|].
    destruct (@seg_hull_ok d inits L inits_dim L_pos k) as (b & Eb & _); [apply Hlt; simpl; auto|].
    pose proof (Hm k (or_introl eq_refl)) as Hk. unfold is_missing in Hk. rewrite Eb in *. cbn [obind].
    destruct (lookup b); [discriminate|]. rewrite IH; [rewrite <- app_assoc; reflexivity| |];
      intros; [apply Hlt|apply Hm]; simpl; auto.
  Qed.

  Definition upd_sound (h : heap) (upd : list (box * nat)) : Prop :=
    forall b c, In (b, c) upd -> exists t, nth_error h c = Some t /\ sound_at t 0 b.

  Lemma upd_sound_grows h h' upd : heap_grows h h' -> upd_sound h upd -> upd_sound h' upd.
  Proof.
    intros G H b c Hin. destruct (H b c Hin) as (t & E & S). destruct (G c t E) as (t' & E' & G').
    exists t'. split; [exact E'|]. eapply sound_at_grows; eauto.
  Qed.

  Lemma eng_sem b : length (fst b) = d -> length (snd b) = d -> tube_shape N d (engine b) /\ sound_at (engine b) 0 b.
  Proof.
    destruct b as [lo hi]. intros H1 H2. destruct (eng lo hi H1 H2) as [A B]. split; [exact A|].
    intros s j s' X Y Z. simpl. apply (B s); auto.
  Qed.

  (** Every segment of [ks] was recorded. *)
  Definition recorded (upd : list (box * nat)) (ks : list nat) : Prop :=
    forall k b, In k ks -> seg_hull inits L k = Some b -> exists c, In (b, c) upd.

  Lemma calc_loop_sem segs : forall h a t upd,
    (forall k, In k segs -> k < length inits) -> StronglySorted lt segs ->
    heap_ok h -> nth_error h a = Some t -> upd_sound h upd ->
    exists h' t' upd', calc_loop engine inits L segs (h, Some a, upd) = Some (h', Some a, upd') /\
      heap_ok h' /\ heap_grows h h' /\ nth_error h' a = Some t' /\ grows t t' /\ segs_sound t' segs /\ upd_sound h' upd' /\
      recorded upd' segs /\ incl upd upd'.
  Proof.
    induction segs as [|k segs IH]; intros h a t upd Hlt Hsort Hok Ha Hu.
    - exists h, t, upd. split; [reflexivity|]. split; [exact Hok|]. split; [apply heap_grows_refl|].
      split; [exact Ha|]. split; [apply grows_refl|]. split; [intros k b []|]. split; [exact Hu|]. split; [intros k b []|apply incl_refl].
    - destruct (@seg_hull_ok d inits L inits_dim L_pos k) as (b & Eb & D1 & D2 & _); [apply Hlt; simpl; auto|].
      destruct (eng_sem b D1 D2) as [Es Ess].
      cbn [calc_loop]. rewrite Eb. cbn [obind].
      assert (Hal : a < length h) by (apply nth_error_Some; congruence).
      set (h1 := h ++ [engine b]).
      assert (Ha1 : nth_error h1 a = Some t) by (unfold h1; rewrite nth_error_app1; auto).
      assert (Hok1 : heap_ok h1).
      { intros c u Hc. unfold h1 in Hc. destruct (Nat.lt_ge_cases c (length h)).
        - rewrite nth_error_app1 in Hc by auto. eauto.
        - rewrite nth_error_app2 in Hc by auto. destruct (c - length h) as [|[|?]]; simpl in Hc; try discriminate. congruence. }
      assert (G1 : heap_grows h h1) by apply heap_grows_app.
      assert (Hu1 : upd_sound h1 (upd ++ [(b, length h)])).
      { intros b' c Hin. apply in_app_iff in Hin. destruct Hin as [Hin|[[= <- <-]|[]]].
        - eapply upd_sound_grows; eauto.
        - exists (engine b). split; [|exact Ess]. unfold h1. rewrite nth_error_app2, Nat.sub_diag by auto. reflexivity. }
      rewrite Ha1. cbn [obind]. assert (Lt : length t = 2 * N) by apply (Hok a t Ha).
      inversion Hsort as [|k0 segs0 Hsort' Hall]; subst.
      destruct (Nat.leb_spec (length t) (2 * k)) as [Hbrk|Hbrk].
      + assert (Hk : k < length inits) by (apply Hlt; simpl; auto). lia.
      + assert (Hk : k < length inits) by (apply Hlt; simpl; auto).
        destruct (@overlay_sem k t (engine b)) as (t1 & Eo & Hs1 & Gt1 & S1); [lia|eauto|eauto|].
        rewrite Eo. cbn [obind].
        assert (G2 : heap_grows h1 (set_nth a t1 h1)) by (eapply heap_grows_set; eauto).
        destruct (IH (set_nth a t1 h1) a t1 (upd ++ [(b, length h)])) as (h' & t' & upd' & E & Hok' & G' & Ea & Gt & Hss & Hu' & Hrec & Hincl).
        * intros; apply Hlt; simpl; auto.
        * exact Hsort'.
        * apply heap_ok_set; auto.
        * apply nth_error_set_nth_same, nth_error_Some; congruence.
        * eapply upd_sound_grows; eauto.
        * exists h', t', upd'. split; [exact E|]. split; [exact Hok'|].
          split; [eapply heap_grows_trans; [exact G1|eapply heap_grows_trans; eauto]|].
          split; [exact Ea|]. split; [eapply grows_trans; eauto|]. split; [|split; [exact Hu'|split]].
          -- intros k' b' [<-|Hk'] Eb'.
             ++ assert (b' = b) by congruence. subst b'. eapply sound_at_grows; eauto.
             ++ eapply Hss; eauto.
          -- intros k' b' [<-|Hk'] Eb'; [|eapply Hrec; eauto].
             assert (b' = b) by congruence. subst b'. exists (length h). apply Hincl, in_app_iff. right. left. reflexivity.
          -- intros x Hx. apply Hincl, in_app_iff. auto.
  Qed.

  Lemma filter_sorted (f : nat -> bool) l : StronglySorted lt l -> StronglySorted lt (filter f l).
  Proof.
    induction 1 as [|a l Hs IH Hall]; simpl; [constructor|]. destruct (f a); [|exact IH].
    constructor; [exact IH|]. rewrite Forall_forall in *. intros x Hx. apply filter_In in Hx. apply Hall, Hx.
  Qed.

  (** The incremental tube is sound, and the stored tubes only grow, provided the first segment is served
      from the cache or no segment is. *)
  Lemma incremental_sound h : inits <> [] -> heap_ok h -> lookup_ok h ->
    (is_missing 0 = false \/ forall k, k < length inits -> is_missing k = true) ->
    exists h' t upd, calc_full_incremental engine lookup h inits L = Some (h', t, upd) /\ tube_shape N d t /\
      heap_ok h' /\ heap_grows h h' /\ lookup_ok h' /\ upd_sound h' upd /\
      (forall segs k b, seg_starts (length inits) L = Some segs -> In k segs -> seg_hull inits L k = Some b -> lookup b = None ->
         exists c, In (b, c) upd) /\
      forall i b s j s', nth_error inits i = Some b -> in_box (fst b) (snd b) s -> flow s j s' ->
        i / L * L + j < N -> covers t (i / L * L + j) s'.
  Proof.
    intros Hne Hok Hlk Hcase.
    destruct (seg_starts (length inits) L) as [segs|] eqn:Es.
    2: { unfold seg_starts in Es. destruct L; [lia|discriminate]. }
    destruct (seg_starts_spec _ _ Es) as (_ & Hsort & Hlt & Hcov & H0 & _).
    destruct H0 as (rest & ->). { destruct inits; [congruence|simpl; lia]. }
    inversion Hsort as [|k0 segs0 Hsort' Hall]; subst.
    destruct (@seg_hull_ok d inits L inits_dim L_pos 0) as (b0 & Eb0 & D1 & D2 & _); [apply Hlt; simpl; auto|].
    assert (Fin : forall h' t, heap_grows h h' -> segs_sound t (0 :: rest) ->
       lookup_ok h' /\
       forall i b s j s', nth_error inits i = Some b -> in_box (fst b) (snd b) s -> flow s j s' ->
        i / L * L + j < N -> covers t (i / L * L + j) s').
    { intros h' t G Hss. split; [eapply lookup_ok_grows; eauto|].
      intros i b s j s' Hi Hb Hf HN.
      assert (Hil : i < length inits) by (apply nth_error_Some; congruence).
      assert (Hin : In (i / L * L) (0 :: rest)).
      { destruct (Hcov i Hil) as (k & Hk & Hki).
        rewrite (seg_starts_eq _ L_pos) in Es. set (segs := 0 :: rest) in *.
        assert (E0 : segs = map (fun i => i * L) (seq 0 ((length inits + (L - 1)) / L))) by congruence.
        rewrite E0 in Hk |- *. apply in_map_iff in Hk. destruct Hk as (m & <- & Hm).
        replace (i / L) with m; [apply in_map_iff; eauto|].
        apply Nat.div_unique with (r := i - m * L); lia. }
      set (k := i / L * L) in *.
      assert (Hki : k <= i < k + L).
      { unfold k. pose proof (Nat.div_mod i L ltac:(lia)). pose proof (Nat.mod_upper_bound i L ltac:(lia)). nia. }
      destruct (@seg_hull_ok d inits L inits_dim L_pos k) as (hb & Ehb & _ & _ & Hsub); [lia|].
      apply (Hss k hb Hin Ehb s); auto. eapply Hsub; eauto. }
    unfold calc_full_incremental. rewrite Es. cbn [obind check_loop]. rewrite Eb0. cbn [obind].
    destruct (lookup b0) as [c|] eqn:El.
    - destruct (Hlk b0 c D1 D2 El) as (ct & Ec & Sc). rewrite Ec. cbn [obind].
      assert (Lc : length ct = 2 * N) by apply (Hok c ct Ec). rewrite Lc.
      destruct (@check_loop_some rest h c ct []) as (h1 & t1 & E1 & Hok1 & G1 & Ea1 & Gt1 & Hss1); auto.
      { intros; apply Hlt; simpl; auto. }
      rewrite E1. cbn [obind app]. unfold calc_full.
      destruct (@calc_loop_sem (filter is_missing rest) h1 c t1 []) as (h2 & t2 & upd2 & E2 & Hok2 & G2 & Ea2 & Gt2 & Hss2 & Hu2 & Hrec & Hincl); auto.
      { intros k Hk. apply filter_In in Hk. apply Hlt. simpl. tauto. }
      { apply filter_sorted; auto. }
      { intros b c' []. }
      rewrite E2. cbn [obind]. rewrite Ea2. cbn [obind].
      assert (Hss : segs_sound t2 (0 :: rest)).
      { intros k b [<-|Hk] Eb.
        - assert (b = b0) by congruence. subst b. eapply sound_at_grows; [exact Gt2|]. eapply sound_at_grows; eauto.
        - destruct (is_missing k) eqn:Em.
          + apply (Hss2 k b); auto. apply filter_In. auto.
          + eapply sound_at_grows; [exact Gt2|]. apply (Hss1 k b); auto. apply filter_In. rewrite Em. auto. }
      assert (HG : heap_grows h h2) by (eapply heap_grows_trans; eauto).
      destruct (Fin h2 t2 HG Hss) as [F1 F2].
      exists h2, t2, upd2. split; [reflexivity|]. split; [eauto|]. repeat (split; [assumption|]). split; [|exact F2].
      intros segs k b [= <-] [<-|Hk] Eb El'; [congruence|]. apply (Hrec k b); [|exact Eb]. apply filter_In. split; [exact Hk|].
      unfold is_missing. rewrite Eb, El'. reflexivity.
    - assert (Hm0 : is_missing 0 = true) by (unfold is_missing; rewrite Eb0, El; reflexivity).
      destruct Hcase as [Hc|Hc]; [congruence|].
      rewrite (@check_loop_none rest h ([] ++ [0])).
      2: intros; apply Hlt; simpl; auto.
      2: intros; apply Hc, Hlt; simpl; auto.
      cbn [obind app]. unfold calc_full. cbn [calc_loop]. rewrite Eb0. cbn [obind].
      destruct (eng_sem b0 D1 D2) as [Es0 Ess0].
      set (h1 := h ++ [engine b0]).
      assert (Hok1 : heap_ok h1).
      { intros c u Hcu. unfold h1 in Hcu. destruct (Nat.lt_ge_cases c (length h)).
        - rewrite nth_error_app1 in Hcu by auto. eauto.
        - rewrite nth_error_app2 in Hcu by auto. destruct (c - length h) as [|[|?]]; simpl in Hcu; try discriminate. congruence. }
      assert (Ea1 : nth_error h1 (length h) = Some (engine b0)).
      { unfold h1. rewrite nth_error_app2, Nat.sub_diag by auto. reflexivity. }
      assert (Hu1 : upd_sound h1 ([] ++ [(b0, length h)])).
      { intros b' c [[= <- <-]|[]]. exists (engine b0). auto. }
      destruct (@calc_loop_sem rest h1 (length h) (engine b0) ([] ++ [(b0, length h)]))
        as (h2 & t2 & upd2 & E2 & Hok2 & G2 & Ea2 & Gt2 & Hss2 & Hu2 & Hrec & Hincl); auto.
      { intros; apply Hlt; simpl; auto. }
      rewrite E2. cbn [obind]. rewrite Ea2. cbn [obind].
      assert (Hss : segs_sound t2 (0 :: rest)).
      { intros k b [<-|Hk] Eb.
        - assert (b = b0) by congruence. subst b. eapply sound_at_grows; eauto.
        - apply (Hss2 k b); auto. }
      assert (HG : heap_grows h h2) by (eapply heap_grows_trans; [apply heap_grows_app|exact G2]).
      destruct (Fin h2 t2 HG Hss) as [F1 F2].
      exists h2, t2, upd2. split; [reflexivity|]. split; [eauto|]. repeat (split; [assumption|]). split; [|exact F2].
      intros segs k b [= <-] [<-|Hk] Eb El'; [|apply (Hrec k b); assumption]. assert (b = b0) by congruence. subst b. exists (length h).
      apply Hincl. left. reflexivity.
  Qed.
End Cached.
