From Verif Require Import Base BaseFacts Utils UtilsSpec.
From Coq Require Import Lqa Sorting.Sorted Qabs Field Qfield.
Set Implicit Arguments.
Open Scope nat_scope.

(** ** dedup *)
Section DedupProofs.
  Variables (T K : Type) (keqb : K -> K -> bool) (f : T -> K).
  Hypothesis keqb_spec : forall a b, keqb a b = true <-> a = b.

  Definition pairs (l : list T) := map (fun i => (i, f i)) l.
  Definition run (l : list T) := fold_left (dedup_step keqb) (pairs l) [].

  Lemma run_snoc l x : run (l ++ [x]) = dedup_step keqb (run l) (x, f x).
  Proof. unfold run, pairs. rewrite map_app, fold_left_app. reflexivity. Qed.

  Lemma run_spec l :
    exists ps, StronglySorted lt ps /\ (forall i, In i ps <-> first_at f l i) /\
               map (fun p => Some (fst p)) (run l) = map (nth_error l) ps /\
               (forall p, In p (run l) -> snd p = f (fst p)) /\
               (forall k, In k (map f l) <-> In k (map snd (run l))).
  Proof.
    induction l as [|x l IH] using rev_ind.
    - exists []. split; [constructor|]. split.
      { intros i; split; [intros []|]. intros (x & H & _). destruct i; discriminate. }
      repeat split; auto. intros p [].
    - destruct IH as (ps & Hs & Hin & Hm & Hk & Hkeys).
      assert (Hlt : forall i, In i ps -> i < length l).
      { intros i Hi. apply Hin in Hi. destruct Hi as (y & Hy & _). apply nth_error_Some. congruence. }
      rewrite run_snoc. unfold dedup_step; simpl.
      assert (Hold : forall i, i < length l -> (first_at f l i <-> first_at f (l ++ [x]) i)).
      { intros i Hi. unfold first_at. split; intros (y & Hy & Hf).
        - exists y. split; [rewrite nth_error_app1; auto|]. intros j z Hj Hz.
          rewrite nth_error_app1 in Hz by lia. eauto.
        - rewrite nth_error_app1 in Hy by lia. exists y; split; auto. intros j z Hj Hz.
          apply (Hf j z Hj). rewrite nth_error_app1 by lia. exact Hz. }
      assert (Hmap : map (nth_error (l ++ [x])) ps = map (nth_error l) ps).
      { apply map_ext_in. intros i Hi. apply nth_error_app1. auto. }
      assert (Hlast : nth_error (l ++ [x]) (length l) = Some x).
      { rewrite nth_error_app2 by lia. rewrite Nat.sub_diag. reflexivity. }
      destruct (existsb (fun p => keqb (f x) (snd p)) (run l)) eqn:E.
      + apply existsb_exists in E. destruct E as (p & Hp & Ek). apply keqb_spec in Ek.
        assert (Hkx : In (f x) (map f l)).
        { apply Hkeys. rewrite Ek. apply in_map; exact Hp. }
        exists ps. split; [exact Hs|]. split; [|split; [|split]].
        * intros i. split.
          -- intros Hi. apply Hold; auto. apply Hin; auto.
          -- intros Hf. destruct (Nat.lt_ge_cases i (length l)) as [Hi|Hi].
             ++ apply Hin, Hold; auto.
             ++ exfalso. destruct Hf as (y & Hy & Hf).
                assert (i = length l).
                { assert (i < length (l ++ [x])) by (apply nth_error_Some; congruence).
                  rewrite app_length in *; simpl in *; lia. }
                subst i. rewrite Hlast in Hy. injection Hy; intros <-.
                apply in_map_iff in Hkx. destruct Hkx as (z & Hz & Hzin).
                apply In_nth_error in Hzin. destruct Hzin as (j & Hj).
                assert (j < length l) by (apply nth_error_Some; congruence).
                apply (Hf j z); auto. rewrite nth_error_app1; auto.
        * rewrite Hmap. exact Hm.
        * exact Hk.
        * intros k. rewrite map_app, in_app_iff. simpl. rewrite Hkeys. split; [|auto].
          intros [H|[<-|[]]]; auto. apply Hkeys; auto.
      + assert (Hno : forall y, In y l -> f y <> f x).
        { intros y Hy Heq. assert (In (f x) (map snd (run l))).
          { apply Hkeys. rewrite <- Heq. apply in_map; auto. }
          apply in_map_iff in H. destruct H as (p & Hp1 & Hp2).
          assert (existsb (fun p => keqb (f x) (snd p)) (run l) = true).
          { apply existsb_exists. exists p; split; auto. apply keqb_spec; auto. }
          congruence. }
        exists (ps ++ [length l]). split; [|split; [|split; [|split]]].
        * clear -Hs Hlt. induction ps as [|p ps IH]; simpl; [repeat constructor|].
          inversion Hs; subst. constructor.
          -- apply IH; auto. intros; apply Hlt; simpl; auto.
          -- apply Forall_app; split; auto. constructor; auto. apply Hlt; simpl; auto.
        * intros i. rewrite in_app_iff. simpl. split.
          -- intros [Hi|[<-|[]]].
             ++ apply Hold; auto. apply Hin; auto.
             ++ exists x. split; auto. intros j y Hj Hy. rewrite nth_error_app1 in Hy by lia.
                apply Hno. eapply nth_error_In; eauto.
          -- intros Hf. destruct (Nat.lt_ge_cases i (length l)) as [Hi|Hi].
             ++ left. apply Hin, Hold; auto.
             ++ right; left. destruct Hf as (y & Hy & _).
                assert (i < length (l ++ [x])) by (apply nth_error_Some; congruence).
                rewrite app_length in *; simpl in *; lia.
        * rewrite !map_app. simpl. rewrite Hmap, Hm, Hlast. reflexivity.
        * intros p Hp. apply in_app_iff in Hp. destruct Hp as [Hp|[<-|[]]]; auto.
        * intros k. rewrite !map_app, !in_app_iff. simpl. rewrite Hkeys. tauto.
  Qed.

  Lemma dedup_spec l :
    exists ps, StronglySorted lt ps /\ (forall i, In i ps <-> first_at f l i) /\
               map Some (dedup keqb f l) = map (nth_error l) ps.
  Proof.
    destruct (run_spec l) as (ps & A & B & C & _). exists ps. repeat split; auto; try apply B.
    unfold dedup. rewrite map_map. exact C.
  Qed.
End DedupProofs.

(** ** index_of *)
Lemma index_of_spec A (eqb : A -> A -> bool) (Heq : forall a b, eqb a b = true <-> a = b) l x :
  match index_of eqb l x with
  | Some i => nth_error l i = Some x /\ forall j, j < i -> nth_error l j <> Some x
  | None => ~ In x l
  end.
Proof.
  induction l as [|v l IH]; simpl; auto.
  destruct (eqb v x) eqn:E.
  - apply Heq in E. subst v. split; [reflexivity|lia].
  - destruct (index_of eqb l x) as [i|]; simpl.
    + destruct IH as [H1 H2]. split; auto. intros [|j] Hj; simpl.
      * intros [= ->]. rewrite (proj2 (Heq x x) eq_refl) in E. discriminate.
      * apply H2; lia.
    + intros [->|H]; auto. rewrite (proj2 (Heq x x) eq_refl) in E. discriminate.
Qed.

(** ** near_split *)
Lemma sumZ_repeat v n : sumZ (repeat v n) = (v * Z.of_nat n)%Z.
Proof. induction n as [|n IH]; cbn [repeat sumZ fold_right]; [lia|]. fold (sumZ (repeat v n)). rewrite IH. lia. Qed.

Lemma sumZ_app l m : sumZ (l ++ m) = (sumZ l + sumZ m)%Z.
Proof. induction l as [|a l IH]; simpl; auto. rewrite IH. lia. Qed.

Lemma near_split_num_spec x n : (0 < n)%Z ->
  let bins := near_split_num x n in
  sumZ bins = x /\ Z.of_nat (length bins) = n /\
  forall a b, In a bins -> In b bins -> (Z.abs (a - b) <= 1)%Z.
Proof.
  intros Hn bins. subst bins. unfold near_split_num.
  pose proof (Z.mod_pos_bound x n Hn) as Hm. pose proof (Z.div_mod x n ltac:(lia)) as Hd.
  split; [|split].
  - rewrite sumZ_app, !sumZ_repeat, !Z2Nat.id by lia. nia.
  - rewrite app_length, !repeat_length. lia.
  - intros a b Ha Hb. apply in_app_iff in Ha, Hb.
    destruct Ha as [Ha|Ha], Hb as [Hb|Hb]; apply repeat_spec in Ha; apply repeat_spec in Hb; lia.
Qed.

Lemma near_split_size_spec x s : (0 < x)%Z -> (0 < s)%Z ->
  exists bins, near_split x 0 s = SplitBins bins /\ sumZ bins = x /\
    (forall a, In a bins -> (0 < a <= s)%Z) /\
    (forall a b, In a bins -> In b bins -> (Z.abs (a - b) <= 1)%Z).
Proof.
  intros Hx Hs. unfold near_split. simpl negb. cbv iota.
  assert (Hs0 : negb (s =? 0)%Z = true) by (destruct (Z.eqb_spec s 0); simpl; lia).
  rewrite Hs0.
  set (nb := (- (- x / s))%Z).
  assert (Hnb : (s * (nb - 1) < x <= s * nb)%Z).
  { unfold nb. pose proof (Z.div_mod (-x) s ltac:(lia)). pose proof (Z.mod_pos_bound (-x) s Hs). nia. }
  assert (Hnb1 : (1 <= nb <= x)%Z) by nia.
  assert (Hnz : negb (nb =? 0)%Z = true) by (destruct (Z.eqb_spec nb 0); simpl; lia).
  rewrite Hnz.
  eexists; split; [reflexivity|].
  destruct (@near_split_num_spec x nb) as (A & B & C); [lia|].
  split; [exact A|]. split; [|exact C].
  intros a Ha. unfold near_split_num in Ha.
  pose proof (Z.mod_pos_bound x nb ltac:(lia)) as Hm. pose proof (Z.div_mod x nb ltac:(lia)) as Hd.
  apply in_app_iff in Ha. destruct Ha as [Ha|Ha].
  - assert (0 < x mod nb)%Z.
    { destruct (Z.to_nat (x mod nb)) eqn:E; [destruct Ha|lia]. }
    apply repeat_spec in Ha. nia.
  - apply repeat_spec in Ha. nia.
Qed.

(** ** lmap, constrain, not_zero *)
Lemma lmap_ends x0 x1 y0 y1 : ~ (x0 == x1)%Q ->
  (lmap x0 x0 x1 y0 y1 == y0)%Q /\ (lmap x1 x0 x1 y0 y1 == y1)%Q.
Proof.
  intros H. assert (~ (x1 - x0 == 0)%Q) by (intros E; apply H; lra).
  unfold lmap; split; field; auto.
Qed.

Lemma lmap_inv v x0 x1 y0 y1 : ~ (x0 == x1)%Q -> ~ (y0 == y1)%Q ->
  (lmap (lmap v x0 x1 y0 y1) y0 y1 x0 x1 == v)%Q.
Proof.
  intros H H'. assert (~ (x1 - x0 == 0)%Q) by (intros E; apply H; lra).
  assert (~ (y1 - y0 == 0)%Q) by (intros E; apply H'; lra).
  unfold lmap. field; auto.
Qed.

Lemma lmap_mono v w x0 x1 y0 y1 : (x0 < x1)%Q -> (y0 <= y1)%Q -> (v <= w)%Q ->
  (lmap v x0 x1 y0 y1 <= lmap w x0 x1 y0 y1)%Q.
Proof.
  intros H H' Hv. unfold lmap, Qdiv.
  assert (0 < / (x1 - x0))%Q by (apply Qinv_lt_0_compat; lra).
  assert (0 <= (w - v) * (y1 - y0) * / (x1 - x0))%Q.
  { apply Qmult_le_0_compat; [apply Qmult_le_0_compat; lra|lra]. }
  lra.
Qed.

Lemma constrain_spec x a b : (a <= b)%Q ->
  (a <= constrain x a b <= b)%Q /\
  forall y, (a <= y <= b)%Q -> (Qabs (constrain x a b - x) <= Qabs (y - x))%Q.
Proof.
  intros H. unfold constrain.
  destruct (Q.max_spec x a) as [[H1 E1]|[H1 E1]]; destruct (Q.min_spec (Qmax x a) b) as [[H2 E2]|[H2 E2]];
    rewrite E1 in H2; rewrite E2 ; try rewrite E1; split; try lra; intros y Hy;
    repeat (apply Qabs_case; intros); lra.
Qed.

Lemma not_zero_spec x eps : (0 < eps)%Q ->
  (eps <= Qabs (not_zero x eps))%Q /\ ((eps < Qabs x)%Q -> not_zero x eps = x) /\
  (0 <= x -> 0 < not_zero x eps)%Q /\ (x < 0 -> not_zero x eps < 0)%Q.
Proof.
  intros He. unfold not_zero.
  destruct (Qlt_le_dec eps (Qabs x)) as [H|H].
  - repeat split; auto; try lra; intros; revert H; apply Qabs_case; intros; lra.
  - destruct (Qle_bool 0 x) eqn:E.
    + apply Qle_bool_iff in E. repeat split; try lra.
      * apply Qle_trans with eps; [lra|]. apply Qabs_case; intros; lra.
    + assert (x < 0)%Q.
      { apply Qnot_le_lt. intros C. apply Qle_bool_iff in C. congruence. }
      repeat split; try lra. apply Qabs_case; intros; lra.
Qed.
