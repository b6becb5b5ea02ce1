From Verif Require Import Base.
From Coq Require Import Lqa.
Set Implicit Arguments.
Open Scope nat_scope.

Lemma in_box_length lo hi s : in_box lo hi s -> length lo = length s /\ length hi = length s.
Proof.
  revert hi s; induction lo as [|l lo IH]; intros [|h hi] [|x s] H; simpl in *; try tauto.
  destruct H as [_ H]; apply IH in H; lia.
Qed.

Lemma in_box_nth lo hi s :
  in_box lo hi s <->
  length lo = length s /\ length hi = length s /\
  forall i, i < length s -> (nth i lo 0 <= nth i s 0 /\ nth i s 0 <= nth i hi 0)%Q.
Proof.
  revert hi s; induction lo as [|l lo IH]; intros [|h hi] [|x s]; simpl; split; try tauto;
    try (intros (A & B & _); lia); try (intros; repeat split; auto; lia).
  - intros [H1 H2]. apply IH in H2. destruct H2 as (A & B & C).
    split; [lia|]. split; [lia|]. intros [|i] Hi; [exact H1|apply C; lia].
  - intros (A & B & C). split; [exact (C 0%nat ltac:(lia))|].
    apply IH. split; [lia|]. split; [lia|]. intros i Hi. exact (C (S i) ltac:(lia)).
Qed.

Lemma box_le_in_box lo1 hi1 lo2 hi2 s :
  box_le lo1 hi1 lo2 hi2 -> in_box lo1 hi1 s -> in_box lo2 hi2 s.
Proof.
  revert hi1 lo2 hi2 s; induction lo1 as [|a lo1 IH]; intros [|b hi1] [|c lo2] [|d hi2] [|x s] H1 H2;
    simpl in *; try tauto.
  destruct H1 as [[? ?] H1], H2 as [[? ?] H2]. split; [split; lra|eauto].
Qed.

Lemma box_le_refl lo hi : length lo = length hi -> box_le lo hi lo hi.
Proof.
  revert hi; induction lo as [|a lo IH]; intros [|b hi] H; simpl in *; try lia; auto.
  split; [split; lra|]. apply IH; lia.
Qed.

Lemma box_le_trans lo1 hi1 lo2 hi2 lo3 hi3 :
  box_le lo1 hi1 lo2 hi2 -> box_le lo2 hi2 lo3 hi3 -> box_le lo1 hi1 lo3 hi3.
Proof.
  revert hi1 lo2 hi2 lo3 hi3; induction lo1 as [|a lo1 IH];
    intros [|b hi1] [|c lo2] [|d hi2] [|e lo3] [|f hi3] H1 H2; simpl in *; try tauto.
  destruct H1 as [[? ?] H1], H2 as [[? ?] H2]. split; [split; lra|eauto].
Qed.

Lemma zipw_length {A B C} (f : A -> B -> C) l m : length (zipw f l m) = Nat.min (length l) (length m).
Proof. revert m; induction l as [|a l IH]; intros [|b m]; simpl; auto. Qed.

Lemma zipw_nth {A B C} (f : A -> B -> C) l m i da db dc :
  i < length l -> i < length m -> nth i (zipw f l m) dc = f (nth i l da) (nth i m db).
Proof.
  revert m i; induction l as [|a l IH]; intros [|b m] [|i] H1 H2; simpl in *; try lia; auto.
  apply IH; lia.
Qed.

Lemma set_nth_length {A} i (v : A) l : length (set_nth i v l) = length l.
Proof. revert i; induction l as [|a l IH]; intros [|i]; simpl; auto. Qed.

Lemma set_nth_same {A} i (v : A) l d : i < length l -> nth i (set_nth i v l) d = v.
Proof. revert i; induction l as [|a l IH]; intros [|i] H; simpl in *; try lia; auto. apply IH; lia. Qed.

Lemma set_nth_other {A} i j (v : A) l d : i <> j -> nth j (set_nth i v l) d = nth j l d.
Proof.
  revert i j; induction l as [|a l IH]; intros [|i] [|j] H; simpl in *; auto; try lia.
Qed.

Lemma In_product {A} (ls : list (list A)) (t : list A) :
  In t (product ls) <-> Forall2 (fun x l => In x l) t ls.
Proof.
  revert t; induction ls as [|l ls IH]; intros t; simpl.
  - split.
    + intros [<-|[]]; constructor.
    + inversion 1; auto.
  - rewrite in_flat_map. split.
    + intros (a & Ha & H). apply in_map_iff in H. destruct H as (t' & <- & H).
      constructor; [exact Ha|apply IH, H].
    + inversion 1; subst. exists x. split; [assumption|].
      apply in_map_iff. eexists; split; [reflexivity|]. apply IH; assumption.
Qed.

Lemma product_length {A} (ls : list (list A)) :
  length (product ls) = fold_right Nat.mul 1 (map (@length A) ls).
Proof.
  induction ls as [|l ls IH]; simpl; auto.
  rewrite <- IH. clear IH. generalize (product ls); intros p.
  induction l as [|a l IHl]; simpl; auto.
  rewrite app_length, map_length, IHl. reflexivity.
Qed.

Lemma mapM_Forall2 {A B} (f : A -> option B) l r :
  mapM f l = Some r <-> Forall2 (fun a b => f a = Some b) l r.
Proof.
  revert r; induction l as [|a l IH]; intros r; simpl.
  - split; [injection 1; intros <-; constructor|inversion 1; auto].
  - destruct (f a) as [b|] eqn:E; simpl.
    + destruct (mapM f l) as [bs|] eqn:E2; simpl.
      * split.
        -- injection 1; intros <-. constructor; auto. apply IH; reflexivity.
        -- inversion 1; subst. rewrite E in *.
           match goal with h : Some _ = Some _ |- _ => injection h; intros; subst end.
           f_equal. f_equal. apply IH in H4. congruence.
      * split; [discriminate|]. inversion 1; subst. apply IH in H4. discriminate.
    + split; [discriminate|]. inversion 1; subst. congruence.
Qed.

Lemma Forall2_len {A B} (P : A -> B -> Prop) l m : Forall2 P l m -> length l = length m.
Proof. induction 1; simpl; congruence. Qed.

Lemma mapM_length {A B} (f : A -> option B) l r : mapM f l = Some r -> length r = length l.
Proof. intros H. apply mapM_Forall2 in H. symmetry. eapply Forall2_len; eauto. Qed.

Lemma mapM_total {A B} (f : A -> B) l : mapM (fun a => Some (f a)) l = Some (map f l).
Proof. induction l; simpl; auto. rewrite IHl. reflexivity. Qed.

Lemma Forall2_nth_iff {A B} (P : A -> B -> Prop) l m da db :
  Forall2 P l m <-> length l = length m /\ forall i, i < length l -> P (nth i l da) (nth i m db).
Proof.
  revert m; induction l as [|a l IH]; intros [|b m]; simpl; split;
    try (inversion 1; fail); try (intros [? ?]; lia).
  - intros _; split; [reflexivity|lia].
  - constructor.
  - inversion 1; subst. apply IH in H5. destruct H5 as [E F]. split; [lia|].
    intros [|i] Hi; auto. apply F; lia.
  - intros [E F]. constructor; [apply (F 0%nat); lia|]. apply IH. split; [lia|].
    intros i Hi. apply (F (S i)); lia.
Qed.

Lemma nth_error_set_nth_same {A} i (v : A) l : i < length l -> nth_error (set_nth i v l) i = Some v.
Proof. revert i; induction l as [|a l IH]; intros [|i] H; simpl in *; try lia; auto. apply IH; lia. Qed.

Lemma nth_error_set_nth_other {A} i j (v : A) l : i <> j -> nth_error (set_nth i v l) j = nth_error l j.
Proof. revert i j; induction l as [|a l IH]; intros [|i] [|j] H; simpl in *; auto; try lia. Qed.

Lemma mapM_app {A B} (f : A -> option B) l m :
  mapM f (l ++ m) = do x <- mapM f l; do y <- mapM f m; Some (x ++ y).
Proof.
  induction l as [|a l IH]; simpl; [destruct (mapM f m); reflexivity|].
  destruct (f a); simpl; [|reflexivity]. rewrite IH. destruct (mapM f l); simpl; [|reflexivity].
  destruct (mapM f m); reflexivity.
Qed.

Lemma Forall2_nth_l {A B} (P : A -> B -> Prop) l m k a : Forall2 P l m -> nth_error l k = Some a -> exists b, nth_error m k = Some b /\ P a b.
Proof.
  intros H. revert k. induction H as [|x y l m H HF IH]; intros [|k] E; simpl in *; try discriminate; [|apply IH; exact E].
  injection E as <-. eauto.
Qed.
Lemma Forall2_nth_r {A B} (P : A -> B -> Prop) l m k b : Forall2 P l m -> nth_error m k = Some b -> exists a, nth_error l k = Some a /\ P a b.
Proof.
  intros H. revert k. induction H as [|x y l m H HF IH]; intros [|k] E; simpl in *; try discriminate; [|apply IH; exact E].
  injection E as <-. eauto.
Qed.
Lemma nth_error_skipn {A} (l : list A) n k : nth_error (skipn n l) k = nth_error l (n + k).
Proof. revert l; induction n as [|n IH]; intros [|a l]; simpl; try reflexivity; [destruct k; reflexivity|apply IH]. Qed.
Lemma nth_error_firstn {A} (l : list A) n k : k < n -> nth_error (firstn n l) k = nth_error l k.
Proof.
  revert n k. induction l as [|a l IH]; intros n k Hk; [rewrite firstn_nil; destruct k; reflexivity|].
  destruct n; [lia|]. destruct k; [reflexivity|]. simpl. apply IH. lia.
Qed.
