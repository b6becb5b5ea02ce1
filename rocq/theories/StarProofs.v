(** Proofs about star sets. *)
From Coq Require Import Lqa.
From Verif Require Import Base BaseFacts Star StarSpec.
Set Implicit Arguments.
Open Scope nat_scope.

Lemma dot_inner a b : dot a b = inner a b.
Proof. unfold dot. revert b. induction a as [|x a IH]; intros [|y b]; cbn; try reflexivity. rewrite IH. reflexivity. Qed.

Lemma inner_nil_r a : inner a [] = 0%Q.
Proof. destruct a; reflexivity. Qed.
Lemma inner_comm a b : (inner a b == inner b a)%Q.
Proof. revert b. induction a as [|x a IH]; intros [|y b]; cbn; try reflexivity. rewrite IH. lra. Qed.
Lemma inner_same a b b' : same b b' -> (inner a b == inner a b')%Q.
Proof. intros H. revert a. induction H as [|y y' b b' Hy H IH]; intros [|x a]; cbn; try reflexivity. rewrite Hy, IH. reflexivity. Qed.
Lemma inner_same_l a a' b : same a a' -> (inner a b == inner a' b)%Q.
Proof. intros H. rewrite inner_comm, (inner_comm a'). apply inner_same. exact H. Qed.
Lemma inner_opp a b : (inner (vopp a) b == - inner a b)%Q.
Proof. unfold vopp. revert b. induction a as [|x a IH]; intros [|y b]; cbn; try lra. rewrite IH. lra. Qed.
Lemma inner_zero n b : (inner (repeat 0%Q n) b == 0)%Q.
Proof. revert b. induction n as [|n IH]; intros [|y b]; cbn; try reflexivity. rewrite IH. lra. Qed.
Lemma inner_map_add {A} r (F G : A -> Q) l : (inner r (map (fun j => F j + G j) l) == inner r (map F l) + inner r (map G l))%Q.
Proof. revert r. induction l as [|x l IH]; intros [|a r]; cbn; try lra. rewrite IH. lra. Qed.
Lemma inner_map_scale {A} r (F : A -> Q) k l : (inner r (map (fun j => k * F j) l) == k * inner r (map F l))%Q.
Proof. revert r. induction l as [|x l IH]; intros [|a r]; cbn; try lra. rewrite IH. lra. Qed.
Lemma inner_map_ext {A} r (F G : A -> Q) l : (forall x, In x l -> (F x == G x)%Q) -> (inner r (map F l) == inner r (map G l))%Q.
Proof. intros H. apply inner_same. induction l as [|x l IH]; constructor; [apply H; cbn; auto|]. apply IH. intros; apply H; cbn; auto. Qed.
Lemma inner_map_0 {A} r (l : list A) : (inner r (map (fun _ => 0%Q) l) == 0)%Q.
Proof. revert r. induction l as [|x l IH]; intros [|a r]; cbn; try lra. rewrite IH. lra. Qed.

Lemma map_nth_seq {A} (v : list A) d : map (fun j => nth j v d) (seq 0 (length v)) = v.
Proof. induction v as [|a v IH]; [reflexivity|]. cbn [length seq map nth]. f_equal. rewrite <- seq_shift, map_map. exact IH. Qed.
Lemma column_nth i j (l : list vec) : nth j (map (fun v => nth i v 0%Q) l) 0%Q = nth i (nth j l []) 0%Q.
Proof. revert j. induction l as [|v l IH]; intros [|j]; cbn [map nth]; try reflexivity; try (destruct i; reflexivity). apply IH. Qed.
Lemma nth_map_seq (F : nat -> Q) n j : j < n -> nth j (map F (seq 0 n)) 0%Q = F j.
Proof. intros H. rewrite nth_indep with (d' := F 0) by (rewrite map_length, seq_length; exact H). rewrite map_nth, seq_nth by exact H. reflexivity. Qed.

Lemma same_refl a : same a a.
Proof. induction a; constructor; [reflexivity|assumption]. Qed.
Lemma same_sym a b : same a b -> same b a.
Proof. intros H. induction H; constructor; [symmetry|]; assumption. Qed.
Lemma same_trans a b c : same a b -> same b c -> same a c.
Proof. intros H. revert c. induction H as [|x y a b Hxy H IH]; intros c H'; inversion H'; subst; constructor; [lra|]. apply IH; assumption. Qed.
Lemma same_len a b : same a b -> length a = length b.
Proof. apply Forall2_len. Qed.
Lemma same_nth a b : same a b <-> length a = length b /\ forall i, i < length a -> (nth i a 0 == nth i b 0)%Q.
Proof. apply Forall2_nth_iff. Qed.

(** [r . (alpha_1 v_1 + ... + alpha_m v_m) = alpha . (r . v_1, ..., r . v_m)]. *)
Lemma exchange n r alpha vs : (forall v, In v vs -> length v = n) ->
  (inner r (map (fun j => inner alpha (map (fun v => nth j v 0%Q) vs)) (seq 0 n)) == inner alpha (map (inner r) vs))%Q.
Proof.
  revert alpha. induction vs as [|v vs IH]; intros alpha H; cbn [map].
  - rewrite inner_nil_r. apply inner_map_0.
  - destruct alpha as [|a alpha]; [cbn; apply inner_map_0|]. cbn [inner]. rewrite inner_map_add, inner_map_scale, IH by (intros; apply H; cbn; auto).
    rewrite <- (H v) at 1 by (cbn; auto). rewrite map_nth_seq. reflexivity.
Qed.

(** The point of [alpha]. *)
Definition the_point (s : star) (alpha : vec) : vec :=
  map (fun j => nth j (center s) 0 + inner alpha (map (fun v => nth j v 0) (basis s)))%Q (seq 0 (dim s)).
Lemma the_point_ok s alpha : point_of s alpha (the_point s alpha).
Proof. split; [unfold the_point; rewrite map_length, seq_length; reflexivity|]. intros j Hj. unfold the_point. rewrite nth_map_seq by exact Hj. reflexivity. Qed.
Lemma point_of_same s alpha x y : point_of s alpha x -> (point_of s alpha y <-> same x y).
Proof.
  intros [L P]. rewrite same_nth. split.
  - intros [L' P']. split; [congruence|]. intros i Hi. rewrite L in Hi. rewrite (P i Hi), (P' i Hi). reflexivity.
  - intros [L' P']. split; [congruence|]. intros j Hj. rewrite <- (P j Hj). symmetry. apply P'. congruence.
Qed.
Lemma in_star_same s x y : in_star s x -> same x y -> in_star s y.
Proof. intros (al & L & O & P) H. exists al. split; [exact L|]. split; [exact O|]. apply (point_of_same y P). exact H. Qed.

Lemma F2_impl {A B} (P Q : A -> B -> Prop) l m : (forall a b, P a b -> Q a b) -> Forall2 P l m -> Forall2 Q l m.
Proof. intros H F. induction F; constructor; auto. Qed.

Lemma all_len_iff n rows : all_len n rows = true <-> forall r, In r rows -> length r = n.
Proof. unfold all_len. rewrite forallb_forall. split; intros H r Hr; [apply Nat.eqb_eq|apply Nat.eqb_eq]; auto. Qed.

Lemma mk_star_some c b cm gv : (forall v, In v b -> length v = length c) -> (forall r, In r cm -> length r = length b) -> length gv = length cm ->
  mk_star c b cm gv = Some (Star c b cm gv).
Proof. intros A B D. unfold mk_star. rewrite (proj2 (all_len_iff _ _) A), (proj2 (all_len_iff _ _) B), D, Nat.eqb_refl. reflexivity. Qed.
Lemma mk_star_inv c b cm gv s : mk_star c b cm gv = Some s -> s = Star c b cm gv /\ wf_star s.
Proof.
  unfold mk_star. destruct (all_len (length c) b) eqn:A; [|discriminate]. destruct (all_len (length b) cm) eqn:B; [|discriminate]. destruct (length gv =? length cm) eqn:D; [|discriminate].
  intros E. injection E as <-. split; [reflexivity|]. split; [apply all_len_iff; exact A|]. split; [apply all_len_iff; exact B|]. apply Nat.eqb_eq. exact D.
Qed.

Lemma inner_vadd r a b : length a = length b -> (inner r (vadd a b) == inner r a + inner r b)%Q.
Proof. unfold vadd. revert a b. induction r as [|x r IH]; intros [|p a] [|q b] L; cbn in *; try lra; try discriminate. rewrite IH by lia. lra. Qed.

Lemma vsub_nth a b i : i < length a -> length a = length b -> nth i (vsub a b) 0%Q = (nth i a 0 - nth i b 0)%Q.
Proof. intros H L. unfold vsub. rewrite (@zipw_nth _ _ _ _ _ _ i 0%Q 0%Q 0%Q) by lia. reflexivity. Qed.
Lemma vsub_len a b : length a = length b -> length (vsub a b) = length a.
Proof. intros L. unfold vsub. rewrite zipw_length. lia. Qed.
Lemma vadd_len a b : length a = length b -> length (vadd a b) = length a.
Proof. intros L. unfold vadd. rewrite zipw_length. lia. Qed.

Section Image.
  Variable n : nat.
  Variable M : list vec.
  Variable b : vec.
  Hypothesis rows : forall r, In r M -> length r = n.
  Hypothesis HM : length M = n.

  (** Stars whose center and generators are the images under [M x + b]. *)
  Lemma image_set s s' (f : vec -> vec -> Prop) : dim s = n -> wf_star s -> dim s' = n -> C s' = C s -> g s' = g s -> length (basis s') = length (basis s) ->
    (forall x y, length x = n -> (f x y <-> length y = n /\ forall i, i < n -> (nth i y 0 == inner (nth i M []) x + nth i b 0)%Q)) ->
    (forall i, i < n -> (nth i (center s') 0 == inner (nth i M []) (center s) + nth i b 0)%Q) ->
    Forall2 (fun v v' => forall i, i < n -> (nth i v' 0 == inner (nth i M []) v)%Q) (basis s) (basis s') ->
    forall y, in_star s' y <-> exists x, in_star s x /\ f x y.
  Proof.
    intros Dn (W1 & W2 & W3) Dn' EC Eg EL Hf Hc Hb y.
    assert (K : forall al x i, length x = n -> point_of s al x -> i < n ->
      (inner (nth i M []) x + nth i b 0 == nth i (center s') 0 + inner al (map (fun v => nth i v 0) (basis s')))%Q).
    { intros al x i Lx Px Hi. rewrite (Hc i Hi). assert (Ri : length (nth i M []) = n) by (apply rows, nth_In; lia).
      assert (E1 : same x (the_point s al)) by (apply (point_of_same (the_point s al) Px), the_point_ok). rewrite (inner_same _ E1). unfold the_point. rewrite inner_map_add.
      rewrite (exchange (n := dim s)) by exact W1. unfold dim at 1. rewrite map_nth_seq.
      assert (E2 : same (map (inner (nth i M [])) (basis s)) (map (fun v => nth i v 0%Q) (basis s'))).
      { clear - Hb Hi. unfold same. induction Hb as [|v v' l l' H Hb IH]; cbn; constructor; [symmetry; apply H; exact Hi|exact IH]. }
      rewrite (inner_same _ E2). lra. }
    split.
    - intros (al & Lal & O & Py & Q0). exists (the_point s al). split.
      + exists al. split; [unfold gens in *; congruence|]. split; [rewrite <- EC, <- Eg; exact O|apply the_point_ok].
      + assert (Lx : length (the_point s al) = n) by (unfold the_point; rewrite map_length, seq_length; exact Dn). apply Hf; [exact Lx|]. split; [congruence|].
        intros i Hi. rewrite (K al (the_point s al) i Lx (the_point_ok s al) Hi). apply Q0. lia.
    - intros (x & (al & Lal & O & Px) & Hfx). assert (Lx : length x = n) by (destruct Px; congruence). apply Hf in Hfx; [|exact Lx]. destruct Hfx as [Ly Hy].
      exists al. split; [unfold gens in *; congruence|]. split; [rewrite EC, Eg; exact O|]. split; [congruence|]. intros j Hj. rewrite Dn' in Hj. rewrite (Hy j Hj). apply K; assumption.
  Qed.
End Image.

Lemma image_exact n f s : wf_star s -> dim s = n -> affine n f ->
  exists s', image f s = Some s' /\ wf_star s' /\ dim s' = n /\ gens s' = gens s /\
    forall y, in_star s' y <-> exists x z, in_star s x /\ f x = Some z /\ same y z.
Proof.
  intros W Dn (M & b & LM & RM & Lb & Hf). pose proof W as (W1 & W2 & W3).
  destruct (Hf (center s) Dn) as (c' & Ec & Lc & Hc). unfold image. rewrite Ec. cbn [obind].
  assert (B : exists bs, mapM (fun v => if length v =? length (center s) then do new_x <- f (vadd (center s) v); (if (length new_x =? length c') && (length new_x =? length (center s)) then Some (vsub new_x c') else None) else None) (basis s) = Some bs
    /\ Forall2 (fun v v' => length v' = n /\ forall i, i < n -> (nth i v' 0 == inner (nth i M []) v)%Q) (basis s) bs).
  { clear W W2 W3. induction (basis s) as [|v vs IH]; [exists []; split; [reflexivity|constructor]|].
    assert (Lv : length v = dim s) by (apply W1; cbn; auto). unfold dim in Lv, Dn. destruct IH as (bs & E & H); [intros; apply W1; cbn; auto|].
    destruct (Hf (vadd (center s) v)) as (z & Ez & Lz & Hz); [rewrite vadd_len; congruence|].
    cbn [mapM]. rewrite Lv, Nat.eqb_refl, Ez. cbn [obind]. rewrite Lz, Lc, Dn, Nat.eqb_refl. cbn [andb obind]. rewrite Lc, Dn in E. rewrite E. cbn [obind]. eexists. split; [reflexivity|]. constructor; [|exact H].
    split; [rewrite vsub_len; congruence|]. intros i Hi. rewrite vsub_nth by congruence. rewrite (Hz i Hi), (Hc i Hi), inner_vadd by congruence. lra. }
  destruct B as (bs & E & H). rewrite E. cbn [obind]. unfold superposition. rewrite <- (Forall2_len H), Nat.eqb_refl.
  assert (Lbs : forall v, In v bs -> length v = length c'). { intros v Hv. clear - H Hv Lc. induction H as [|a c l l' [P _] H IH]; [destruct Hv|]. destruct Hv as [<-|Hv]; [congruence|auto]. }
  assert (LC : forall r, In r (C s) -> length r = length bs). { intros r Hr. rewrite (W2 r Hr). unfold gens. apply (Forall2_len H). }
  rewrite mk_star_some by auto. eexists. split; [reflexivity|]. split; [split; [exact Lbs|split; [exact LC|exact W3]]|]. split; [exact Lc|]. split; [unfold gens; cbn; symmetry; apply (Forall2_len H)|].
  intros y.
  rewrite (@image_set n M b RM LM s _ (fun x y => exists z, f x = Some z /\ same y z)); try assumption; try reflexivity.
  - split; [intros (x & Hx & z & A & B); exists x, z; auto|intros (x & z & A & B & D); exists x; split; [exact A|exists z; auto]].
  - cbn. symmetry. apply (Forall2_len H).
  - intros x z0 Lx. destruct (Hf x Lx) as (z & Ez & Lz & Hz). split.
    + intros (z' & E' & S). rewrite Ez in E'. injection E' as <-. apply same_nth in S. destruct S as [S1 S2]. split; [congruence|]. intros i Hi. rewrite (S2 i) by congruence. apply Hz. exact Hi.
    + intros [L' H']. exists z. split; [exact Ez|]. apply same_nth. split; [congruence|]. intros i Hi. rewrite L' in Hi. rewrite (H' i Hi), (Hz i Hi). reflexivity.
  - eapply F2_impl; [|exact H]. intros ? ? [_ P]; exact P.
Qed.

(** * Constructors *)
Lemma obeys_same A b x y : same x y -> obeys A b x -> obeys A b y.
Proof. intros S H. eapply F2_impl; [|exact H]. cbn. intros row r L. rewrite <- (inner_same row S). exact L. Qed.

Lemma inner_unit k a j : (inner a (map (fun i => if j =? i then 1 else 0)%Q (seq k (length a))) == if (k <=? j) then nth (j - k) a 0 else 0)%Q.
Proof.
  revert k. induction a as [|x a IH]; intros k; cbn [length seq map inner].
  - destruct (k <=? j); [destruct (j - k)|]; reflexivity.
  - rewrite (IH (S k)). destruct (Nat.leb_spec k j).
    + destruct (Nat.eqb_spec j k) as [->|N].
      * replace (k - k) with 0 by lia. cbn [nth]. destruct (Nat.leb_spec (S k) k); [lia|]. lra.
      * destruct (Nat.leb_spec (S k) j); [|lia]. replace (j - k) with (S (j - S k)) by lia. cbn [nth]. lra.
    + destruct (Nat.eqb_spec j k); [lia|]. destruct (Nat.leb_spec (S k) j); [lia|]. lra.
Qed.

Lemma unit_nth n i j : j < n -> nth j (unit_vec n i) 0%Q = if j =? i then 1%Q else 0%Q.
Proof. intros H. unfold unit_vec. rewrite nth_map_seq by exact H. reflexivity. Qed.
Lemma eye_len n : length (eye n) = n.
Proof. unfold eye. rewrite map_length, seq_length. reflexivity. Qed.
Lemma eye_rows n r : In r (eye n) -> length r = n.
Proof. unfold eye. intros H. apply in_map_iff in H. destruct H as (i & <- & _). unfold unit_vec. rewrite map_length, seq_length. reflexivity. Qed.
Lemma eye_nth n i : i < n -> nth i (eye n) [] = unit_vec n i.
Proof. intros H. unfold eye. rewrite nth_indep with (d' := unit_vec n 0) by (rewrite map_length, seq_length; exact H). rewrite map_nth, seq_nth by exact H. reflexivity. Qed.
Lemma eye_column n j : j < n -> map (fun v => nth j v 0%Q) (eye n) = map (fun i => if j =? i then 1%Q else 0%Q) (seq 0 n).
Proof. intros H. unfold eye. rewrite map_map. apply map_ext_in. intros i Hi. apply unit_nth. exact H. Qed.
Lemma inner_eye_row n i x : length x = n -> i < n -> (inner (unit_vec n i) x == nth i x 0)%Q.
Proof.
  intros L H. rewrite inner_comm. unfold unit_vec. rewrite <- L. rewrite (@inner_map_ext nat x _ (fun k => if i =? k then 1%Q else 0%Q) (seq 0 (length x))).
  - rewrite (inner_unit 0 x i). cbn [Nat.leb]. rewrite Nat.sub_0_r. reflexivity.
  - intros k _. rewrite Nat.eqb_sym. reflexivity.
Qed.

Lemma eye_points n A b al x : length al = n -> (point_of (Star (repeat 0%Q n) (eye n) A b) al x <-> same x al).
Proof.
  intros L. unfold point_of, dim. cbn [center basis]. rewrite repeat_length, same_nth. split.
  - intros [Lx H]. split; [congruence|]. intros i Hi. rewrite Lx in Hi. rewrite (H i Hi), nth_repeat, eye_column by exact Hi. rewrite <- L. rewrite (inner_unit 0 al i). cbn [Nat.leb]. rewrite Nat.sub_0_r. lra.
  - intros [Lx H]. split; [congruence|]. intros j Hj. rewrite H by congruence. rewrite nth_repeat, eye_column by exact Hj. rewrite <- L. rewrite (inner_unit 0 al j). cbn [Nat.leb]. rewrite Nat.sub_0_r. lra.
Qed.

Lemma from_poly_exact n A b : A <> [] -> (forall r, In r A -> length r = n) -> length b = length A ->
  exists s, from_poly A b = Some s /\ wf_star s /\ dim s = n /\ gens s = n /\ forall x, in_star s x <-> length x = n /\ obeys A b x.
Proof.
  intros NE R L. destruct A as [|r A]; [contradiction|]. unfold from_poly. rewrite L, Nat.eqb_refl. cbn [hd_error obind]. rewrite (R r) by (cbn; auto).
  assert (W : wf_star (Star (repeat 0%Q n) (eye n) (r :: A) b)).
  { split; [|split]; cbn; [unfold dim; cbn; rewrite repeat_length; apply eye_rows|unfold gens; cbn; rewrite eye_len; exact R|exact L]. }
  destruct W as (W1 & W2 & W3). rewrite mk_star_some by assumption. eexists. split; [reflexivity|]. split; [repeat split; assumption|]. split; [apply repeat_length|]. split; [apply eye_len|].
  intros x. split.
  - intros (al & La & O & P). unfold gens in La. cbn [basis] in La. rewrite eye_len in La. apply (@eye_points n (r :: A) b al x La) in P. split; [rewrite (same_len P); exact La|]. eapply obeys_same; [apply same_sym; exact P|exact O].
  - intros [Lx O]. exists x. split; [unfold gens; cbn; rewrite eye_len; exact Lx|]. split; [exact O|]. apply (@eye_points n (r :: A) b x x Lx). apply same_refl.
Qed.

Lemma in_box_nth_iff lo hi x : in_box lo hi x <-> length x = length lo /\ length hi = length lo /\ forall i, i < length lo -> (nth i lo 0 <= nth i x 0 /\ nth i x 0 <= nth i hi 0)%Q.
Proof.
  revert hi x. induction lo as [|l lo IH]; intros [|h hi] [|y x]; cbn; try (split; [tauto|intros (A & B & _); discriminate]); try (split; [intros _; repeat split; auto; intros; lia|auto]).
  rewrite IH. split.
  - intros (A & B & D & E). repeat split; auto; destruct i as [|i]; try tauto; apply E; lia.
  - intros (A & B & D). split; [apply (D 0); lia|]. repeat split; auto; apply (D (S i)); lia.
Qed.

Lemma box2poly_exact (dims : list (Q * Q)) x : length x = length dims ->
  (obeys (fst (box2poly dims)) (snd (box2poly dims)) x <-> in_box (map fst dims) (map snd dims) x).
Proof.
  intros L. unfold box2poly. cbn [fst snd]. set (n := length dims) in *. rewrite in_box_nth_iff. unfold obeys.
  assert (E : forall i, i < n -> nth i (map fst dims) 0%Q = fst (nth i dims (0, 0)%Q) /\ nth i (map snd dims) 0%Q = snd (nth i dims (0, 0)%Q)).
  { intros i Hi. split; [change 0%Q with (fst (0, 0)%Q) at 1|change 0%Q with (snd (0, 0)%Q) at 1]; apply map_nth. }
  assert (V : forall i, i < n -> nth i (map vopp (eye n)) [] = vopp (unit_vec n i)) by (intros i Hi; change [] with (vopp []) at 1; rewrite map_nth, eye_nth by exact Hi; reflexivity).
  assert (W : forall i, i < n -> nth i (map (fun d => - fst d)%Q dims) 0%Q = (- fst (nth i dims (0, 0)))%Q) by (intros i Hi; change 0%Q with ((fun d : Q * Q => - fst d)%Q (0, 0)%Q) at 1; rewrite map_nth; reflexivity).
  split.
  - intros H. apply Forall2_app_inv_l in H. destruct H as (b1 & b2 & H1 & H2 & Eb).
    assert (L1 : length b1 = n) by (rewrite <- (Forall2_len H1), eye_len; reflexivity). assert (Eb1 : b1 = map snd dims /\ b2 = map (fun d => - fst d)%Q dims).
    { assert (Hl : length (map snd dims) = length b1) by (rewrite map_length, L1; reflexivity). clear - Eb Hl. revert b1 Eb Hl. induction (map snd dims) as [|a l IH]; intros [|b b1] E Hl; cbn in *; try discriminate; [auto|]. injection E as -> E. destruct (IH b1 E) as [-> ->]; [lia|]. auto. }
    destruct Eb1 as [-> ->]. apply (proj1 (Forall2_nth_iff _ _ _ ([] : vec) 0%Q)) in H1. apply (proj1 (Forall2_nth_iff _ _ _ ([] : vec) 0%Q)) in H2. destruct H1 as [_ H1]. destruct H2 as [_ H2]. rewrite eye_len in H1. rewrite map_length, eye_len in H2.
    split; [rewrite map_length; exact L|]. split; [rewrite !map_length; reflexivity|]. rewrite map_length. intros i Hi. specialize (H1 i Hi). specialize (H2 i Hi). rewrite eye_nth in H1 by exact Hi. rewrite V, W, inner_opp in H2 by exact Hi.
    rewrite inner_eye_row in H1, H2 by assumption. destruct (E i Hi) as [E1 E2]. rewrite E1. rewrite E2 in *. split; lra.
  - intros (_ & _ & H). rewrite map_length in H. apply Forall2_app; apply (Forall2_nth_iff _ _ _ ([] : vec) 0%Q); rewrite !map_length, ?eye_len; (split; [reflexivity|]); intros i Hi; destruct (E i Hi) as [E1 E2]; specialize (H i Hi); rewrite E1, E2 in H.
    + rewrite eye_nth, inner_eye_row, E2 by assumption. tauto.
    + rewrite V, W, inner_opp, inner_eye_row by assumption. lra.
Qed.

Lemma box2poly_shape dims : (forall r, In r (fst (box2poly dims)) -> length r = length dims) /\ length (snd (box2poly dims)) = length (fst (box2poly dims)).
Proof.
  unfold box2poly. cbn [fst snd]. split.
  - intros r H. apply in_app_or in H. destruct H as [H|H]; [apply eye_rows; exact H|]. apply in_map_iff in H. destruct H as (v & <- & Hv). unfold vopp. rewrite map_length. apply eye_rows. exact Hv.
  - rewrite !app_length, !map_length, eye_len. reflexivity.
Qed.

Lemma box_star dims : dims <> [] -> exists s, from_poly (fst (box2poly dims)) (snd (box2poly dims)) = Some s /\ wf_star s /\ dim s = length dims /\ gens s = length dims /\
  forall x, in_star s x <-> in_box (map fst dims) (map snd dims) x.
Proof.
  intros NE. destruct (box2poly_shape dims) as [S1 S2].
  destruct (@from_poly_exact (length dims) (fst (box2poly dims)) (snd (box2poly dims))) as (s & E & W & D & G & H); auto.
  { unfold box2poly. cbn [fst]. destruct dims; [contradiction|]. cbn. discriminate. }
  exists s. repeat (split; [assumption|]). intros x. rewrite H. split.
  - intros [L O]. apply box2poly_exact; assumption.
  - intros B. assert (L : length x = length dims) by (apply in_box_length in B; rewrite !map_length in B; lia). split; [exact L|]. apply box2poly_exact; assumption.
Qed.

(** * Half-spaces *)
Lemma inner_point s al x r : wf_star s -> point_of s al x -> (inner r x == inner r (center s) + inner al (map (inner r) (basis s)))%Q.
Proof.
  intros (W1 & _) P. assert (S : same x (the_point s al)) by (apply (point_of_same _ P), the_point_ok). rewrite (inner_same _ S). unfold the_point. rewrite inner_map_add, (exchange (n := dim s)) by exact W1. unfold dim at 1. rewrite map_nth_seq. reflexivity.
Qed.

Definition symmetric (b : list vec) : Prop := forall i j, i < length b -> j < length b -> (nth i (nth j b []) 0 == nth j (nth i b []) 0)%Q.

Lemma poly_exact s A b : wf_star s -> 0 < dim s -> gens s = dim s -> symmetric (basis s) -> (forall r, In r A -> length r = dim s) -> length b = length A ->
  exists s', intersection_poly s A b = Some s' /\ wf_star s' /\ dim s' = dim s /\ gens s' = gens s /\ forall x, in_star s' x <-> in_star s x /\ obeys A b x.
Proof.
  intros W N0 GD Sy RA Lb. pose proof W as (W1 & W2 & W3). unfold intersection_poly. rewrite Lb, Nat.eqb_refl. unfold matmul.
  assert (Hd : exists r, hd_error (basis s) = Some r /\ length r = dim s). { unfold gens in GD. destruct (basis s) as [|r l] eqn:Eb; [cbn in GD; lia|]. exists r. split; [reflexivity|]. apply W1. cbn; auto. }
  destruct Hd as (r0 & E0 & L0). rewrite E0. cbn [obind]. rewrite L0.
  set (row_of := fun row : vec => map (fun k => dot row (column k (basis s))) (seq 0 (dim s))).
  assert (EM : mapM (fun row => if length row =? length (basis s) then Some (row_of row) else None) A = Some (map row_of A)).
  { clear Lb. induction A as [|r A IH]; [reflexivity|]. cbn [mapM map]. rewrite (RA r) by (cbn; auto). unfold gens in GD. rewrite GD, Nat.eqb_refl. cbn [obind]. rewrite GD in IH. rewrite IH by (intros; apply RA; cbn; auto). reflexivity. }
  fold row_of. unfold row_of at 1 in EM. unfold row_of. rewrite EM. cbn [obind]. fold row_of.
  assert (R1 : all_len (gens s) (map row_of A) = true). { apply all_len_iff. intros r H. apply in_map_iff in H. destruct H as (a & <- & _). unfold row_of. rewrite map_length, seq_length. congruence. }
  rewrite R1, (proj2 (all_len_iff _ _) RA). cbn [andb]. eexists. split; [reflexivity|].
  assert (LZ : length (zipw (fun b row => b - dot row (center s))%Q b A) = length A) by (rewrite zipw_length; lia).
  split; [|split; [reflexivity|split; [reflexivity|]]].
  { split; [exact W1|]. split; cbn.
    - intros r H. apply in_app_or in H. destruct H as [H|H]; [apply W2; exact H|]. apply (proj1 (all_len_iff _ _) R1). exact H.
    - rewrite !app_length, map_length. lia. }
  assert (K : forall al x, length al = gens s -> point_of s al x -> (obeys (map row_of A) (zipw (fun b row => b - dot row (center s))%Q b A) al <-> obeys A b x)).
  { intros al x La P. clear R1 LZ EM. unfold obeys. revert b Lb. induction A as [|a A IH]; intros [|c b] Lb; cbn in Lb; try discriminate; [split; constructor|].
    assert (La' : length a = dim s) by (apply RA; cbn; auto).
    assert (Row : (inner (row_of a) al == inner al (map (inner a) (basis s)))%Q).
    { rewrite inner_comm. apply inner_same. apply same_nth. unfold row_of. rewrite !map_length, seq_length. unfold gens in GD. split; [symmetry; exact GD|]. intros i Hi. rewrite nth_map_seq by exact Hi. rewrite dot_inner.
      rewrite nth_indep with (d' := inner a []) by (rewrite map_length, GD; exact Hi). rewrite map_nth. apply inner_same. apply same_nth. unfold column. rewrite map_length, (W1 (nth i (basis s) [])) by (apply nth_In; lia).
      split; [exact GD|]. intros j Hj. rewrite column_nth. apply Sy; lia. }
    pose proof (inner_point a W P) as IP. specialize (IH (fun r H => RA r (or_intror H)) b ltac:(lia)).
    cbn [map zipw]. split; intros H; inversion H as [|? ? ? ? H1 H2]; subst; constructor; try (apply IH; assumption).
    - rewrite dot_inner, Row in H1. rewrite IP. lra.
    - rewrite dot_inner, Row. rewrite IP in H1. lra. }
  intros x. split.
  - intros (al & La & O & P). cbn in O. unfold obeys in O. apply Forall2_app_inv_l in O. destruct O as (g1 & g2 & O1 & O2 & Eg).
    assert (Eg' : g1 = g s /\ g2 = zipw (fun b row => b - dot row (center s))%Q b A).
    { assert (Hl : length (g s) = length g1) by (rewrite <- (Forall2_len O1); exact W3). clear - Eg Hl. revert g1 Eg Hl. induction (g s) as [|a l IH]; intros [|b' b1] E Hl; cbn in *; try discriminate; [auto|]. injection E as -> E. destruct (IH b1 E) as [-> ->]; [lia|]. auto. }
    destruct Eg' as [-> ->]. split; [exists al; split; [exact La|split; [exact O1|exact P]]|]. apply (K al x La P). exact O2.
  - intros [(al & La & O & P) H]. exists al. split; [exact La|]. split; [|exact P]. cbn. apply Forall2_app; [exact O|]. apply (K al x La P). exact H.
Qed.
