(** Proofs about the global discrepancy. *)
From Coq Require Import Reals Lra.
From Verif Require Import Base BaseFacts Dryvr DryvrProofs DryvrGlobal DryvrGlobalSpec.
Set Implicit Arguments.
Open Scope R_scope.

Lemma fold_rmax_ge l : forall a, a <= fold_left Rmax l a /\ forall x, In x l -> x <= fold_left Rmax l a.
Proof.
  induction l as [|y l IH]; intros a; cbn [fold_left]; [split; [lra|intros ? []]|]. destruct (IH (Rmax a y)) as [A B]. pose proof (Rmax_l a y). pose proof (Rmax_r a y).
  split; [lra|]. intros x [->|H1]; [lra|auto].
Qed.
Lemma fold_rmin_le l : forall a, fold_left Rmin l a <= a /\ forall x, In x l -> fold_left Rmin l a <= x.
Proof.
  induction l as [|y l IH]; intros a; cbn [fold_left]; [split; [lra|intros ? []]|]. destruct (IH (Rmin a y)) as [A B]. pose proof (Rmin_l a y). pose proof (Rmin_r a y).
  split; [lra|]. intros x [->|H1]; [lra|auto].
Qed.
Lemma fold_rmax_le l : forall a b, a <= b -> (forall x, In x l -> x <= b) -> fold_left Rmax l a <= b.
Proof. induction l as [|y l IH]; intros a b Ha H; cbn [fold_left]; [exact Ha|]. apply IH; [apply Rmax_lub; [exact Ha|apply H; left; reflexivity]|intros; apply H; right; assumption]. Qed.
Lemma rmax_ge l m : rmax l = Some m -> forall x, In x l -> x <= m.
Proof. destruct l as [|v vs]; [discriminate|]. intros [= <-] x. destruct (fold_rmax_ge vs v) as [A B]. intros [<-|H]; auto. Qed.
Lemma rmin_le l m : rmin l = Some m -> forall x, In x l -> m <= x.
Proof. destruct l as [|v vs]; [discriminate|]. intros [= <-] x. destruct (fold_rmin_le vs v) as [A B]. intros [<-|H]; auto. Qed.
Lemma rdist_nonneg a b : 0 <= rdist a b.
Proof. exact (proj1 (fold_rmax_ge _ 0)). Qed.
Lemma rdist_le a b q : 0 <= q -> (forall i, (i < length a)%nat -> (i < length b)%nat -> Rabs (nth i a 0 - nth i b 0) <= q) -> rdist a b <= q.
Proof.
  intros Hq H. apply fold_rmax_le; [exact Hq|]. intros x Hx. apply In_nth with (d := 0) in Hx. destruct Hx as (i & Hi & <-). rewrite zipw_length in Hi.
  rewrite (@zipw_nth _ _ _ _ _ _ i 0 0 0) by lia. apply H; lia.
Qed.
Lemma norm_sens_pos disc r : 0 <= r -> 0 < norm_sens disc r.
Proof. intros H. unfold norm_sens, small. destruct disc; [destruct (Rlt_dec r _); lra|destruct (Req_EM_T r 0) as [Zr|Zr]; lra]. Qed.
Lemma norm_sens_ge disc r : 0 <= r -> r <= norm_sens disc r.
Proof. intros H. unfold norm_sens, small. destruct disc; [destruct (Rlt_dec r _); lra|destruct (Req_EM_T r 0) as [Zr|Zr]; lra]. Qed.
Lemma norm_scale_pos r : 0 <= r -> 0 < norm_scale r.
Proof. intros H. unfold norm_scale. destruct (Req_EM_T r 0) as [Zr|Zr]; lra. Qed.

Lemma rsum_nonneg (f : nat -> R) vs : (forall v, In v vs -> 0 <= f v) -> 0 <= rsum (map f vs).
Proof. induction vs as [|x vs IH]; intros P; [apply Rle_refl|]. change (0 <= f x + rsum (map f vs)). pose proof (P x (or_introl eq_refl)). assert (0 <= rsum (map f vs)) by (apply IH; intros; apply P; right; assumption). lra. Qed.
Lemma rsum_cons x l : rsum (x :: l) = x + rsum l.
Proof. reflexivity. Qed.
(** ** The edges of the hull *)
Lemma edges_next vs a b : In (a, b) (edges vs) -> next vs a b.
Proof.
  intros H. apply In_nth_error in H. destruct H as [i H]. unfold edges in H. set (m := (tl vs ++ firstn 1 vs)%list) in *.
  assert (L : length m = length vs) by (unfold m; destruct vs as [|v vs]; [reflexivity|cbn; rewrite app_length; cbn; lia]).
  assert (Hi : (i < length vs)%nat). { assert (i < length (combine vs m))%nat by (apply nth_error_Some; congruence). rewrite combine_length in H0. lia. }
  assert (A : nth_error vs i = Some a /\ nth_error m i = Some b).
  { clear - H. clearbody m. revert m i H. induction vs as [|v vs IH]; intros [|x m] [|i] H; cbn in *; try discriminate; [injection H as -> ->; auto|apply IH; exact H]. }
  exists i. split; [apply A|]. destruct A as [_ A]. unfold m in A. destruct vs as [|v vs]; [cbn in Hi; lia|]. cbn [tl firstn length] in *. destruct (Nat.eq_dec (S i) (S (length vs))) as [E|E].
  - rewrite E, Nat.mod_same by lia. rewrite nth_error_app2 in A by lia. replace (i - length vs)%nat with 0%nat in A by lia. exact A.
  - rewrite Nat.mod_small by lia. rewrite nth_error_app1 in A by lia. exact A.
Qed.
Lemma edges_from vs a : In a vs -> exists b, In b vs /\ In (a, b) (edges vs).
Proof.
  intros H. unfold edges. set (m := (tl vs ++ firstn 1 vs)%list).
  assert (L : length m = length vs) by (unfold m; destruct vs as [|v vs]; [reflexivity|cbn; rewrite app_length; cbn; lia]).
  assert (Sub : forall x, In x m -> In x vs). { intros x Hx. unfold m in Hx. destruct vs as [|v vs]; [exact Hx|]. cbn in Hx. apply in_app_iff in Hx. destruct Hx as [Hx|[<-|[]]]; [right; exact Hx|left; reflexivity]. }
  assert (G : forall (l m : list nat), length m = length l -> In a l -> exists b, In b m /\ In (a, b) (combine l m)).
  { clear. induction l as [|x l IH]; intros [|y m] L H; cbn in *; try discriminate; [destruct H|]. destruct H as [<-|H]; [exists y; auto|]. destruct (IH m) as (b & B1 & B2); [lia|exact H|]. exists b. auto. }
  destruct (G vs m L H) as (b & B1 & B2). exists b. auto.
Qed.

Section Sums.
  Variables (w : nat -> R).
  Lemma rsum_zero (f : nat -> R) vs : (forall v, In v vs -> 0 <= f v) -> rsum (map f vs) = 0 -> forall v, In v vs -> f v = 0.
  Proof.
    induction vs as [|x vs IH]; intros P S v H; [destruct H|]. change (f x + rsum (map f vs) = 0) in S. assert (A : 0 <= rsum (map f vs)) by (apply rsum_nonneg; intros; apply P; right; assumption).
    pose proof (P x (or_introl eq_refl)). destruct H as [<-|H]; [lra|]. apply IH; [intros; apply P; right; assumption|lra|exact H].
  Qed.
  Lemma rsum_nonzero (f : nat -> R) vs : rsum (map f vs) <> 0 -> exists v, In v vs /\ f v <> 0.
  Proof. induction vs as [|x vs IH]; cbn [map]; intros H; [cbn in H; lra|]. rewrite rsum_cons in H. destruct (Req_EM_T (f x) 0) as [E|E]; [|exists x; cbn; auto]. destruct IH as (v & I & N); [lra|]. exists v. cbn. auto. Qed.
  Lemma rsum_lin (f : nat -> R) a vs : rsum (map (fun v => w v * (f v - a)) vs) = rsum (map (fun v => w v * f v) vs) - a * rsum (map w vs).
  Proof. induction vs as [|x vs IH]; cbn [map]; [cbn; lra|]. rewrite !rsum_cons, IH. ring. Qed.
  Lemma rsum_lin' (f : nat -> R) a vs : rsum (map (fun v => w v * (a - f v)) vs) = a * rsum (map w vs) - rsum (map (fun v => w v * f v) vs).
  Proof. induction vs as [|x vs IH]; cbn [map]; [cbn; lra|]. rewrite !rsum_cons, IH. ring. Qed.
End Sums.

Section Proofs.
  Variable disc : bool.
  Variable hull : list (R * R) -> option (list nat).
  Variable c : list rvec.
  Variable ts : list (list rvec).
  Variable radii : rvec.
  Hypothesis hull_ok : forall pts vs, hull pts = Some vs -> corners_of pts vs.
  Hypothesis radii_nonneg : forall i, (i < length radii)%nat -> 0 <= nth i radii 0.
  Hypothesis rows : (2 <= length c)%nat.
  Notation n := (length c).
  Notation time := (time c).
  Notation rel := (rel c).
  Hypothesis rising : forall j k, (j < k)%nat -> (k < n)%nat -> time j < time k.
  Hypothesis from_0 : time 0 = 0.

  Lemma rel_lt j k : (j < k)%nat -> (k < n)%nat -> rel j < rel k.
  Proof. intros A B. unfold DryvrGlobal.rel. pose proof (rising A B). lra. Qed.
  Lemma rel_le j k : (j <= k)%nat -> (k < n)%nat -> rel j <= rel k.
  Proof. intros A B. destruct (Nat.eq_dec j k) as [->|N]; [lra|]. apply Rlt_le, rel_lt; lia. Qed.
  Lemma rel_time k : rel k = time k.
  Proof. unfold DryvrGlobal.rel. lra. Qed.

  (** What the points of a dimension are. *)
  Section Column.
    Variables (d : nat) (nm : R) (pts : list (R * R)) (vs : list nat).
    Hypothesis Hd : (d < length radii)%nat.
    Hypothesis Points : hull_points disc c ts radii d = Some (nm, pts).
    Hypothesis Hull : hull pts = Some vs.
    Notation r := (nth d radii 0).
    (** The first row for which there is a bound. *)
    Notation k0 := (if Req_EM_T r 0 then 1%nat else 0%nat).

    Lemma points_facts : exists ls, mapM (level disc c ts radii d) (seq 0 n) = Some ls /\ length ls = n /\
      pts = (map (fun k => (rel k, nth k ls 0)) (seq 1 (n - 1)) ++ (if Req_EM_T r 0 then [(rel 1, nm); (rel (n - 1), nm)] else [(rel 0, nth 0 ls 0%R); (rel 0, nm); (rel (n - 1), nm)]))%list /\
      forall k, (k0 <= k)%nat -> (k < n)%nat -> nm < nth k ls 0.
    Proof.
      clear vs Hull. unfold hull_points in Points. destruct (mapM (level disc c ts radii d) (seq 0 n)) as [ls|] eqn:El; [|discriminate]. cbn [obind] in Points. destruct (rmin (tl ls)) as [m|] eqn:Em; [|discriminate]. cbn [obind] in Points.
      injection Points as <- <-. exists ls. split; [reflexivity|]. assert (L : length ls = n) by (rewrite (mapM_length _ _ El), seq_length; reflexivity). split; [exact L|]. split; [reflexivity|].
      intros k K0 K1. pose proof (Rmin_l (m - 10) (-10)) as A. pose proof (Rmin_r (m - 10) (-10)) as B. destruct k as [|k].
      - destruct (Req_EM_T r 0) as [Z|Z]; [lia|]. apply mapM_Forall2 in El. assert (Es : nth_error (seq 0 n) 0 = Some 0%nat) by (destruct c; [cbn in rows; lia|reflexivity]).
        destruct (Forall2_nth_l 0 El Es) as (y & Ey & Hy). rewrite (nth_error_nth _ _ 0 Ey). unfold level in Hy. destruct (Req_EM_T r 0) as [Zr|Zr]; [contradiction|]. cbn [obind] in Hy. injection Hy as <-.
        rewrite Rmax_left by (unfold eps; lra). rewrite ln_1. lra.
      - assert (I : In (nth (S k) ls 0) (tl ls)). { destruct ls as [|l0 ls]; [cbn in L; lia|]. cbn [nth tl]. apply nth_In. cbn in L. lia. }
        pose proof (rmin_le _ Em _ I). lra.
    Qed.
    Variable ls : list R.
    Hypothesis Shape : pts = (map (fun k => (rel k, nth k ls 0)) (seq 1 (n - 1)) ++ (if Req_EM_T r 0 then [(rel 1, nm); (rel (n - 1), nm)] else [(rel 0, nth 0 ls 0%R); (rel 0, nm); (rel (n - 1), nm)]))%list.
    Hypothesis Above : forall k, (k0 <= k)%nat -> (k < n)%nat -> nm < nth k ls 0.

    Lemma point_in k : (k0 <= k)%nat -> (k < n)%nat -> In (rel k, nth k ls 0) pts.
    Proof.
      intros A B. rewrite Shape. apply in_app_iff. destruct k as [|k]; [right; destruct (Req_EM_T r 0) as [Zr|Zr]; [lia|left; reflexivity]|].
      left. apply in_map_iff. exists (S k). split; [reflexivity|]. apply in_seq. lia.
    Qed.
    Lemma point_cases p : In p pts -> (exists k, (k0 <= k)%nat /\ (k < n)%nat /\ p = (rel k, nth k ls 0)) \/ p = (rel k0, nm) \/ p = (rel (n - 1), nm).
    Proof.
      rewrite Shape. intros H. apply in_app_iff in H. destruct H as [H|H].
      - apply in_map_iff in H. destruct H as (k & <- & I). apply in_seq in I. left. exists k. split; [destruct (Req_EM_T r 0) as [Zr|Zr]; lia|]. split; [lia|reflexivity].
      - destruct (Req_EM_T r 0) as [Zr|Zr]; cbn in H; [destruct H as [<-|[<-|[]]]; auto|]. destruct H as [<-|[<-|[<-|[]]]]; auto. left. exists 0%nat. split; [lia|]. split; [lia|reflexivity].
    Qed.
    Lemma k0_lt : (k0 < n)%nat.
    Proof. destruct (Req_EM_T r 0) as [Zr|Zr]; lia. Qed.
    Lemma point_right p : In p pts -> fst p <= rel (n - 1).
    Proof. intros H. pose proof k0_lt. destruct (point_cases _ H) as [(k & A & B & ->)|[-> | ->]]; cbn [fst]; [apply rel_le; lia|apply rel_le; lia|lra]. Qed.
    Lemma point_last : nth_error pts (n - 2) = Some (rel (n - 1), nth (n - 1) ls 0).
    Proof.
      rewrite Shape, nth_error_app1 by (rewrite map_length, seq_length; lia). rewrite nth_error_map. rewrite nth_error_nth' with (d := 0%nat) by (rewrite seq_length; lia). rewrite seq_nth by lia.
      cbn [option_map]. replace (1 + (n - 2))%nat with (n - 1)%nat by lia. reflexivity.
    Qed.
    Lemma last_index v p : nth_error pts v = Some p -> fst p = rel (n - 1) -> snd p <> nm -> v = (n - 2)%nat.
    Proof.
      intros E X Y. rewrite Shape in E. destruct (Nat.lt_ge_cases v (n - 1)) as [L|L].
      - rewrite nth_error_app1 in E by (rewrite map_length, seq_length; lia). rewrite nth_error_map in E. rewrite nth_error_nth' with (d := 0%nat) in E by (rewrite seq_length; lia). rewrite seq_nth in E by lia. cbn [option_map] in E. injection E as <-. cbn [fst] in X.
        destruct (Nat.eq_dec v (n - 2)) as [|N]; [assumption|]. exfalso. assert (rel (1 + v) < rel (n - 1)) by (apply rel_lt; lia). cbn [Nat.add] in *. lra.
      - rewrite nth_error_app2 in E by (rewrite map_length, seq_length; lia). rewrite map_length, seq_length in E. set (u := (v - (n - 1))%nat) in *.
        destruct (Req_EM_T r 0) as [Zr|Zr]; [destruct u as [|[|[|u]]]; cbn in E; try discriminate; injection E as <-; cbn in Y; congruence|].
        destruct u as [|[|[|[|u]]]]; cbn in E; try discriminate; injection E as <-; cbn in X, Y; try congruence. exfalso. assert (rel 0 < rel (n - 1)) by (apply rel_lt; lia). lra.
    Qed.
    Lemma spread : (k0 < n - 1)%nat.
    Proof.
      destruct (hull_ok Hull) as ((a & b & p & A & B & P & N) & _). pose proof k0_lt. destruct (Nat.eq_dec k0 (n - 1)) as [E|E]; [|lia]. exfalso. apply N.
      assert (G : forall q, In q pts -> fst q = rel (n - 1)). { intros q Hq. destruct (point_cases _ Hq) as [(k & K1 & K2 & ->)|[-> | ->]]; cbn [fst]; f_equal; lia. }
      unfold left_of. rewrite (G a A), (G b B), (G p P). lra.
    Qed.
    Lemma last_vertex : In (n - 2)%nat vs.
    Proof.
      destruct (hull_ok Hull) as (_ & Rng & Mix & _). pose proof k0_lt. pose proof spread as Sp. assert (I : In (rel (n - 1), nth (n - 1) ls 0) pts) by (apply point_in; lia).
      destruct (Mix _ I) as (w & Pos & W1 & WX & WY). cbn [fst snd] in WX, WY. set (f := fun v => nth v pts (0, 0)).
      assert (WX' : rsum (map (fun v => w v * fst (f v)) vs) = rel (n - 1)) by exact WX. assert (WY' : rsum (map (fun v => w v * snd (f v)) vs) = nth (n - 1) ls 0) by exact WY.
      assert (Z : forall v, In v vs -> w v * (rel (n - 1) - fst (f v)) = 0).
      { apply rsum_zero; [|rewrite (rsum_lin' w (fun v => fst (f v)) (rel (n - 1)) vs), W1, WX'; ring]. intros v Hv. apply Rmult_le_pos; [apply Pos; exact Hv|]. assert (fst (f v) <= rel (n - 1)); [|lra]. apply point_right. apply nth_In. apply Rng. exact Hv. }
      assert (Y : nm < nth (n - 1) ls 0) by (apply Above; lia).
      destruct (@rsum_nonzero (fun v => w v * (snd (f v) - nm)) vs) as (v & Hv & Nv).
      { rewrite (rsum_lin w (fun v => snd (f v)) nm vs), W1. rewrite WY'. lra. }
      assert (v = n - 2)%nat; [|subst v; exact Hv]. apply (@last_index v (f v)).
      - apply nth_error_nth'. apply Rng. exact Hv.
      - specialize (Z v Hv). apply Rmult_integral in Z. destruct Z as [Z|Z]; [rewrite Z in Nv; lra|lra].
      - intros E. rewrite E in Nv. apply Nv. ring.
    Qed.
    Lemma last_edge b pb : In (n - 2, b)%nat (edges vs) -> nth_error pts b = Some pb -> snd pb <> nm.
    Proof.
      intros E Eb Z. destruct (hull_ok Hull) as (Pr & Rng & _ & Lf). apply edges_next in E. pose proof k0_lt. pose proof spread as Sp.
      assert (L : forall p, In p pts -> left_of (rel (n - 1), nth (n - 1) ls 0) pb p).
      { intros p Hp. specialize (Lf _ _ p E Hp). rewrite (nth_error_nth _ _ (0, 0) point_last), (nth_error_nth _ _ (0, 0) Eb) in Lf. exact Lf. }
      assert (Y : nm < nth (n - 1) ls 0) by (apply Above; lia). assert (Y0 : nm < nth k0 ls 0) by (apply Above; lia). assert (X0 : rel k0 < rel (n - 1)) by (apply rel_lt; lia).
      assert (I0 : In (rel k0, nth k0 ls 0) pts) by (apply point_in; lia). specialize (L _ I0). unfold left_of in L. cbn [fst snd] in L. rewrite Z in L.
      assert (Xb : fst pb = rel k0 \/ fst pb = rel (n - 1)).
      { apply nth_error_In in Eb. destruct (point_cases _ Eb) as [(k & A & B & ->)|[-> | ->]]; cbn [fst snd] in *; auto. specialize (Above A B). lra. }
      destruct Xb as [Xb|Xb]; rewrite Xb in L.
      - assert (0 < (rel (n - 1) - rel k0) * (nth k0 ls 0 - nm)) by (apply Rmult_lt_0_compat; lra). lra.
      - assert (0 < (nth (n - 1) ls 0 - nm) * (rel (n - 1) - rel k0)) by (apply Rmult_lt_0_compat; lra). lra.
    Qed.
    (** A separator lies above all points. *)
    Lemma separator_above e s sp : In (e, s) (edges vs) -> separator_of nm pts (e, s) = Some [sp] ->
      s_to sp = S e /\ forall p, In p pts -> snd p <= s_base sp + s_slope sp * fst p.
    Proof.
      intros E H. destruct (hull_ok Hull) as (_ & _ & _ & Lf). apply edges_next in E. unfold separator_of in H. destruct (nth_error pts e) as [pe|] eqn:Ee; [|discriminate]. destruct (nth_error pts s) as [ps|] eqn:Es; [|discriminate]. cbn [obind] in H.
      destruct (Req_EM_T (snd ps) nm); [discriminate|]. destruct (Req_EM_T (snd pe) nm); [discriminate|]. destruct (Rlt_dec (fst ps) (fst pe)) as [Lt|]; [|discriminate]. injection H as <-. cbn [s_to s_base s_slope]. split; [reflexivity|].
      intros p Hp. specialize (Lf _ _ p E Hp). rewrite (nth_error_nth _ _ (0, 0) Ee), (nth_error_nth _ _ (0, 0) Es) in Lf. unfold left_of in Lf.
      apply Rmult_le_reg_l with (fst pe - fst ps); [lra|].
      replace ((fst pe - fst ps) * (snd ps - fst ps * ((snd pe - snd ps) / (fst pe - fst ps)) + (snd pe - snd ps) / (fst pe - fst ps) * fst p)) with ((fst pe - fst ps) * snd ps + (snd pe - snd ps) * (fst p - fst ps)) by (field; lra).
      lra.
    Qed.
    Variable seps : list (list separator).
    Hypothesis Seps : mapM (separator_of nm pts) (edges vs) = Some seps.
    Lemma sep_single es l : separator_of nm pts es = Some l -> l = [] \/ exists sp, l = [sp].
    Proof.
      destruct es as [e s]. unfold separator_of. destruct (nth_error pts e) as [pe|]; [|discriminate]. destruct (nth_error pts s) as [ps|]; [|discriminate]. cbn [obind].
      destruct (Req_EM_T (snd ps) nm); [intros [= <-]; auto|]. destruct (Req_EM_T (snd pe) nm); [intros [= <-]; auto|]. destruct (Rlt_dec (fst ps) (fst pe)); [|discriminate]. intros [= <-]. eauto.
    Qed.
    Lemma seps_above sp : In sp (concat seps) -> forall k, (k0 <= k)%nat -> (k < n)%nat -> nth k ls 0 <= s_base sp + s_slope sp * time k.
    Proof.
      intros H k A B. apply in_concat in H. destruct H as (l & Hl & Hsp). apply mapM_Forall2 in Seps. apply In_nth_error in Hl. destruct Hl as [i Hi]. destruct (Forall2_nth_r i Seps Hi) as ([e s] & Ee & Es).
      destruct (sep_single _ Es) as [->|(sp' & ->)]; [destruct Hsp|]. destruct Hsp as [<-|[]]. apply nth_error_In in Ee. destruct (separator_above _ _ Ee Es) as (_ & G). specialize (G _ (point_in A B)). cbn [fst snd] in G. rewrite rel_time in G. exact G.
    Qed.
    Lemma seps_last : exists sp, In sp (concat seps) /\ s_to sp = (n - 1)%nat.
    Proof.
      destruct (edges_from _ _ last_vertex) as (b & Hb & E). destruct (In_nth_error _ _ E) as [i Ei]. apply mapM_Forall2 in Seps. destruct (Forall2_nth_l i Seps Ei) as (l & Hl & Es).
      destruct (sep_single _ Es) as [->|(sp & ->)].
      - exfalso. pose proof k0_lt. unfold separator_of in Es. rewrite point_last in Es. cbn [obind] in Es. destruct (nth_error pts b) as [pb|] eqn:Eb; [|discriminate]. cbn [obind snd fst] in Es.
        destruct (Req_EM_T (snd pb) nm) as [Z|_]; [exact (last_edge _ E Eb Z)|]. destruct (Req_EM_T (nth (n - 1) ls 0) nm) as [Z|_]; [assert (nm < nth (n - 1) ls 0) by (apply Above; lia); lra|].
        destruct (Rlt_dec _ _); discriminate.
      - exists sp. split; [apply in_concat; exists [sp]; split; [eapply nth_error_In; exact Hl|left; reflexivity]|]. destruct (separator_above _ _ E Es) as (-> & _). lia.
    Qed.
  End Column.

  Lemma sort_In s l : In s (sort_seps l) <-> In s l.
  Proof.
    assert (G : forall x m, In s (sort_in x m) <-> s = x \/ In s m).
    { induction m as [|y m IH]; cbn; [split; intros [H|[]]; auto|]. destruct (Rle_dec _ _); cbn; [split; intros [H|H]; auto|]. rewrite IH. tauto. }
    induction l as [|x l IH]; cbn; [tauto|]. rewrite G, IH. split; intros [H|H]; auto.
  Qed.
  Lemma seq_map_nth (f : nat -> R) k : (k < n)%nat -> nth k (map f (seq 0 n)) 0 = f k.
  Proof. intros H. rewrite nth_indep with (d' := f 0%nat) by (rewrite map_length, seq_length; exact H). rewrite map_nth, seq_nth by exact H. reflexivity. Qed.

  Lemma fills_ok scale bound k0 : forall seps pv pi col st,
    (forall s, In s seps -> forall k, (k0 <= k)%nat -> (k < n)%nat -> bound k <= seg c scale s k) ->
    fills c scale seps (pv, pi, col) = Some st -> (k0 <= pi)%nat ->
    (forall k, (k0 <= k)%nat -> (k < n)%nat -> (k < pi \/ k = pi /\ k0 < pi)%nat -> bound k <= nth k col 0) ->
    (pi <= snd (fst st))%nat /\ (forall s, In s seps -> (s_to s <= snd (fst st))%nat /\ (k0 < snd (fst st))%nat) /\
    forall k, (k0 <= k)%nat -> (k < n)%nat -> (k < snd (fst st) \/ k = snd (fst st) /\ k0 < snd (fst st))%nat -> bound k <= nth k (snd st) 0.
  Proof.
    induction seps as [|s seps IH]; intros pv pi col st B E Hp I; cbn [fills] in E; [injection E as <-; cbn [fst snd]; split; [lia|]; split; [intros s []|exact I]|].
    unfold fill in E. destruct (Nat.eqb_spec pi (s_from s)) as [Ef|]; [|discriminate]. destruct (Nat.ltb_spec (s_from s) (s_to s)) as [Lt|]; [|discriminate]. destruct (Nat.ltb_spec (s_from s) n) as [Ln|]; [|discriminate]. cbn [andb obind] in E.
    apply IH in E; [|intros s' Hs'; apply B; right; exact Hs'|lia|].
    - destruct E as (E1 & E2 & E3). split; [lia|]. split; [|exact E3]. intros s' [<-|Hs']; [split; lia|apply E2; exact Hs'].
    - intros k K1 K2 K3. rewrite seq_map_nth by exact K2. destruct (Nat.leb_spec (s_from s) k) as [L1|L1]; cbn [andb].
      + destruct (Nat.leb_spec k (s_to s)) as [L2|L2]; [|exfalso; lia]. specialize (B s (or_introl eq_refl) k K1 K2). destruct (Nat.eqb_spec k (s_from s)); [pose proof (Rmax_l (seg c scale s k) pv); lra|exact B].
      + apply I; [exact K1|exact K2|left; lia].
  Qed.

  (** The bound of dimension [d] at row [k] is at least the sensitivity. *)
  Lemma column_bound d col : (d < length radii)%nat -> column disc hull c ts radii d = Some col ->
    (nth d radii 0 <= nth 0 col 0 \/ nth d radii 0 = 0) /\
    forall k, (0 < k)%nat -> (k < n)%nat -> exists y, rsens disc c ts radii d k = Some y /\ norm_scale (nth d radii 0) * y <= nth k col 0.
  Proof.
    intros Hd E. unfold column in E. destruct (hull_points disc c ts radii d) as [[nm pts]|] eqn:Ep; [|discriminate]. cbn [obind fst snd] in E. destruct (hull pts) as [vs|] eqn:Eh; [|discriminate]. cbn [obind] in E.
    destruct (mapM (separator_of nm pts) (edges vs)) as [seps|] eqn:Es; [|discriminate]. cbn [obind] in E.
    destruct (@points_facts d nm pts Hd Ep) as (ls & El & Ll & Sh & Ab).
    set (r := nth d radii 0) in *. set (k0 := if Req_EM_T r 0 then 1%nat else 0%nat) in *. set (scale := norm_scale r) in *.
    destruct (fills c scale (sort_seps (concat seps)) (0, k0, r :: repeat 0 (n - 1))) as [st|] eqn:Ef; [|discriminate]. cbn [obind] in E. injection E as <-.
    assert (Sp : 0 < scale) by (apply norm_scale_pos, radii_nonneg, Hd).
    apply (@fills_ok scale (fun k => scale * exp (nth k ls 0)) k0) in Ef; [| |lia|intros; lia].
    2:{ intros s Hs k K1 K2. apply (proj1 (sort_In _ _)) in Hs. unfold seg. rewrite Rmult_assoc, <- exp_plus. apply Rmult_le_compat_l; [lra|].
        assert (G := @seps_above d nm pts vs Hd Eh ls Sh Ab seps Es s Hs k K1 K2). destruct G as [G|G]; [left; apply exp_increasing; exact G|rewrite G; lra]. }
    destruct (@seps_last d nm pts vs Hd Eh ls Sh Ab seps Es) as (sp & Isp & Tsp). destruct Ef as (_ & F1 & F2). destruct (F1 sp) as [F3 F4]; [apply (proj2 (sort_In _ _)); exact Isp|]. rewrite Tsp in F3.
    assert (Lev : forall k, (k < n)%nat -> exists y, match k with O => Some (if Req_EM_T r 0 then 0 else 1) | _ => rsens disc c ts radii d k end = Some y /\ y <= exp (nth k ls 0)).
    { intros k Hk. pose proof El as El'. apply mapM_Forall2 in El'. assert (Esq : nth_error (seq 0 n) k = Some k) by (rewrite nth_error_nth' with (d := 0%nat) by (rewrite seq_length; exact Hk); rewrite seq_nth by exact Hk; reflexivity).
      destruct (Forall2_nth_l k El' Esq) as (l & Hl & Hv). unfold level in Hv. fold r in Hv. destruct (match k with O => Some (if Req_EM_T r 0 then 0 else 1) | _ => rsens disc c ts radii d k end) as [y|]; [|discriminate]. cbn [obind] in Hv. injection Hv as <-.
      exists y. split; [reflexivity|]. rewrite (nth_error_nth _ _ 0 Hl). pose proof (Rmax_l y eps). pose proof (Rmax_r y eps). rewrite exp_ln by (unfold eps in *; lra). lra. }
    split.
    - destruct (Req_EM_T r 0) as [Z|Z]; [right; exact Z|left]. destruct (Lev 0%nat) as (y & Ey & Hy); [lia|]. injection Ey as <-.
      assert (G : scale * exp (nth 0 ls 0) <= nth 0 (snd st) 0). { apply F2; [unfold k0; lia|lia|left; unfold k0 in F4; lia]. }
      assert (Esc : scale = r) by (unfold scale, norm_scale; destruct (Req_EM_T r 0) as [Zr|Zr]; [contradiction|reflexivity]). assert (r * 1 <= r * exp (nth 0 ls 0)) by (apply Rmult_le_compat_l; [apply radii_nonneg; exact Hd|exact Hy]). rewrite Esc in G. lra.
    - intros k K1 K2. destruct (Lev k K2) as (y & Ey & Hy). exists y. split; [destruct k; [lia|exact Ey]|]. assert (k0 <= k)%nat by (unfold k0; destruct (Req_EM_T r 0) as [Zr|Zr]; lia).
      assert (G : scale * exp (nth k ls 0) <= nth k (snd st) 0) by (apply F2; [assumption|exact K2|lia]). assert (scale * y <= scale * exp (nth k ls 0)) by (apply Rmult_le_compat_l; lra). lra.
  Qed.

  (** The distance of a training trace from the central one. *)
  Lemma rnorms_nth i : (i < length radii)%nat -> forall x, nth i (rnorms disc radii) x = norm_sens disc (nth i radii 0).
  Proof. intros H x. unfold rnorms. rewrite nth_indep with (d' := norm_sens disc 0) by (rewrite map_length; exact H). apply map_nth. Qed.
  Definition rd (t : list rvec) : R := rdist (zipw Rdiv (tl (rrow c 0)) (rnorms disc radii)) (zipw Rdiv (tl (rrow t 0)) (rnorms disc radii)).
  Lemma rsens_bound d k y t : (d < length radii)%nat -> rsens disc c ts radii d k = Some y -> In t ts -> rd t + small <= 1 ->
    norm_sens disc (nth d radii 0) = norm_scale (nth d radii 0) -> Rabs (rentry c k d - rentry t k d) <= norm_scale (nth d radii 0) * y.
  Proof.
    intros Hd E Ht Hw Hn. pose proof (rmax_ge _ E _ (in_map _ _ _ (pairs_In c _ _ Ht))) as H. cbn [fst snd] in H. fold (rd t) in H. rewrite (rnorms_nth Hd) in H. rewrite <- Hn. pose proof (norm_sens_pos disc (radii_nonneg Hd)) as Np.
    pose proof (rdist_nonneg (zipw Rdiv (tl (rrow c 0)) (rnorms disc radii)) (zipw Rdiv (tl (rrow t 0)) (rnorms disc radii))) as W0. fold (rd t) in W0.
    set (x := Rabs (rentry c k d - rentry t k d)) in *. set (m := norm_sens disc (nth d radii 0)) in *. set (v := rd t) in *. assert (X0 : 0 <= x) by apply Rabs_pos. assert (V0 : 0 < v + small) by (unfold small; lra).
    apply Rmult_le_compat_l with (r := m) in H; [|lra]. eapply Rle_trans; [|exact H]. replace (m * (x / m / (v + small))) with (x / (v + small)) by (field; lra).
    apply Rmult_le_reg_r with (v + small); [exact V0|]. unfold Rdiv. rewrite Rmult_assoc, Rinv_l by lra. nra.
  Qed.
End Proofs.
