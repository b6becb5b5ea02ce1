(** Proofs for RayProps.v. *)
From Coq Require Import Reals List Bool Lra Psatz.
From Verif Require Import Angle Polygon Ray RaySpec.
Import ListNotations.
Open Scope R_scope.

Lemma trinom_sound a b c : 0 < a ->
  match solve_trinom a b c with
  | Some (x, y) => x <= y /\ forall t, a * Rsqr t + b * t + c <= 0 <-> x <= t <= y
  | None => forall t, 0 < a * Rsqr t + b * t + c
  end.
Proof.
  intros Ha. unfold solve_trinom. destruct (Rle_dec 0 (Rsqr b - 4 * a * c)) as [Hd|Hd].
  - set (D := Rsqr b - 4 * a * c) in *. pose proof (sqrt_pos D) as Hs. pose proof (Rsqr_sqrt D Hd) as HS. set (s := sqrt D) in *.
    assert (M : forall t x, x / (2 * a) <= t <-> x <= 2 * a * t).
    { intros t x. split; intros H.
      - apply Rmult_le_compat_l with (r := 2 * a) in H; [|lra]. replace (2 * a * (x / (2 * a))) with x in H by (field; lra). lra.
      - apply Rmult_le_reg_l with (r := 2 * a); [lra|]. replace (2 * a * (x / (2 * a))) with x by (field; lra). lra. }
    assert (M' : forall t x, t <= x / (2 * a) <-> 2 * a * t <= x).
    { intros t x. split; intros H.
      - apply Rmult_le_compat_l with (r := 2 * a) in H; [|lra]. replace (2 * a * (x / (2 * a))) with x in H by (field; lra). lra.
      - apply Rmult_le_reg_l with (r := 2 * a); [lra|]. replace (2 * a * (x / (2 * a))) with x by (field; lra). lra. }
    split; [apply M; replace (2 * a * ((- b + s) / (2 * a))) with (- b + s) by (field; lra); lra|].
    intros t. rewrite M, M'.
    assert (E : Rsqr (2 * a * t + b) = 4 * a * (a * Rsqr t + b * t + c) + D) by (unfold D, Rsqr; ring).
    split; intros H.
    + assert (L : Rsqr (2 * a * t + b) <= Rsqr s) by nra. apply Rsqr_le_abs_0 in L. rewrite (Rabs_right s) in L by lra. unfold Rabs in L. destruct (Rcase_abs (2 * a * t + b)); lra.
    + assert (L : Rsqr (2 * a * t + b) <= Rsqr s) by (apply Rsqr_le_abs_1; rewrite (Rabs_right s) by lra; unfold Rabs; destruct (Rcase_abs (2 * a * t + b)); lra). nra.
  - intros t. assert (E : Rsqr (2 * a * t + b) = 4 * a * (a * Rsqr t + b * t + c) + (Rsqr b - 4 * a * c)) by (unfold Rsqr; ring). pose proof (Rle_0_sqr (2 * a * t + b)). nra.
Qed.

Lemma norm_sqr x y : Rsqr (norm x y) = Rsqr x + Rsqr y.
Proof. unfold norm. rewrite Rsqr_sqrt; [unfold Rsqr; ring|]. pose proof (Rle_0_sqr x). pose proof (Rle_0_sqr y). unfold Rsqr in *. nra. Qed.

(** ** Intervals *)
Definition fits (lo hi : ext) (t : R) : Prop := ele lo (Fin t) = true /\ ele (Fin t) hi = true.
Definition proper (i : ext * ext) : Prop :=
  match i with
  | (Fin a, Fin b) => a < b
  | (NInf, PInf) | (PInf, PInf) | (NInf, NInf) => True
  | _ => False
  end.
Lemma slab al be rho : al < be -> (rho = 0 -> al <> 0 /\ be <> 0) ->
  let i := (ediv al rho, ediv be rho) in let j := if Rle_dec 0 rho then i else (snd i, fst i) in
  proper j /\ forall t, al <= rho * t <= be <-> fits (fst j) (snd j) t.
Proof.
  intros Hab Hz. cbv zeta. unfold ediv. destruct (Req_EM_T rho 0) as [->|Hr].
  - destruct (Hz eq_refl) as [H1 H2]. destruct (Rle_dec 0 0) as [_|N]; [|exfalso; lra]. unfold fits. cbn [fst snd].
    destruct (Rlt_dec 0 al); destruct (Rlt_dec 0 be); destruct (Rlt_dec al 0); destruct (Rlt_dec be 0); try (exfalso; lra); cbn; (split; [exact I|]); intros t; split; intros H; try (split; reflexivity); try (destruct H; discriminate); nra.
  - assert (D : forall x t, rho > 0 -> (x / rho <= t <-> x <= rho * t)).
    { intros x t Hp. split; intros H; [apply Rmult_le_compat_l with (r := rho) in H; [|lra]|apply Rmult_le_reg_l with (r := rho); [lra|]]; replace (rho * (x / rho)) with x in * by (field; lra); lra. }
    assert (D' : forall x t, rho > 0 -> (t <= x / rho <-> rho * t <= x)).
    { intros x t Hp. split; intros H; [apply Rmult_le_compat_l with (r := rho) in H; [|lra]|apply Rmult_le_reg_l with (r := rho); [lra|]]; replace (rho * (x / rho)) with x in * by (field; lra); lra. }
    assert (E : forall x, x / rho = (- x) / (- rho)) by (intros x; field; lra).
    assert (N : forall x t, rho < 0 -> (x / rho <= t <-> rho * t <= x)).
    { intros x t Hn. rewrite E. split; intros H; [apply Rmult_le_compat_l with (r := - rho) in H; [|lra]|apply Rmult_le_reg_l with (r := - rho); [lra|]]; replace (- rho * (- x / - rho)) with (- x) in * by (field; lra); lra. }
    assert (N' : forall x t, rho < 0 -> (t <= x / rho <-> x <= rho * t)).
    { intros x t Hn. rewrite E. split; intros H; [apply Rmult_le_compat_l with (r := - rho) in H; [|lra]|apply Rmult_le_reg_l with (r := - rho); [lra|]]; replace (- rho * (- x / - rho)) with (- x) in * by (field; lra); lra. }
    destruct (Rle_dec 0 rho) as [Hp|Hn]; unfold fits; cbn [fst snd proper ele].
    + assert (Hp' : rho > 0) by lra. split.
      * unfold Rdiv. apply Rmult_lt_compat_r; [apply Rinv_0_lt_compat; lra|exact Hab].
      * intros t. rewrite <- (D al t Hp'), <- (D' be t Hp'). destruct (Rle_dec (al / rho) t); destruct (Rle_dec t (be / rho)); intuition discriminate.
    + assert (Hn' : rho < 0) by lra. split.
      * rewrite !E. unfold Rdiv. apply Rmult_lt_compat_r; [apply Rinv_0_lt_compat; lra|lra].
      * intros t. rewrite <- (N be t Hn'), <- (N' al t Hn'). destruct (Rle_dec (be / rho) t); destruct (Rle_dec t (al / rho)); intuition discriminate.
Qed.

Definition meets (i j : ext * ext) : bool :=
  ele (einterval_distance i j) (Fin 0) && ele (einterval_distance (Fin 0, Fin 1) i) (Fin 0) && ele (einterval_distance (Fin 0, Fin 1) j) (Fin 0).
(** Three intervals that overlap pairwise have a point in common. *)
Definition low (x : ext) : R := match x with Fin a => Rmax 0 a | _ => 0 end.
Ltac decs := repeat match goal with
  | |- context [Rlt_dec ?x ?y] => destruct (Rlt_dec x y)
  | |- context [Rle_dec ?x ?y] => destruct (Rle_dec x y)
  | H : context [Rlt_dec ?x ?y] |- _ => destruct (Rlt_dec x y)
  | H : context [Rle_dec ?x ?y] |- _ => destruct (Rle_dec x y)
  end.
Lemma meets_some i j : proper i -> proper j -> (meets i j = true <-> exists t, 0 <= t <= 1 /\ fits (fst i) (snd i) t /\ fits (fst j) (snd j) t).
Proof.
  intros Hi Hj. split.
  - intros H. exists (Rmax (low (fst i)) (low (fst j))). apply andb_true_iff in H. destruct H as [H H3]. apply andb_true_iff in H. destruct H as [H1 H2]. revert H1 H2 H3.
    destruct i as [[a| | |] [b| | |]]; try contradiction; destruct j as [[c| | |] [d| | |]]; try contradiction; cbn [proper] in *; unfold einterval_distance, fits; cbn [fst snd ele elt esub low]; try discriminate;
      unfold Rmax; intros H1 H2 H3; decs; cbn [ele esub] in *; decs; try discriminate; try (exfalso; lra); repeat split; lra.
  - intros (t & Ht & (F1 & F2) & F3 & F4). revert F1 F2 F3 F4. unfold meets.
    destruct i as [[a| | |] [b| | |]]; try contradiction; destruct j as [[c| | |] [d| | |]]; try contradiction; cbn [proper] in *; unfold einterval_distance, fits; cbn [fst snd ele elt esub low]; try discriminate;
      intros F1 F2 F3 F4; decs; cbn [ele esub] in *; decs; try discriminate; try (exfalso; lra); reflexivity.
Qed.
(** The greater of the lower ends is the first point in common. *)
Lemma first_point i j n : proper i -> proper j -> 0 < n -> (exists t, fits (fst i) (snd i) t /\ fits (fst j) (snd j) t) -> ~ (i = (NInf, PInf) /\ j = (NInf, PInf)) ->
  exists t0, emul (emax (fst i) (fst j)) n = Fin (t0 * n) /\ fits (fst i) (snd i) t0 /\ fits (fst j) (snd j) t0 /\
    forall t, fits (fst i) (snd i) t -> fits (fst j) (snd j) t -> t0 <= t.
Proof.
  intros Hi Hj Hn (t & (F1 & F2) & F3 & F4) Hne.
  destruct i as [[a| | |] [b| | |]]; try contradiction; destruct j as [[c| | |] [d| | |]]; try contradiction; cbn [proper fst snd] in *; try discriminate; unfold emax, fits in *; cbn [elt ele] in *;
    try (exfalso; apply Hne; split; reflexivity).
  - destruct (Rlt_dec a c); cbn [emul]; [exists c|exists a]; (split; [reflexivity|]); decs; try discriminate; try (exfalso; lra); (split; [split; reflexivity|split; [split; reflexivity|]]);
      intros t' [G1 G2] [G3 G4]; decs; try discriminate; lra.
  - cbn [emul]. exists a. split; [reflexivity|]. decs; try discriminate; try (exfalso; lra). split; [split; reflexivity|split; [split; reflexivity|]]. intros t' [G1 G2] _. decs; try discriminate. lra.
  - cbn [emul]. exists c. split; [reflexivity|]. decs; try discriminate; try (exfalso; lra). split; [split; reflexivity|split; [split; reflexivity|]]. intros t' _ [G1 G2]. decs; try discriminate. lra.
Qed.

(** ** Rectangles *)
Lemma sum_pos x y : x <> 0 \/ y <> 0 -> 0 < x * x + y * y.
Proof. intros [H|H]; apply Rsqr_pos_lt in H; pose proof (Rle_0_sqr x); pose proof (Rle_0_sqr y); unfold Rsqr in *; lra. Qed.
Section Rect.
  Variables r q a b d : pt.
  Notation U1 := (fst b - fst a). Notation U2 := (snd b - snd a).
  Notation V1 := (fst d - fst a). Notation V2 := (snd d - snd a).
  Lemma sides_sum : right_angled a b d -> forall p, within a b d p <->
    (0 <= (fst p - fst a) * U1 + (snd p - snd a) * U2 <= U1 * U1 + U2 * U2) /\ (0 <= (fst p - fst a) * V1 + (snd p - snd a) * V2 <= V1 * V1 + V2 * V2).
  Proof.
    intros (Ho & Hb & Hd) [p1 p2]. cbn [fst snd]. destruct a as [a1 a2], b as [b1 b2], d as [d1 d2]. cbn [fst snd] in *.
    assert (NU : 0 < (b1 - a1) * (b1 - a1) + (b2 - a2) * (b2 - a2)).
    { apply sum_pos. destruct (Req_dec b1 a1) as [->|]; [right; intros E; apply Hb; f_equal; lra|left; lra]. }
    assert (NV : 0 < (d1 - a1) * (d1 - a1) + (d2 - a2) * (d2 - a2)).
    { apply sum_pos. destruct (Req_dec d1 a1) as [->|]; [right; intros E; apply Hd; f_equal; lra|left; lra]. }
    set (u1 := b1 - a1) in *. set (u2 := b2 - a2) in *. set (v1 := d1 - a1) in *. set (v2 := d2 - a2) in *. split.
    - intros (x & y & Hx & Hy & E). cbn [fst snd] in E. injection E as E1 E2. fold u1 v1 in E1. fold u2 v2 in E2.
      replace ((p1 - a1) * u1 + (p2 - a2) * u2) with (x * (u1 * u1 + u2 * u2)) by (rewrite E1, E2; transitivity (x * (u1 * u1 + u2 * u2) + y * (u1 * v1 + u2 * v2)); [rewrite Ho|]; ring).
      replace ((p1 - a1) * v1 + (p2 - a2) * v2) with (y * (v1 * v1 + v2 * v2)) by (rewrite E1, E2; transitivity (y * (v1 * v1 + v2 * v2) + x * (u1 * v1 + u2 * v2)); [rewrite Ho|]; ring).
      split; split; nra.
    - intros [[A1 A2] [B1 B2]]. set (N := u1 * u1 + u2 * u2) in *. set (M := v1 * v1 + v2 * v2) in *.
      exists (((p1 - a1) * u1 + (p2 - a2) * u2) / N), (((p1 - a1) * v1 + (p2 - a2) * v2) / M).
      assert (Q01 : forall x y, 0 < y -> 0 <= x <= y -> 0 <= x / y <= 1).
      { intros x y Hy Hx. split; [apply Rmult_le_pos; [lra|left; apply Rinv_0_lt_compat; lra]|apply Rmult_le_reg_r with (r := y); [lra|]; unfold Rdiv; rewrite Rmult_assoc, Rinv_l by lra; lra]. }
      split; [apply Q01; auto|]. split; [apply Q01; auto|]. cbn [fst snd]. fold u1 u2 v1 v2.
      set (k := (u1 * v2 - u2 * v1) / N).
      assert (K1 : v1 = - k * u2). { unfold k. apply Rmult_eq_reg_r with (r := N); [|lra]. transitivity (- (u1 * v2 - u2 * v1) * u2); [|field; lra]. unfold N. transitivity (v1 * u2 * u2 + u1 * (u1 * v1)); [ring|]. replace (u1 * v1) with (- (u2 * v2)) by lra. ring. }
      assert (K2 : v2 = k * u1). { unfold k. apply Rmult_eq_reg_r with (r := N); [|lra]. transitivity ((u1 * v2 - u2 * v1) * u1); [|field; lra]. unfold N. transitivity (v2 * u1 * u1 + u2 * (u2 * v2)); [ring|]. replace (u2 * v2) with (- (u1 * v1)) by lra. ring. }
      assert (KM : M = k * k * N) by (unfold M, N; rewrite K1, K2; ring). assert (Kn : k <> 0) by (intros E; rewrite KM, E in NV; lra).
      rewrite KM, K1, K2. clearbody k. unfold N in *. f_equal; field; split; lra.
  Qed.
End Rect.

Lemma norm_pos x y : x <> 0 \/ y <> 0 -> 0 < norm x y.
Proof. intros H. unfold norm. apply sqrt_lt_R0, sum_pos, H. Qed.
Lemma norm_prod x y : norm x y * norm x y = x * x + y * y.
Proof. unfold norm. apply sqrt_sqrt. nra. Qed.
Lemma pt_neq (a b : pt) : a <> b -> fst b - fst a <> 0 \/ snd b - snd a <> 0.
Proof.
  intros H. destruct a as [a1 a2], b as [b1 b2]. cbn. destruct (Req_dec b1 a1) as [->|]; [|left; lra]. right. intros E. apply H. f_equal. lra.
Qed.
Lemma side_ok (r q a b : pt) : a <> b -> ~ along r q a b a -> ~ along r q a b b ->
  proper (side_interval r q a b) /\
  (forall t, (0 <= (fst (on_way r q t) - fst a) * (fst b - fst a) + (snd (on_way r q t) - snd a) * (snd b - snd a) <= (fst b - fst a) * (fst b - fst a) + (snd b - snd a) * (snd b - snd a)) <->
     fits (fst (side_interval r q a b)) (snd (side_interval r q a b)) t) /\
  (side_interval r q a b = (NInf, PInf) -> (fst q - fst r) * (fst b - fst a) + (snd q - snd r) * (snd b - snd a) = 0).
Proof.
  intros Hab N1 N2. pose proof (norm_pos _ _ (pt_neq _ _ Hab)) as Hn. pose proof (norm_prod (fst b - fst a) (snd b - snd a)) as Hp. unfold side_interval, unit_of, minus, dotp, along in *. cbn [fst snd].
  set (n := norm (fst b - fst a) (snd b - snd a)) in *. set (u1 := fst b - fst a) in *. set (u2 := snd b - snd a) in *.
  assert (F : forall x y, x * (u1 / n) + y * (u2 / n) = (x * u1 + y * u2) / n) by (intros; field; lra). rewrite !F.
  set (A := (fst a - fst r) * u1 + (snd a - snd r) * u2) in *. set (B := (fst b - fst r) * u1 + (snd b - snd r) * u2) in *. set (P := (fst q - fst r) * u1 + (snd q - snd r) * u2) in *.
  assert (BA : B = A + n * n) by (rewrite Hp; unfold B, A, u1, u2; ring).
  assert (Z : forall x, x / n = 0 <-> x = 0) by (intros x; split; intros H; [replace x with (n * (x / n)) by (field; lra); rewrite H; ring|rewrite H; field; lra]).
  assert (Lt : A / n < B / n) by (apply Rmult_lt_compat_r; [apply Rinv_0_lt_compat; lra|nra]).
  destruct (@slab (A / n) (B / n) (P / n) Lt) as [S1 S2].
  { rewrite !Z. intros HP. split; intros H; [apply N1|apply N2]; auto. }
  split; [exact S1|]. split.
  - intros t. rewrite <- S2. unfold on_way. cbn [fst snd].
    replace ((fst r + t * (fst q - fst r) - fst a) * u1 + (snd r + t * (snd q - snd r) - snd a) * u2) with (t * P - A) by (unfold P, A; ring). rewrite <- Hp.
    assert (E : forall x y, x / n <= y / n <-> x <= y) by (intros x y; split; intros H; [apply Rmult_le_reg_r with (r := / n); [apply Rinv_0_lt_compat; lra|exact H]|apply Rmult_le_compat_r; [left; apply Rinv_0_lt_compat; lra|exact H]]).
    replace (P / n * t) with (t * P / n) by (field; lra). rewrite !E. lra.
  - unfold ediv. destruct (Req_EM_T (P / n) 0) as [E|E]; [intros _; apply Z; exact E|]. destruct (Rle_dec 0 (P / n)); intros H; discriminate H.
Qed.

(** A direction perpendicular to both sides is none. *)
Lemma no_direction (r q a b d : pt) : a <> b -> a <> d -> (fst b - fst a) * (fst d - fst a) + (snd b - snd a) * (snd d - snd a) = 0 -> r <> q ->
  (fst q - fst r) * (fst b - fst a) + (snd q - snd r) * (snd b - snd a) = 0 -> (fst q - fst r) * (fst d - fst a) + (snd q - snd r) * (snd d - snd a) = 0 -> False.
Proof.
  intros Hb Hd Ho Hrq E1 E2. apply pt_neq in Hb. apply pt_neq in Hd. apply pt_neq in Hrq. apply sum_pos in Hb. apply sum_pos in Hd. apply sum_pos in Hrq.
  set (u1 := fst b - fst a) in *. set (u2 := snd b - snd a) in *. set (v1 := fst d - fst a) in *. set (v2 := snd d - snd a) in *. set (w1 := fst q - fst r) in *. set (w2 := snd q - snd r) in *.
  (* (u x v)^2 = |u|^2 |v|^2 and (u x v) w = 0 *)
  assert (D : (u1 * v2 - u2 * v1) * (u1 * v2 - u2 * v1) = (u1 * u1 + u2 * u2) * (v1 * v1 + v2 * v2)).
  { transitivity ((u1 * u1 + u2 * u2) * (v1 * v1 + v2 * v2) - (u1 * v1 + u2 * v2) * (u1 * v1 + u2 * v2)); [ring|rewrite Ho; ring]. }
  assert (P : 0 < (u1 * u1 + u2 * u2) * (v1 * v1 + v2 * v2)) by (apply Rmult_lt_0_compat; assumption).
  assert (K : u1 * v2 - u2 * v1 <> 0) by (intros K; rewrite K in D; lra).
  assert (W1 : (u1 * v2 - u2 * v1) * w1 = 0) by (transitivity (v2 * (w1 * u1 + w2 * u2) - u2 * (w1 * v1 + w2 * v2)); [ring|rewrite E1, E2; ring]).
  assert (W2 : (u1 * v2 - u2 * v1) * w2 = 0) by (transitivity (u1 * (w1 * v1 + w2 * v2) - v1 * (w1 * u1 + w2 * u2)); [ring|rewrite E1, E2; ring]).
  apply Rmult_integral in W1, W2. destruct W1 as [W1|W1]; [contradiction|]. destruct W2 as [W2|W2]; [contradiction|]. rewrite W1, W2 in Hrq. lra.
Qed.
Lemma fits_between lo hi t t1 t2 : fits lo hi t1 -> fits lo hi t2 -> t1 <= t -> t <= t2 -> fits lo hi t.
Proof.
  intros [A1 A2] [B1 B2] H1 H2. unfold fits. destruct lo, hi; cbn [ele] in *; try discriminate; decs; try discriminate; try (split; reflexivity); exfalso; lra.
Qed.
