(** Small concrete scenarios for examples and counterexamples: guards, assertions and resets on the agent's own
    box, evaluated exactly.  Not a model of code in /repo; it gives concrete values to the functions the models
    take as parameters. *)
From Coq Require Import Ascii String.
From Verif Require Import Base BaseFacts Dict PyText Boxes Overlay OverlaySpec Scan Step StepSpec.
From Coq Require Import Lqa.
Set Implicit Arguments.
Open Scope nat_scope.

(** A path: it is enabled in mode [tp_src] when the state is in the box [tp_lo, tp_hi]; it assigns the variable
    [tp_var]: the mode ([tp_dest]) or a component of the state ([tp_set]). *)
Record tpath := { tp_var : word; tp_src : mode; tp_lo : vec; tp_hi : vec; tp_dest : option mode; tp_set : option (nat * Q) }.
(** An assertion part: the state is in a box. *)
Notation tcond := (vec * vec)%type (only parsing).

Fixpoint meets (lo hi blo bhi : vec) : bool :=
  match lo, hi, blo, bhi with
  | [], [], [], [] => true
  | l :: lo', h :: hi', b :: blo', c :: bhi' => Qle_bool l c && Qle_bool b h && meets lo' hi' blo' bhi'
  | _, _, _, _ => false
  end.
Fixpoint inside (lo hi blo bhi : vec) : bool :=
  match lo, hi, blo, bhi with
  | [], [], [], [] => true
  | l :: lo', h :: hi', b :: blo', c :: bhi' => Qle_bool l b && Qle_bool c h && inside lo' hi' blo' bhi'
  | _, _, _, _ => false
  end.

Definition own (bs : list box) (a : nat) : box := nth a bs ([], []).
Definition t_disc (modes : list mode) (bs : list box) (a : nat) (p : tpath) : bool := mode_eqb (nth a modes []) (tp_src p).
Definition t_hyb (modes : list mode) (bs : list box) (a : nat) (p : tpath) : bool := true.
Definition t_cont (modes : list mode) (bs : list box) (a : nat) (p : tpath) : bool * bool :=
  let b := own bs a in (meets (tp_lo p) (tp_hi p) (fst b) (snd b), inside (tp_lo p) (tp_hi p) (fst b) (snd b)).
Definition t_certain (modes : list mode) (bs : list box) (a : nat) (c : tcond) : bool :=
  let b := own bs a in inside (fst c) (snd c) (fst b) (snd b).

Definition t_apply (b : box) (p : tpath) : box :=
  match tp_set p with Some (k, v) => (set_nth k v (fst b), set_nth k v (snd b)) | None => b end.
Definition t_move (m : mode) (p : tpath) : mode := match tp_dest p with Some d => d | None => m end.
Definition t_reset (modes : list mode) (bs : list box) (a : nat) (ps : list tpath) : option (list mode * box) :=
  Some ([fold_left t_move ps (nth a modes [])], fold_left t_apply ps (own bs a)).

(** Meaning on a joint state. *)
Definition t_holds (a : nat) (c : tcond) (s : list vec) : Prop := in_box (fst c) (snd c) (nth a s []).
Definition t_enabled (modes : list mode) (a : nat) (p : tpath) (s : list vec) : Prop :=
  nth a modes [] = tp_src p /\ in_box (tp_lo p) (tp_hi p) (nth a s []).

Lemma Qle_bool_true x y : Qle_bool x y = true <-> (x <= y)%Q.
Proof. apply Qle_bool_iff. Qed.

Lemma inside_sound lo hi blo bhi s : inside lo hi blo bhi = true -> in_box blo bhi s -> in_box lo hi s.
Proof.
  revert hi blo bhi s. induction lo as [|l lo IH]; intros [|h hi] [|b blo] [|c bhi] [|x s]; simpl; try tauto; try discriminate.
  intros H [[H1 H2] H3]. apply andb_prop in H. destruct H as [H Hr]. apply andb_prop in H. destruct H as [Ha Hb].
  rewrite Qle_bool_true in Ha, Hb. split; [split; lra|]. eapply IH; eauto.
Qed.

Lemma meets_complete lo hi blo bhi s : in_box lo hi s -> in_box blo bhi s -> meets lo hi blo bhi = true.
Proof.
  revert hi blo bhi s. induction lo as [|l lo IH]; intros [|h hi] [|b blo] [|c bhi] [|x s]; simpl; try tauto.
  intros [[A1 A2] A3] [[B1 B2] B3]. rewrite (IH hi blo bhi s A3 B3), andb_true_r. apply andb_true_intro.
  split; apply Qle_bool_true; lra.
Qed.

Lemma in_joint_own bs s a : in_joint bs s -> a < length bs -> in_box (fst (own bs a)) (snd (own bs a)) (nth a s []).
Proof.
  intros H Ha. destruct (nth_error bs a) as [b|] eqn:E; [|apply nth_error_None in E; lia].
  destruct (Forall2_nth_l a H E) as (x & Ex & Hx). unfold own. rewrite (nth_error_nth _ _ ([],[]) E), (nth_error_nth _ _ [] Ex). exact Hx.
Qed.

(** Certain answers are right. *)
Lemma t_certain_sound modes bs a c s : t_certain modes bs a c = true -> a < length bs -> in_joint bs s -> t_holds a c s.
Proof.
  unfold t_certain, t_holds. intros H Ha Hs. eapply inside_sound; [exact H|]. apply in_joint_own; assumption.
Qed.

(** The tube of a motionless agent: [n] times the box, one time unit apart. *)
Definition still_engine (n : nat) (b : box) : tube :=
  flat_map (fun k => [inject_Z (Z.of_nat k) :: fst b; inject_Z (Z.of_nat (S k)) :: snd b]) (seq 0 n).
Definition still (s : vec) (j : nat) (s' : vec) : Prop := s' = s.

Lemma still_rows n b : length (still_engine n b) = 2 * n.
Proof.
  unfold still_engine. rewrite <- (seq_length n 0) at 2. generalize (seq 0 n). intros l.
  induction l as [|k l IH]; [reflexivity|]. cbn [flat_map]. rewrite app_length, IH. simpl. lia.
Qed.

Lemma still_nth n b j : j < n -> nth_error (still_engine n b) (2 * j) = Some (inject_Z (Z.of_nat j) :: fst b) /\
  nth_error (still_engine n b) (2 * j + 1) = Some (inject_Z (Z.of_nat (S j)) :: snd b).
Proof.
  unfold still_engine. intros H.
  assert (G : forall s, nth_error (flat_map (fun k => [inject_Z (Z.of_nat k) :: fst b; inject_Z (Z.of_nat (S k)) :: snd b]) (seq s n)) (2 * j) = Some (inject_Z (Z.of_nat (s + j)) :: fst b) /\
    nth_error (flat_map (fun k => [inject_Z (Z.of_nat k) :: fst b; inject_Z (Z.of_nat (S k)) :: snd b]) (seq s n)) (2 * j + 1) = Some (inject_Z (Z.of_nat (S (s + j))) :: snd b)).
  { revert j H. induction n as [|n IH]; intros j H s; [lia|]. cbn [seq flat_map].
    destruct j as [|j]; [rewrite Nat.add_0_r; split; reflexivity|].
    replace (2 * S j) with (S (S (2 * j))) by lia. cbn [app nth_error Nat.add]. replace (s + S j) with (S s + j) by lia. apply IH. lia. }
  apply (G 0).
Qed.

Lemma still_sound n d : engine_sound n d still (still_engine n).
Proof.
  intros lo hi Hl Hh. split.
  - split; [apply still_rows|]. intros row Hr. unfold still_engine in Hr. apply in_flat_map in Hr. destruct Hr as (k & _ & [<-|[<-|[]]]); simpl; congruence.
  - intros s j s' Hs Hj ->. destruct (still_nth (lo, hi) Hj) as [A B]. eexists _, _. split; [exact A|]. split; [exact B|]. exact Hs.
Qed.

(** Tubes of motionless agents assembled from several initial sets as in Overlay.v, one row per set. *)
Definition still_tubes (n : nat) (a : nat) (m : mode) (inits : list box) (remain : Q) : option tube :=
  calc_full_plain (still_engine n) inits 1.

(** Certain answers are complete on boxes that are not empty. *)
Lemma in_box_corners lo hi s : in_box lo hi s -> in_box lo hi lo /\ in_box lo hi hi.
Proof.
  revert hi s. induction lo as [|l lo IH]; intros [|h hi] [|x s]; simpl; try tauto.
  intros [[A B] C]. destruct (IH _ _ C). repeat split; try assumption; lra.
Qed.

Lemma inside_complete lo hi blo bhi : in_box lo hi blo -> in_box lo hi bhi -> inside lo hi blo bhi = true.
Proof.
  revert hi blo bhi. induction lo as [|l lo IH]; intros [|h hi] [|b blo] [|c bhi]; simpl; try tauto.
  intros [[A1 A2] A3] [[B1 B2] B3]. rewrite (IH _ _ _ A3 B3), andb_true_r. apply andb_true_intro. split; apply Qle_bool_true; lra.
Qed.

Lemma t_certain_complete modes bs a c : (exists s, in_joint bs s) -> (forall s, in_joint bs s -> t_holds a c s) -> t_certain modes bs a c = true.
Proof.
  intros [s Hs] H. unfold t_certain.
  assert (C : in_joint bs (map fst bs) /\ in_joint bs (map snd bs)).
  { clear H. unfold in_joint in *. induction Hs as [|b x bs s Hb HF IH]; simpl; [split; constructor|].
    destruct (in_box_corners _ _ _ Hb). split; constructor; tauto. }
  destruct C as [C1 C2]. apply inside_complete.
  - specialize (H _ C1). unfold t_holds in H. unfold own. rewrite <- (map_nth fst bs ([], []) a). exact H.
  - specialize (H _ C2). unfold t_holds in H. unfold own. rewrite <- (map_nth snd bs ([], []) a). exact H.
Qed.

Lemma in_joint_own' bs s a : in_joint bs s -> in_box (fst (own bs a)) (snd (own bs a)) (nth a s []).
Proof.
  intros H. destruct (Nat.lt_ge_cases a (length bs)) as [Hl|Hl]; [apply in_joint_own; assumption|].
  unfold own. rewrite nth_overflow by exact Hl. rewrite nth_overflow; [exact I|]. rewrite <- (Forall2_len H). exact Hl.
Qed.

Lemma t_certain_right modes bs a c s : t_certain modes bs a c = true -> in_joint bs s -> t_holds a c s.
Proof. unfold t_certain, t_holds. intros H Hs. eapply inside_sound; [exact H|]. apply in_joint_own'; assumption. Qed.
