(** C107: the lines that bound the logarithm of the sensitivities. *)
From Coq Require Import Reals List Lra Lia Permutation Sorted.
From Verif Require Import Base DryvrGlobal.
Import ListNotations.
Open Scope R_scope.

(** C107.  The line of an edge goes through its two corners, between their times, with the rows of these times. *)
Theorem C107_line new_min pts e s seps : separator_of new_min pts (e, s) = Some seps -> forall sp, In sp seps ->
  exists te ye t0 y0, nth_error pts e = Some (te, ye) /\ nth_error pts s = Some (t0, y0) /\ y0 <> new_min /\ ye <> new_min /\
    s_start sp = t0 /\ s_end sp = te /\ t0 < te /\ s_slope sp * t0 + s_base sp = y0 /\ s_slope sp * te + s_base sp = ye /\
    s_to sp = S e /\ (t0 = 0 -> s_from sp = 0%nat) /\ (t0 <> 0 -> s_from sp = S s).
Proof.
  unfold separator_of. destruct (nth_error pts e) as [[te ye]|] eqn:E; [|discriminate]. cbn [obind]. destruct (nth_error pts s) as [[t0 y0]|] eqn:S; [|discriminate]. cbn [obind fst snd].
  destruct (Req_EM_T y0 new_min) as [|N0]; [intros [= <-] sp []|]. destruct (Req_EM_T ye new_min) as [|Ne]; [intros [= <-] sp []|]. destruct (Rlt_dec t0 te) as [L|]; [|discriminate].
  intros [= <-] sp [<-|[]]. exists te, ye, t0, y0. cbn [s_start s_end s_slope s_base s_from s_to]. do 7 (split; [try reflexivity; try assumption|]). split; [ring|]. split; [field; lra|]. split; [reflexivity|]. split; intros H; destruct (Req_EM_T t0 0); congruence.
Qed.
(** C107.  The lines are used from left to right, each of them once. *)
Theorem C107_order l : Permutation (sort_seps l) l /\ StronglySorted (fun a b => s_start a <= s_start b) (sort_seps l).
Proof.
  assert (P : forall s l, Permutation (sort_in s l) (s :: l)). { intros s. induction l0 as [|x l0 IH]; cbn [sort_in]; [reflexivity|]. destruct (Rle_dec _ _); [reflexivity|]. rewrite IH. apply perm_swap. }
  induction l as [|s l [IH1 IH2]]; cbn [sort_seps fold_right]; [split; constructor|]. fold (sort_seps l). split; [rewrite P; constructor; exact IH1|].
  clear IH1. induction IH2 as [|x l0 H IH F]; cbn [sort_in]; [repeat constructor|]. destruct (Rle_dec (s_start s) (s_start x)) as [L|L].
  - constructor; [constructor; assumption|]. constructor; [exact L|]. apply (Forall_impl _ (P := fun b => s_start x <= s_start b)); [intros b; lra|exact F].
  - constructor; [exact IH|]. apply Forall_forall. intros b I. apply (Permutation_in _ (P s l0)) in I. destruct I as [<-|I]; [lra|]. rewrite Forall_forall in F. apply F. exact I.
Qed.
Print Assumptions C107_line.
Print Assumptions C107_order.
(** Two corners at the times 1 and 3. *)
Example line_case : exists sp, separator_of (-10) [(1, 2); (3, 6)] (1%nat, 0%nat) = Some [sp] /\ s_slope sp = 2 /\ s_base sp = 0.
Proof.
  unfold separator_of. cbn [nth_error obind fst snd]. destruct (Req_EM_T 2 (-10)); [lra|]. destruct (Req_EM_T 6 (-10)); [lra|]. destruct (Rlt_dec 1 3); [|lra].
  eexists. split; [reflexivity|]. cbn [s_slope s_base]. split; field.
Qed.
