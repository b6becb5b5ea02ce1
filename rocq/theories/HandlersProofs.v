(** Proofs about the handlers. *)
From Coq Require Import Ascii String Reals Qreals Lra QArith.Qminmax.
From Verif Require Import Base BaseFacts PyText Dict ScanProofs Piecewise PiecewiseSpec PiecewiseProofs PiecewiseMain ParseArraySpec ParseArrayProofs Handlers HandlersSpec.
Set Implicit Arguments.
Open Scope nat_scope.

Lemma hull_within outs l b v : hull outs = Some l -> In b outs -> (Q2R (fst b) <= v <= Q2R (snd b))%R -> within v l.
Proof.
  unfold hull. destruct (Qfold Qmin _) as [mn|] eqn:E1; [|discriminate]. destruct (Qfold Qmax _) as [mx|] eqn:E2; [|discriminate]. intros [= <-] H V.
  exists (mn, mx). split; [left; reflexivity|]. assert (X := Qfold_min _ _ E1 (in_map fst _ _ H)). assert (Y := Qfold_max _ _ E2 (in_map snd _ _ H)).
  apply Qle_Rle in X, Y. cbn [fst snd]. lra.
Qed.
Lemma combination (args : list word) cur vs : forall bl, Forall2 (fun x u => exists b, dget word_eqb x cur = Some b /\ within u b) args vs ->
  mapM (fun x => dget word_eqb x cur) args = Some bl -> exists comb, In comb (product bl) /\ in_box vs comb.
Proof.
  intros bl H M. apply mapM_Forall2 in M. enough (exists comb, Forall2 (fun i l => In i l) comb bl /\ in_box vs comb) as (comb & A & B) by (exists comb; split; [apply In_product, A|exact B]).
  revert bl M. induction H as [|x u args vs (b & G & i & Hi & V) H IH]; intros bl M; inversion M as [|? l ? bl' E M']; subst; [exists []; split; constructor|].
  destruct (IH _ M') as (comb & A & B). rewrite G in E. injection E as <-. exists (i :: comb). split; constructor; assumption.
Qed.

Lemma handle_map_sound call mapo f : map_oracle call mapo f -> fun_sound call (handle_map mapo) f.
Proof.
  intros S args cur l vs v H A C. unfold handle_map in H. destruct (mapM _ args) as [bl|] eqn:M; [|discriminate]. cbn [obind] in H.
  destruct (mapM (mapo f) _) as [outs|] eqn:P; [|discriminate]. cbn [obind] in H. apply mapM_Forall2 in P.
  destruct (@combination _ _ _ _ A M) as (comb & Hc & V). destruct (In_Forall2_l _ P Hc) as (b & Hb & E). eapply hull_within; [exact H|exact Hb|].
  eapply S; eassumption.
Qed.

Section Crown.
  Variable call : word -> list R -> option R.

  Lemma variables_known s e : forall v, py_expr call s e = Some v -> forall x, In x (variables e) -> exists u, dget word_eqb x s = Some u.
  Proof.
    revert e. fix IH 1. intros e v H x X. destruct e as [y|q|a|a|o a b|f args]; cbn [variables] in X; cbn [py_expr] in H.
    - destruct X as [<-|[]]. eauto.
    - destruct X.
    - eapply IH; eassumption.
    - destruct (py_expr call s a) as [va|] eqn:E; [|discriminate]. eapply IH; eassumption.
    - destruct (py_expr call s a) as [va|] eqn:Ea; [|discriminate]. destruct (py_expr call s b) as [vb|] eqn:Eb; [|discriminate].
      apply in_app_or in X. destruct X as [X|X]; [eapply (IH a)|eapply (IH b)]; eassumption.
    - destruct ((fix go l := match l with [] => Some [] | a :: l' => do v <- py_expr call s a; do vs <- go l'; Some (v :: vs) end) args) as [vs|] eqn:G; [|discriminate].
      clear H. revert vs G X. induction args as [|a args IHa]; intros vs G X; [destruct X|]. destruct (py_expr call s a) as [va|] eqn:Ea; [|discriminate].
      cbn [obind] in G. cbn [flat_map] in X. apply in_app_or in X. destruct X as [X|X]; [eapply (IH a); eassumption|].
      destruct ((fix go l := match l with [] => Some [] | a :: l' => do v <- py_expr call s a; do vs <- go l'; Some (v :: vs) end) args) as [vs'|]; [|discriminate].
      eapply IHa; [reflexivity|exact X].
  Qed.
  Lemma without_repeats_In l x : In x (without_repeats l) -> In x l.
  Proof. induction l as [|y l IH]; [auto|]. simpl. destruct (existsb _ l); [auto|]. intros [<-|H]; [left; reflexivity|right; auto]. Qed.

  Variable lirpa : expr -> list (word * (Q * Q)) -> outcome.
  Variable evaluate : expr -> option Q.

  Lemma crown_loop_in e args combs : forall outs comb, crown_loop lirpa evaluate e args combs = Some (inl outs) -> In comb combs ->
    exists lb ub, lirpa e (combine args comb) = Bounds lb ub /\ In (lb, ub) outs.
  Proof.
    induction combs as [|c combs IH]; intros outs comb H X; [destruct X|]. cbn [crown_loop] in H.
    destruct (lirpa e (combine args c)) as [lb ub| |] eqn:L; [|destruct (evaluate e); discriminate|discriminate].
    destruct (crown_loop lirpa evaluate e args combs) as [[outs'|q]|]; try discriminate. cbn [obind] in H. injection H as <-.
    destruct X as [<-|X]; [exists lb, ub; split; [exact L|left; reflexivity]|]. destruct (IH _ _ eq_refl X) as (lb' & ub' & ? & ?). exists lb', ub'. split; [assumption|right; assumption].
  Qed.
  Lemma crown_loop_number e args combs : forall q, crown_loop lirpa evaluate e args combs = Some (inr q) -> evaluate e = Some q.
  Proof.
    induction combs as [|c combs IH]; intros q H; [discriminate|]. cbn [crown_loop] in H.
    destruct (lirpa e (combine args c)) as [lb ub| |]; [|destruct (evaluate e) as [q'|]; [injection H as <-; reflexivity|discriminate]|discriminate].
    destruct (crown_loop lirpa evaluate e args combs) as [[outs'|q']|]; try discriminate. cbn [obind] in H. injection H as <-. apply IH. reflexivity.
  Qed.

  Lemma handle_crown_sound e : lirpa_oracle call lirpa e -> eval_oracle call evaluate e -> expr_sound call (handle_crown lirpa evaluate) e.
  Proof.
    intros S N names cur l s v H St P. unfold handle_crown in H. set (args := crown_args e names) in *.
    destruct (mapM _ args) as [bl|] eqn:M; [|discriminate]. cbn [obind] in H.
    destruct (crown_loop _ _ _ _ _) as [[outs|q]|] eqn:L; [| |discriminate]; cbn [obind] in H.
    - assert (V : exists vs, Forall2 (fun x u => dget word_eqb x s = Some u) args vs /\ Forall2 (fun x u => exists b, dget word_eqb x cur = Some b /\ within u b) args vs).
      { assert (A : forall x, In x args -> exists u, dget word_eqb x s = Some u).
        { intros x X. apply without_repeats_In, filter_In in X. eapply variables_known; [exact P|apply X]. }
        clear -A St. induction args as [|x args IH]; [exists []; split; constructor|]. destruct IH as (vs & F1 & F2); [intros; apply A; right; assumption|].
        destruct (A x (or_introl eq_refl)) as [u U]. exists (u :: vs). split; constructor; try assumption. apply St. exact U. }
      destruct V as (vs & V1 & V2). destruct (@combination _ _ _ _ V2 M) as (comb & Hc & B). destruct (@crown_loop_in _ _ _ _ _ L Hc) as (lb & ub & E & I).
      eapply hull_within; [exact H|exact I|]. eapply S; [exact E| |exact P]. cbn [fst snd]. clear -V1 B. revert comb B.
      induction V1 as [|x u args vs U V1 IH]; intros comb B y b X; [destruct X|]. inversion B as [|? c ? comb' Hc B']; subst.
      destruct X as [[= <- <-]|X]; [exists u; split; assumption|eapply IH; eassumption].
    - injection H as <-. apply crown_loop_number in L. exists (q, q). split; [left; reflexivity|]. rewrite (N _ _ _ L P). simpl. lra.
  Qed.
End Crown.

Section Straight.
  Variable call : word -> list R -> option R.
  Variable opt : bool -> list zc -> word -> option Q.
  Variable mapo : word -> list (Q * Q) -> option (Q * Q).
  Variable lirpa : expr -> list (word * (Q * Q)) -> outcome.
  Variable evaluate : expr -> option Q.
  Variable angular : word -> list word -> bounds -> option (list (Q * Q)).
  Hypothesis Hmap : forall g, map_oracle call mapo g.
  Hypothesis Hexpr : forall e, lirpa_oracle call lirpa e /\ eval_oracle call evaluate e.

  Lemma mentions_call h g xs : (forall y, In y xs -> occurs h y = false) -> mentions h (ECall g (map EName xs)) = occurs h g.
  Proof.
    intros H. unfold mentions. cbn [idents existsb]. replace (existsb (occurs h) (flat_map idents (map EName xs))) with false; [apply orb_false_r|].
    symmetry. apply not_true_is_false. intros E. apply existsb_exists in E. destruct E as (y & Hy & O). apply in_flat_map in Hy. destruct Hy as (e & He & Hy).
    apply in_map_iff in He. destruct He as (z & <- & Hz). destruct Hy as [<-|[]]. rewrite H in O by exact Hz. discriminate.
  Qed.
  Lemma map_names h g : In h (ANGULAR_FUNCTIONS ++ MAP_FUNCTIONS) -> In g MAP_FUNCTIONS -> occurs h g = true -> h = g.
  Proof.
    intros Hh Hg. simpl in Hh, Hg. destruct Hg as [<-|[<-|[]]]; destruct Hh as [<-|[<-|[<-|[<-|[]]]]]; intros E; try reflexivity; vm_compute in E; discriminate.
  Qed.
  Lemma map_not_angular g : In g MAP_FUNCTIONS -> ~ In g ANGULAR_FUNCTIONS.
  Proof. intros [<-|[<-|[]]] [H|[H|[]]]; vm_compute in H; discriminate. Qed.

  Lemma straight_ok known body : straight call known body -> forall cur, (forall x, In x known -> In x (map fst cur)) ->
    body_ok call opt (handle_crown lirpa evaluate) angular (handle_map mapo) ALIASES ANGULAR_FUNCTIONS MAP_FUNCTIONS [] body cur.
  Proof.
    induction 1 as [known|known e rest|known x e rest A N S IH|known x e g xs rest A G V K O S IH]; intros cur C; [constructor|constructor| |].
    - apply ok_assign; [|intros b _; apply IH; intros y [<-|Hy]; rewrite dset_In; auto].
      eapply rhs_plain; [reflexivity|exact A|exact N|]. destruct (Hexpr (apply_aliases ALIASES e)). apply handle_crown_sound; assumption.
    - apply ok_assign; [|intros b _; apply IH; intros y [<-|Hy]; rewrite dset_In; auto].
      eapply rhs_call; [exact A|exact V|auto| |].
      + intros h Hh M. cbn [map app] in Hh. rewrite mentions_call in M by (intros; apply O; assumption). eapply map_names; eassumption.
      + right. left. split; [apply map_not_angular, G|]. split; [intros []|]. split; [exact G|]. apply handle_map_sound. apply Hmap.
  Qed.
End Straight.
