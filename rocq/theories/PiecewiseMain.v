(** Statement-by-statement analysis. *)
From Coq Require Import Ascii String Reals Qreals Lra QArith.Qminmax.
From Verif Require Import Base BaseFacts PyText Dict ResetProofs Piecewise PiecewiseSpec PiecewiseProofs.
Set Implicit Arguments.
Open Scope nat_scope.

Lemma prefix_refl p : prefix_of p p = true.
Proof. induction p as [|a p IH]; [reflexivity|]. simpl. rewrite Ascii.eqb_refl. exact IH. Qed.
Lemma occurs_refl p : occurs p p = true.
Proof. destruct p as [|a p]; [reflexivity|]. change (prefix_of (a :: p) (a :: p) || occurs (a :: p) p = true). rewrite prefix_refl. reflexivity. Qed.
Lemma mentions_self g args : mentions g (ECall g args) = true.
Proof. unfold mentions. simpl. rewrite occurs_refl. reflexivity. Qed.

Lemma find_none {A} (f : A -> bool) l : (forall a, In a l -> f a = false) -> find f l = None.
Proof. induction l as [|a l IH]; intros H; [reflexivity|]. simpl. rewrite (H a (or_introl eq_refl)). apply IH. intros; apply H; right; assumption. Qed.
Lemma find_some_iff {A} (f : A -> bool) l : (exists a, In a l /\ f a = true) -> exists a, find f l = Some a /\ In a l /\ f a = true.
Proof.
  intros [a [H E]]. destruct (find f l) as [b|] eqn:F; [exists b; split; [reflexivity|apply find_some in F; exact F]|].
  exfalso. apply (find_none _ _ F) in H || (pose proof (List.find_none _ _ F _ H); congruence).
Qed.

Lemma call_args_names g xs names : (forall x, In x xs -> In x names) -> call_args (ECall g (map EName xs)) names = xs.
Proof.
  intros H. unfold call_args. simpl walk. induction xs as [|x xs IH]; [reflexivity|]. simpl.
  rewrite (proj2 (existsb_word x names) (H x (or_introl eq_refl))). simpl. f_equal. apply IH. intros; apply H; right; assumption.
Qed.

Lemma py_call_names call s g xs : forall v, py_expr call s (ECall g (map EName xs)) = Some v ->
  exists vs, Forall2 (fun x u => dget word_eqb x s = Some u) xs vs /\ call g vs = Some v.
Proof.
  simpl. intros v. generalize (call g) as c. intros c.
  assert (G : forall k : list R -> option R, obind ((fix go l := match l with [] => Some [] | a :: l' => do v <- py_expr call s a; do vs <- go l'; Some (v :: vs) end) (map EName xs)) k = Some v ->
     exists vs, Forall2 (fun x u => dget word_eqb x s = Some u) xs vs /\ k vs = Some v).
  { induction xs as [|x xs IH]; intros k H; [exists []; split; [constructor|exact H]|].
    simpl in H. destruct (dget word_eqb x s) as [u|] eqn:E; [|discriminate]. cbn [obind] in H.
    destruct (IH (fun vs => k (u :: vs))) as [vs [F K]].
    - destruct ((fix go l := match l with [] => Some [] | a :: l' => do v <- py_expr call s a; do vs <- go l'; Some (v :: vs) end) (map EName xs)) as [vs|]; [exact H|discriminate].
    - exists (u :: vs). split; [constructor; assumption|exact K]. }
  apply G.
Qed.

Section Main.
  Variable call : word -> list R -> option R.
  Variable opt : bool -> list zc -> word -> option Q.
  Variable crown : expr -> list word -> bounds -> option (list (Q * Q)).
  Variable angular mapf : word -> list word -> bounds -> option (list (Q * Q)).
  Variable aliases : list (word * word).
  Variable af mf : list word.
  Variable pws : list func.

  (** A piece's output without special functions is bounded by CROWN alone. *)
  Lemma plain_out_sound e : (forall s, py_expr call s (apply_aliases aliases e) = py_expr call s e) ->
    (forall h, In h (af ++ mf) -> mentions h (apply_aliases aliases e) = false) -> expr_sound call crown (apply_aliases aliases e) ->
    expr_sound call (compute_plain crown angular mapf aliases af mf) e.
  Proof.
    intros A N S names cur l s v H St P. unfold compute_plain, dispatch in H.
    rewrite find_none in H by (intros a Ha; apply N, in_or_app; auto). rewrite find_none in H by (intros a Ha; apply N, in_or_app; auto).
    eapply S; [exact H|exact St|]. rewrite A. exact P.
  Qed.

  Lemma compute_sound cur e l s v : rhs_ok call opt crown angular mapf aliases af mf pws cur e -> state_in s cur ->
    compute opt crown angular mapf aliases af mf pws e cur = Some l -> py_expr call s e = Some v -> within v l.
  Proof.
    intros R St H P. unfold compute, dispatch in H. destruct R as [e' Ea A N S|g xs Ea A Hx N C].
    - rewrite Ea in H.
      rewrite find_none in H by (intros a Ha; apply N, in_or_app; auto).
      rewrite find_none in H by (intros f Hf; apply N, in_or_app; right; apply in_or_app; left; apply in_map, Hf).
      rewrite find_none in H by (intros a Ha; apply N, in_or_app; right; apply in_or_app; auto).
      eapply S; [exact H|exact St|]. rewrite A. exact P.
    - rewrite Ea in H. rewrite call_args_names in H by exact Hx. rewrite <- A in P. apply py_call_names in P. destruct P as [vs [Fv Cv]].
      assert (Fb : Forall2 (fun x u => exists b, dget word_eqb x cur = Some b /\ within u b) xs vs).
      { clear -Fv St. induction Fv as [|x u xs vs E F IH]; constructor; [apply St, E|exact IH]. }
      set (e' := ECall g (map EName xs)) in *.
      destruct C as [[Ga So]|[[Na [Np [Gm So]]]|[Na [Gp So]]]].
      + destruct (@find_some_iff _ (fun f => mentions f e') af) as [h [Fh [Hh Mh]]]; [exists g; split; [exact Ga|apply mentions_self]|].
        assert (h = g) by (apply N; [apply in_or_app; auto|exact Mh]). subst h. rewrite Fh in H. eapply So; eassumption.
      + rewrite find_none in H.
        2: { intros a Ha. destruct (mentions a e') eqn:M; [|reflexivity]. assert (a = g) by (apply N; [apply in_or_app; auto|exact M]). subst. contradiction. }
        rewrite find_none in H.
        2: { intros f Hf. destruct (mentions (fname f) e') eqn:M; [|reflexivity]. exfalso. apply Np. rewrite <- (N (fname f)); [apply in_map, Hf| |exact M].
             apply in_or_app; right; apply in_or_app; left. apply in_map, Hf. }
        destruct (@find_some_iff _ (fun f => mentions f e') mf) as [h [Fh [Hh Mh]]]; [exists g; split; [exact Gm|apply mentions_self]|].
        assert (h = g) by (apply N; [apply in_or_app; right; apply in_or_app; auto|exact Mh]). subst h. rewrite Fh in H. eapply So; eassumption.
      + rewrite find_none in H.
        2: { intros a Ha. destruct (mentions a e') eqn:M; [|reflexivity]. assert (a = g) by (apply N; [apply in_or_app; auto|exact M]). subst. contradiction. }
        apply in_map_iff in Gp. destruct Gp as [f0 [E0 Hf0]].
        destruct (@find_some_iff _ (fun f => mentions (fname f) e') pws) as [f [Ff [Hf Mf]]]; [exists f0; split; [exact Hf0|rewrite E0; apply mentions_self]|].
        assert (E : fname f = g) by (apply N; [apply in_or_app; right; apply in_or_app; left; apply in_map, Hf|exact Mf]).
        rewrite Ff in H. destruct (So f Hf E) as [Ex [Nd [[pieces [default [Pw Out]]] [Run Qs]]]].
        rewrite Ex in H, Fb, Nd, Run. eapply handle_piecewise_ok; try eassumption. apply Run, Cv.
  Qed.

  Lemma state_in_set s (cur : bounds) x v b : state_in s cur -> within v b -> state_in (dset word_eqb x v s) (dset word_eqb x b cur).
  Proof.
    intros St Wv y u H. unfold dset in *. destruct (word_eqb y x) eqn:E.
    - apply word_eqb_eq in E. subst y. rewrite (dget_alter_same word_eqb word_eqb_eq) in H. injection H as <-.
      exists b. rewrite (dget_alter_same word_eqb word_eqb_eq). auto.
    - apply word_eqb_neq in E. rewrite (dget_alter_other word_eqb word_eqb_eq) in H by congruence.
      rewrite (dget_alter_other word_eqb word_eqb_eq) by congruence. apply St, H.
  Qed.

  Lemma parse_body_sound body : forall cur, body_ok call opt crown angular mapf aliases af mf pws body cur ->
    forall s s' cur', state_in s cur -> parse_body opt crown angular mapf aliases af mf pws body cur = Some cur' ->
    runs call s (before_return body) (inl s') -> state_in s' cur'.
  Proof.
    induction 1 as [cur|e rest cur|x e rest cur Hr Hk IH]; intros s s' cur' St P R; simpl in P, R.
    - injection P as <-. apply runs_nil in R. injection R as ->. exact St.
    - injection P as <-. apply runs_nil in R. injection R as ->. exact St.
    - destruct (compute _ _ _ _ _ _ _ _ e cur) as [b|] eqn:C; [|discriminate]. cbn [obind] in P. inversion R; subst.
      eapply (IH b eq_refl); [|exact P|eassumption]. apply state_in_set; [exact St|]. eapply compute_sound; eassumption.
  Qed.
End Main.
