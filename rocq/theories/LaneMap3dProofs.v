(** Lemmas for lane adjacency and lane names. *)
From Coq Require Import Ascii String.
From Verif Require Import Base PyText Dict ResetProofs LaneMap3d LaneMap3dSpec.
Set Implicit Arguments.
Open Scope nat_scope.

Lemma count_app x l l' : count x (l ++ l') = count x l + count x l'.
Proof. induction l; simpl; [reflexivity|]. rewrite IHl. lia. Qed.

Lemma rel_of_name r : rel_of (rel_name r) = Some r.
Proof. destruct r; reflexivity. Qed.
Lemma rel_of_inv x r : rel_of x = Some r -> x = rel_name r.
Proof.
  unfold rel_of. intros H.
  destruct (word_eqb x (w "left")) eqn:E1; [apply word_eqb_eq in E1; injection H as <-; exact E1|].
  destruct (word_eqb x (w "right")) eqn:E2; [apply word_eqb_eq in E2; injection H as <-; exact E2|].
  destruct (word_eqb x (w "up")) eqn:E3; [apply word_eqb_eq in E3; injection H as <-; exact E3|].
  destruct (word_eqb x (w "down")) eqn:E4; [apply word_eqb_eq in E4; injection H as <-; exact E4|discriminate].
Qed.
Lemma rel_eqb_eq r s : rel_eqb r s = true <-> r = s.
Proof. destruct r, s; simpl; split; congruence. Qed.
Lemma name_eqb r s : word_eqb (rel_name r) (rel_name s) = rel_eqb r s.
Proof. destruct r, s; reflexivity. Qed.
Lemma opp_opp r : opposite (opposite r) = r.
Proof. destruct r; reflexivity. Qed.
Lemma opp_neq r : opposite r <> r.
Proof. destruct r; discriminate. Qed.

Section P.
  Variables (L : Type) (lid : L -> word).
  Notation lmap := (lmap L).

  Lemma dmem_dset k a V (v : V) d : dmem word_eqb a (dset word_eqb k v d) = word_eqb a k || dmem word_eqb a d.
  Proof.
    unfold dmem, dset. destruct (word_eqb a k) eqn:E.
    - apply word_eqb_eq in E. subst a. rewrite (dget_alter_same word_eqb word_eqb_eq). reflexivity.
    - apply word_eqb_neq in E. rewrite (dget_alter_other word_eqb word_eqb_eq) by congruence. reflexivity.
  Qed.
  Lemma dget_dset k a V (v : V) d :
    dget word_eqb a (dset word_eqb k v d) = if word_eqb a k then Some v else dget word_eqb a d.
  Proof.
    unfold dset. destruct (word_eqb a k) eqn:E.
    - apply word_eqb_eq in E. subst a. rewrite (dget_alter_same word_eqb word_eqb_eq). reflexivity.
    - apply word_eqb_neq in E. rewrite (dget_alter_other word_eqb word_eqb_eq) by congruence. reflexivity.
  Qed.

  (** The five dictionaries always have the same keys. *)
  Definition same_keys (m : lmap) : Prop :=
    forall r a, dmem word_eqb a (dict_of r m) = dmem word_eqb a (lane_dict m).

  Lemma add_lane_get r m l a :
    dget word_eqb a (dict_of r (add_lane lid m l)) = if word_eqb a (lid l) then Some [] else dget word_eqb a (dict_of r m).
  Proof. destruct r; simpl; apply dget_dset. Qed.
  Lemma add_lane_nb r m l a :
    neighbours r (add_lane lid m l) a = if word_eqb a (lid l) then [] else neighbours r m a.
  Proof. unfold neighbours. rewrite add_lane_get. destruct (word_eqb a (lid l)); reflexivity. Qed.
  Lemma add_lane_keys m l : same_keys m -> same_keys (add_lane lid m l).
  Proof.
    intros H r a. assert (K := H r a).
    destruct r; simpl in *; rewrite !dmem_dset, K; reflexivity.
  Qed.
  Lemma add_lanes_keys ls : forall m, same_keys m -> same_keys (add_lanes lid m ls).
  Proof. induction ls as [|l ls IH]; intros m H; simpl; [exact H|]. apply IH, add_lane_keys, H. Qed.
  Lemma add_lanes_known ls : forall m a,
    dmem word_eqb a (lane_dict (add_lanes lid m ls)) = true <->
    dmem word_eqb a (lane_dict m) = true \/ exists l, In l ls /\ lid l = a.
  Proof.
    induction ls as [|l ls IH]; intros m a; simpl.
    - split; [auto|intros [H|[l [[] _]]]; exact H].
    - change (add_lanes lid m (l :: ls)) with (add_lanes lid (add_lane lid m l) ls). rewrite IH. simpl. rewrite dmem_dset, orb_true_iff, word_eqb_eq. split.
      + intros [[->|H]|[x [Hx E]]]; [right; exists l; auto|left; exact H|right; exists x; auto].
      + intros [H|[x [[->|Hx] E]]]; [auto|left; left; auto|right; exists x; auto].
  Qed.
  Lemma add_lanes_nb ls : forall r m a, (forall l, In l ls -> lid l <> a) ->
    neighbours r (add_lanes lid m ls) a = neighbours r m a.
  Proof.
    induction ls as [|l ls IH]; intros r m a H; simpl; [reflexivity|].
    change (add_lanes lid m (l :: ls)) with (add_lanes lid (add_lane lid m l) ls). rewrite IH by (intros; apply H; right; assumption).
    rewrite add_lane_nb. rewrite (proj2 (word_eqb_neq a (lid l))); [reflexivity|].
    intros ->. apply (H l); [left; reflexivity|reflexivity].
  Qed.
  Lemma add_lanes_nb_empty ls : forall r m a, neighbours r m a = [] -> neighbours r (add_lanes lid m ls) a = [].
  Proof.
    induction ls as [|l ls IH]; intros r m a H; simpl; [exact H|].
    change (add_lanes lid m (l :: ls)) with (add_lanes lid (add_lane lid m l) ls). apply IH. rewrite add_lane_nb. destruct (word_eqb a (lid l)); [reflexivity|exact H].
  Qed.

  Lemma append_ok r k v (m : lmap) : snd (append_to r k v m) = dmem word_eqb k (dict_of r m).
  Proof. unfold append_to, dmem. destruct (dget word_eqb k (dict_of r m)); reflexivity. Qed.
  Lemma append_lanes r k v (m : lmap) : lane_dict (fst (append_to r k v m)) = lane_dict m.
  Proof. unfold append_to. destruct (dget word_eqb k (dict_of r m)); [destruct r|]; reflexivity. Qed.
  Lemma append_mem r k v r' a (m : lmap) :
    dmem word_eqb a (dict_of r' (fst (append_to r k v m))) = dmem word_eqb a (dict_of r' m).
  Proof.
    unfold append_to. destruct (dget word_eqb k (dict_of r m)) eqn:E; [|reflexivity].
    assert (D : dmem word_eqb a (dset word_eqb k (l ++ [v]) (dict_of r m)) = dmem word_eqb a (dict_of r m)).
    { rewrite dmem_dset. destruct (word_eqb a k) eqn:Ea; [|reflexivity].
      apply word_eqb_eq in Ea. subst a. unfold dmem. rewrite E. reflexivity. }
    destruct r, r'; simpl in *; try reflexivity; exact D.
  Qed.
  Lemma append_nb r k v r' a (m : lmap) :
    neighbours r' (fst (append_to r k v m)) a =
    if rel_eqb r' r && word_eqb a k && dmem word_eqb k (dict_of r m) then neighbours r' m a ++ [v] else neighbours r' m a.
  Proof.
    unfold append_to, neighbours, dmem. destruct (dget word_eqb k (dict_of r m)) eqn:E; [|rewrite andb_false_r; reflexivity].
    rewrite andb_true_r.
    assert (D : forall d, d = dict_of r m ->
       dget word_eqb a (dset word_eqb k (l ++ [v]) d) = if word_eqb a k then Some (l ++ [v]) else dget word_eqb a d)
      by (intros; apply dget_dset).
    destruct r, r'; simpl in *; try reflexivity; rewrite D by reflexivity;
      destruct (word_eqb a k) eqn:Ea; try reflexivity; apply word_eqb_eq in Ea; subst a; rewrite E; reflexivity.
  Qed.

  (** What [pair_lanes] does with a known relation. *)
  Lemma pair_eq (m : lmap) s d r : pair_lanes m s d (rel_name r) = andthen (append_to r s d m) (@append_to L (opposite r) d s).
  Proof. unfold pair_lanes. rewrite rel_of_name. destruct r; reflexivity. Qed.

  Lemma pair_ok (m : lmap) s d r : same_keys m ->
    snd (pair_lanes m s d (rel_name r)) = dmem word_eqb s (lane_dict m) && dmem word_eqb d (lane_dict m).
  Proof.
    intros H. rewrite pair_eq. unfold andthen.
    destruct (append_to r s d m) as [m' ok] eqn:E.
    assert (Ok : ok = dmem word_eqb s (lane_dict m)).
    { rewrite <- (H r), <- (append_ok r s d m), E. reflexivity. }
    rewrite <- Ok. destruct ok; [|reflexivity]. simpl. rewrite append_ok.
    assert (M : m' = fst (append_to r s d m)) by (rewrite E; reflexivity).
    rewrite M, append_mem. apply H.
  Qed.
  Lemma pair_lanes_dict (m : lmap) s d x : lane_dict (fst (pair_lanes m s d x)) = lane_dict m.
  Proof.
    unfold pair_lanes. destruct (rel_of x) as [r|] eqn:E; [|reflexivity].
    replace (fst match r with
       | Left => andthen (append_to Left s d m) (@append_to L Right d s)
       | Right => andthen (append_to Right s d m) (@append_to L Left d s)
       | Up => andthen (append_to Up s d m) (@append_to L Down d s)
       | Down => andthen (append_to Down s d m) (@append_to L Up d s) end)
      with (fst (andthen (append_to r s d m) (@append_to L (opposite r) d s))) by (destruct r; reflexivity).
    assert (A := append_lanes r s d m). destruct (append_to r s d m) as [m' ok]. simpl in *.
    destruct ok; simpl; [rewrite append_lanes|]; exact A.
  Qed.
  Lemma pair_keys (m : lmap) s d x : same_keys m -> same_keys (fst (pair_lanes m s d x)).
  Proof.
    intros H r' a. rewrite pair_lanes_dict. rewrite <- (H r').
    destruct (rel_of x) as [r|] eqn:E.
    - apply rel_of_inv in E. subst x. rewrite pair_eq.
      assert (A := append_mem r s d r' a m). destruct (append_to r s d m) as [m' ok]. simpl in *.
      destruct ok; simpl; [rewrite append_mem|]; exact A.
    - unfold pair_lanes. rewrite E. reflexivity.
  Qed.
  Lemma pair_nb (m : lmap) s d r r' a : same_keys m ->
    dmem word_eqb s (lane_dict m) = true ->
    neighbours r' (fst (pair_lanes m s d (rel_name r))) a =
    neighbours r' m a ++ (if rel_eqb r' r && word_eqb a s then [d] else [])
      ++ (if rel_eqb r' (opposite r) && word_eqb a d && dmem word_eqb d (lane_dict m) then [s] else []).
  Proof.
    intros H Hs. rewrite pair_eq. assert (N := append_nb r s d r' a m).
    assert (K := append_ok r s d m). assert (Mm := append_mem r s d (opposite r) d m).
    destruct (append_to r s d m) as [m' ok] eqn:E. simpl in N, K, Mm.
    rewrite (H r), Hs in N, K. subst ok. rewrite andb_true_r in N. simpl.
    rewrite append_nb, N, Mm, (H (opposite r)).
    destruct (rel_eqb r' r && word_eqb a s); destruct (rel_eqb r' (opposite r) && word_eqb a d && dmem word_eqb d (lane_dict m));
      rewrite ?app_nil_r, <- ?app_assoc; reflexivity.
  Qed.

  Lemma new_keys ls : same_keys (new_map lid ls).
  Proof. apply (@add_lanes_keys ls (empty_map L)). intros r a. destruct r; reflexivity. Qed.
  Lemma after_keys m c : same_keys m -> same_keys (after lid m c).
  Proof. destruct c; simpl; [apply add_lanes_keys|apply pair_keys]. Qed.
  Lemma run_snoc init calls c : run lid init (calls ++ [c]) = after lid (run lid init calls) c.
  Proof. unfold run. rewrite fold_left_app. reflexivity. Qed.
  Lemma run_keys init calls : same_keys (run lid init calls).
  Proof.
    induction calls as [|c calls IH] using rev_ind; [apply new_keys|]. rewrite run_snoc. apply after_keys, IH.
  Qed.
  Lemma run_known init calls a : dmem word_eqb a (lane_dict (run lid init calls)) = true <-> added lid init calls a.
  Proof.
    induction calls as [|c calls IH] using rev_ind.
    - unfold run, added. simpl. unfold new_map. rewrite (add_lanes_known init (empty_map L) a). simpl. split.
      + intros [H|H]; [discriminate|left; exact H].
      + intros [H|[ls [l [[] _]]]]. right; exact H.
    - rewrite run_snoc. unfold added. destruct c as [ls|s d x]; simpl.
      + rewrite add_lanes_known, IH. unfold added. split.
        * intros [[H|[ls' [l [H1 H2]]]]|[l [H1 H2]]].
          -- left; exact H.
          -- right. exists ls', l. split; [apply in_or_app; left; exact H1|exact H2].
          -- right. exists ls, l. split; [apply in_or_app; right; left; reflexivity|auto].
        * intros [H|[ls' [l [H1 H2]]]]; [auto|]. apply in_app_or in H1. destruct H1 as [H1|[H1|[]]].
          -- left; right. exists ls', l. auto.
          -- inversion H1; subst ls'. right. exists l. exact H2.
      + rewrite pair_lanes_dict, IH. unfold added. split.
        * intros [H|[ls' [l [H1 H2]]]]; [auto|]. right. exists ls', l. split; [apply in_or_app; auto|exact H2].
        * intros [H|[ls' [l [H1 H2]]]]; [auto|]. apply in_app_or in H1. destruct H1 as [H1|[H1|[]]]; [|discriminate].
          right. exists ls', l. auto.
  Qed.

  Lemma orderly_prefix init calls c : orderly lid init (calls ++ [c]) -> orderly lid init calls.
  Proof.
    intros [H1 H2]. split.
    - intros pre ls post E. subst calls. apply (H1 pre ls (post ++ [c])). rewrite <- app_assoc. reflexivity.
    - intros pre s d x post E. subst calls. apply (H2 pre s d x (post ++ [c])). rewrite <- app_assoc. reflexivity.
  Qed.

  (** The lists are the sequence of names the history gives. *)
  Lemma run_lists init calls : orderly lid init calls ->
    forall r a, neighbours r (run lid init calls) a = flat_map (named_by r a) calls.
  Proof.
    induction calls as [|c calls IH] using rev_ind; intros O r a.
    - unfold run. simpl. unfold new_map. apply (add_lanes_nb_empty init r (empty_map L) a). destruct r; reflexivity.
    - specialize (IH (orderly_prefix _ _ O)). rewrite run_snoc, flat_map_app. simpl. rewrite app_nil_r.
      destruct O as [O1 O2]. destruct c as [ls|s d x]; simpl.
      + rewrite app_nil_r. rewrite <- IH.
        destruct (neighbours r (run lid init calls) a) as [|b nb] eqn:E.
        * apply add_lanes_nb_empty, E.
        * rewrite <- E. apply add_lanes_nb. intros l Hl Ea.
          (* a has neighbours, so some pairing names it *)
          assert (Hin : In b (flat_map (named_by r a) calls)) by (rewrite <- IH, E; left; reflexivity).
          apply in_flat_map in Hin. destruct Hin as [c [Hc Hb]].
          destruct c as [?|s d x]; simpl in Hb; [contradiction|].
          assert (K := O1 calls ls [] eq_refl l s d x Hl Hc).
          apply in_app_or in Hb. destruct Hb as [Hb|Hb].
          -- destruct (word_eqb x (rel_name r)); [|contradiction]. destruct (word_eqb a s) eqn:Es; [|contradiction].
             apply word_eqb_eq in Es. destruct K; congruence.
          -- destruct (word_eqb x (rel_name (opposite r))); [|contradiction]. destruct (word_eqb a d) eqn:Es; [|contradiction].
             apply word_eqb_eq in Es. destruct K; congruence.
      + destruct (O2 calls s d x [] eq_refl) as [Hs [Hd [r' ->]]].
        apply run_known in Hs. apply run_known in Hd.
        rewrite pair_nb by (try apply run_keys; exact Hs). rewrite Hd, andb_true_r, <- IH, !name_eqb. f_equal.
        f_equal.
        * replace (rel_eqb r' r) with (rel_eqb r r') by (destruct r, r'; reflexivity).
          destruct (rel_eqb r r'), (word_eqb a s); reflexivity.
        * replace (rel_eqb r' (opposite r)) with (rel_eqb r (opposite r')) by (destruct r, r'; reflexivity).
          destruct (rel_eqb r (opposite r')), (word_eqb a d); reflexivity.
  Qed.

  Lemma named_sym r a b c : count b (@named_by L r a c) = count a (named_by (opposite r) b c).
  Proof.
    destruct c as [ls|s d x]; simpl; [reflexivity|]. rewrite opp_opp, !count_app.
    destruct (word_eqb x (rel_name r)), (word_eqb x (rel_name (opposite r)));
      destruct (word_eqb a s) eqn:E1, (word_eqb b d) eqn:E2, (word_eqb a d) eqn:E3, (word_eqb b s) eqn:E4;
      simpl; rewrite ?E1, ?E2, ?E3, ?E4; reflexivity.
  Qed.

  Lemma named_sym_all r a b calls :
    count b (flat_map (@named_by L r a) calls) = count a (flat_map (named_by (opposite r) b) calls).
  Proof.
    induction calls as [|c calls IH]; simpl; [reflexivity|]. rewrite !count_app, IH, named_sym. reflexivity.
  Qed.

  Lemma forall_known init calls r :
    forallb (fun e => dmem word_eqb (fst e) (dict_of r (run lid init calls))) (lane_dict (run lid init calls)) = true.
  Proof.
    apply forallb_forall. intros [k v] Hin. simpl. rewrite (run_keys init calls r k). unfold dmem.
    destruct (dget word_eqb k (lane_dict (run lid init calls))) eqn:E; [reflexivity|].
    exfalso. apply (dget_None word_eqb word_eqb_eq) in E. apply E. apply (in_map fst) in Hin. exact Hin.
  Qed.
End P.

(** ** Lane names *)
Lemma digit_not_us c : is_digit c = true -> Ascii.eqb c "_" = false.
Proof.
  intros H. apply Ascii.eqb_neq. intros ->. discriminate.
Qed.
Lemma before_last_none s : Forall (fun c => is_digit c = true) s -> before_last "_" s = None.
Proof.
  induction 1 as [|c s H Hs IH]; simpl; [reflexivity|]. rewrite IH, (digit_not_us _ H). reflexivity.
Qed.
Lemma before_last_split p s : Forall (fun c => is_digit c = true) s ->
  before_last "_" (p ++ "_"%char :: s) = Some p.
Proof.
  intros H. induction p as [|c p IH]; simpl.
  - rewrite (before_last_none H). reflexivity.
  - rewrite IH. reflexivity.
Qed.
Lemma drop_all p s t : Forall (fun c => p c = true) s ->
  match t with c :: _ => p c = false | [] => True end -> drop_while p (s ++ t) = t.
Proof.
  intros H Ht. induction H as [|c s Hc Hs IH]; simpl.
  - destruct t as [|c t]; simpl; [reflexivity|]. rewrite Ht. reflexivity.
  - rewrite Hc. exact IH.
Qed.
Lemma plus_all p s t : s <> [] -> Forall (fun c => p c = true) s ->
  match t with c :: _ => p c = false | [] => True end -> plus p (s ++ t) = Some t.
Proof.
  intros N H Ht. destruct H as [|c s Hc Hs]; [congruence|]. simpl. rewrite Hc. f_equal. apply drop_all; assumption.
Qed.
