(** Proofs about the caches. *)
From Verif Require Import Base BaseFacts Dict Cache CacheSpec.
From Coq Require Import Qabs Lqa Permutation.
Set Implicit Arguments.
Open Scope nat_scope.

Lemma key_eqb_eq a b : key_eqb a b = true <-> a = b.
Proof. apply list_eqb_eq. apply Nat.eqb_eq. Qed.
Lemma key_eqb_refl a : key_eqb a a = true. Proof. apply key_eqb_eq. reflexivity. Qed.

Lemma Qle_bool_false x y : Qle_bool x y = false <-> (y < x)%Q.
Proof. split; intros H; [destruct (Qlt_le_dec y x) as [L|L]; [exact L|]; apply Qle_bool_iff in L; congruence|]. destruct (Qle_bool x y) eqn:E; [|reflexivity]. apply Qle_bool_iff in E. lra. Qed.
Lemma negb_le x y : negb (Qle_bool x y) = true <-> (y < x)%Q.
Proof. rewrite negb_true_iff. apply Qle_bool_false. Qed.
Lemma eps_pos : (0 < eps)%Q. Proof. reflexivity. Qed.

(** ** Entries of a key *)
Lemma insert_same k es (c : cache) : dget key_eqb k (insert k es c) = Some (match dget key_eqb k c with Some l => l ++ es | None => es end).
Proof. unfold insert. rewrite (dget_alter_same key_eqb key_eqb_eq). reflexivity. Qed.
Lemma insert_other k k' es (c : cache) : k <> k' -> dget key_eqb k (insert k' es c) = dget key_eqb k c.
Proof. intros N. unfold insert. apply (dget_alter_other key_eqb key_eqb_eq). congruence. Qed.

Definition at_key (k : key) (c : cache) : list entry := match dget key_eqb k c with Some l => l | None => [] end.
Lemma at_key_insert k k' es c : at_key k (insert k' es c) = at_key k c ++ (if key_eqb k k' then es else []).
Proof.
  unfold at_key. destruct (key_eqb k k') eqn:E.
  - apply key_eqb_eq in E. subst k'. rewrite insert_same. destruct (dget key_eqb k c); reflexivity.
  - rewrite insert_other; [rewrite app_nil_r; reflexivity|]. intros ->. rewrite key_eqb_refl in E. discriminate.
Qed.

(** ** Chains *)
Lemma chain_nil_or ivs a : fst (chain ivs a) = [] \/ exists b e rest, ivs = (b, e) :: rest /\ (b < e)%Q /\
  fst (chain ivs a) = [(b, e, match rest with [] => Leaf a | _ => Level (fst (chain rest a)) end)].
Proof.
  destruct ivs as [|[b e] rest]; [left; reflexivity|]. cbn [chain]. destruct (Qle_bool e b) eqn:L; [left; reflexivity|]. right. exists b, e, rest. split; [reflexivity|]. split; [apply Qle_bool_false; exact L|].
  destruct rest; [reflexivity|]. destruct (chain (p :: rest) a); reflexivity.
Qed.
Lemma chain_ok ivs a : snd (chain ivs a) = true <-> ivs <> [] /\ Forall (fun p => (fst p < snd p)%Q) ivs.
Proof.
  induction ivs as [|[b e] rest IH]; [split; [discriminate|intros [C _]; congruence]|]. cbn [chain]. destruct (Qle_bool e b) eqn:L.
  - split; [discriminate|]. intros [_ F]. inversion F; subst. apply Qle_bool_iff in L. cbn [fst snd] in *. lra.
  - apply Qle_bool_false in L. destruct rest as [|p rest].
    + split; [intros _; split; [discriminate|constructor; [exact L|constructor]]|intros _; reflexivity].
    + destruct (chain (p :: rest) a) as [sub ok] eqn:C. cbn [snd] in *. rewrite IH. split; [intros [_ F]; split; [discriminate|constructor; assumption]|]. intros [_ F]. inversion F; subst. split; [discriminate|assumption].
Qed.

Section Walk.
  Variable iter : list entry -> list entry.
  Hypothesis iter_perm : forall l, Permutation l (iter l).

  Lemma iter_In l e : In e (iter l) <-> In e l.
  Proof. split; intros H; [eapply Permutation_in; [apply Permutation_sym, iter_perm|exact H]|eapply Permutation_in; [apply iter_perm|exact H]]. Qed.
  Lemma iter_nil l : iter l = [] <-> l = [].
  Proof. split; intros H; [apply Permutation_nil; rewrite <- H; apply Permutation_sym, iter_perm|]. subst. apply Permutation_nil. apply iter_perm. Qed.
  Lemma iter_one e : iter [e] = [e].
  Proof. apply Permutation_length_1_inv. apply iter_perm. Qed.

  Lemma least_In q : forall es best, In (least q best es) (best :: es).
  Proof.
    induction es as [|e es IH]; intros best; [left; reflexivity|]. cbn [least]. destruct (IH (if Qle_bool (slack q best) (slack q e) then best else e)) as [E|E].
    - destruct (Qle_bool _ _); rewrite <- E; [left; reflexivity|right; left; reflexivity].
    - right. right. exact E.
  Qed.

  (** *** The descent *)
  Lemma descend_step p q es : (descend iter (p :: q) (Level es) = Miss /\ forall e, In e es -> accepts p e = false) \/
    exists e, In e es /\ accepts p e = true /\ descend iter (p :: q) (Level es) = descend iter q (snd e).
  Proof.
    cbn [descend]. destruct (iter (filter (accepts p) es)) as [|e es'] eqn:E.
    - left. split; [reflexivity|]. apply (proj1 (iter_nil _)) in E. intros e I. destruct (accepts p e) eqn:A; [|reflexivity]. assert (I' : In e (filter (accepts p) es)) by (apply filter_In; auto). rewrite E in I'. destruct I'.
    - right. exists (least p e es'). assert (I : In (least p e es') (filter (accepts p) es)) by (apply iter_In; rewrite E; apply least_In). apply filter_In in I. destruct I as [I A]. auto.
  Qed.

  Definition accepts_iv (q iv : Q * Q) : Prop := (fst iv <= fst q)%Q /\ (snd q <= snd iv)%Q.
  Lemma accepts_spec q b e t : accepts q (b, e, t) = true -> accepts_iv q (b, e).
  Proof. destruct q as [l h]. unfold accepts, accepts_iv. intros H. apply andb_prop in H. destruct H as [_ H]. apply andb_prop in H. destruct H as [A B]. apply Qle_bool_iff in A, B. cbn [fst snd]. auto. Qed.
  Lemma accepts_intro l h b e t : (l <= h)%Q -> (b <= l)%Q -> (h < e)%Q -> accepts (l, h) (b, e, t) = true.
  Proof.
    intros A B C. pose proof eps_pos. unfold accepts. rewrite !andb_true_iff, !negb_le, !Qle_bool_iff. repeat split; lra.
  Qed.

  Lemma descend_chain a : forall ivs q a', descend iter q (Level (fst (chain ivs a))) = Hit a' -> a' = a /\ Forall2 accepts_iv q ivs.
  Proof.
    induction ivs as [|[b e] rest IH]; intros q a' H.
    - destruct q; [discriminate|]. destruct (descend_step p q (fst (chain [] a))) as [[E _]|(e0 & [] & _)]. rewrite E in H. discriminate.
    - destruct q as [|p q]; [cbn in H; destruct (Qle_bool e b); [discriminate|]; destruct rest; [discriminate|]; destruct (chain (p :: rest) a); discriminate|].
      destruct (descend_step p q (fst (chain ((b, e) :: rest) a))) as [[E _]|(e0 & I & A & E)]; rewrite E in H; [discriminate|].
      destruct (chain_nil_or ((b, e) :: rest) a) as [N|(b' & e' & rest' & Eq & _ & N)]; rewrite N in I; [destruct I|]. injection Eq as <- <- <-. destruct I as [<-|[]]. cbn [snd] in H. apply accepts_spec in A.
      destruct rest as [|p' rest].
      + destruct q; [|discriminate]. injection H as <-. split; [reflexivity|]. constructor; [exact A|constructor].
      + destruct (IH q a' H) as [-> F]. split; [reflexivity|]. constructor; assumption.
  Qed.
  (** A descent through a single chain finds it if every interval is accepted. *)
  Lemma descend_chain_total a : forall ivs q, ivs <> [] -> Forall (fun p => (fst p < snd p)%Q) ivs ->
    Forall2 (fun q iv => (fst q <= snd q)%Q /\ (fst iv <= fst q)%Q /\ (snd q < snd iv)%Q) q ivs -> descend iter q (Level (fst (chain ivs a))) = Hit a.
  Proof.
    induction ivs as [|[b e] rest IH]; intros q N F A; [congruence|]. inversion A as [|[l h] ? q' ? [A1 [A2 A3]] A']; subst. cbn [fst snd] in *.
    destruct (chain_nil_or ((b, e) :: rest) a) as [E|(b' & e' & rest' & Eq & _ & E)].
    - cbn [chain] in E. inversion F; subst. cbn [fst snd] in *. assert (L : Qle_bool e b = false) by (apply Qle_bool_false; assumption). rewrite L in E. destruct rest; [discriminate|]. destruct (chain (p :: rest) a); discriminate.
    - injection Eq as <- <- <-. destruct (descend_step (l, h) q' (fst (chain ((b, e) :: rest) a))) as [[_ C]|(e0 & I & Ac & D)].
      + exfalso. rewrite E in C. specialize (C _ (or_introl eq_refl)). rewrite (accepts_intro _ A1 A2 A3) in C. discriminate.
      + rewrite D. rewrite E in I. destruct I as [<-|[]]. cbn [snd]. destruct rest as [|p rest]; [inversion A'; subst; reflexivity|]. apply IH; [discriminate|inversion F; assumption|exact A'].
  Qed.

  (** ** Tube cache *)
  Definition s_key (s : store) : key := s_agent s :: s_mode s.
  Definition s_entries (s : store) : list entry := fst (chain (tube_ivs (s_lo s) (s_hi s)) (s_addr s)).
  Lemma tube_history_snoc l s : tube_history (l ++ [s]) = insert (s_key s) (s_entries s) (tube_history l).
  Proof. unfold tube_history. rewrite fold_left_app. cbn [fold_left]. unfold tube_add, s_entries, s_key. destruct (chain _ _); reflexivity. Qed.
  Lemma tube_entries k : forall l, at_key k (tube_history l) = flat_map (fun s => if key_eqb k (s_key s) then s_entries s else []) l.
  Proof.
    induction l as [|s l IH] using rev_ind; [reflexivity|]. rewrite tube_history_snoc, at_key_insert, IH, flat_map_app. cbn [flat_map]. rewrite app_nil_r. reflexivity.
  Qed.
  Lemma tube_entry k l e : In e (at_key k (tube_history l)) -> exists s, In s l /\ s_key s = k /\ In e (s_entries s).
  Proof.
    rewrite tube_entries. intros I. apply in_flat_map in I. destruct I as (s & I & E). destruct (key_eqb k (s_key s)) eqn:K; [|destruct E]. apply key_eqb_eq in K. exists s. auto.
  Qed.
  Lemma tube_hit_eq c ag md lo hi : pairs lo hi <> [] -> tube_hit iter c ag md lo hi = descend iter (pairs lo hi) (Level (at_key (ag :: md) c)).
  Proof.
    intros N. unfold tube_hit, at_key. destruct (dget key_eqb (ag :: md) c); [reflexivity|]. destruct (pairs lo hi) as [|p q]; [congruence|].
    destruct (descend_step p q []) as [[E _]|(e & [] & _)]. symmetry. exact E.
  Qed.
  Lemma tube_ivs_eq lo hi : tube_ivs lo hi = pairs lo (widened hi).
  Proof. unfold tube_ivs, pairs, widened. revert hi. induction lo as [|l lo IH]; intros [|h hi]; [reflexivity|reflexivity|reflexivity|]. cbn. f_equal. apply IH. Qed.
  Lemma accepts_box : forall lo hi qlo qhi, length lo = length hi -> length qlo = length qhi -> Forall2 accepts_iv (pairs qlo qhi) (pairs lo (widened hi)) -> nearly_contains lo hi qlo qhi.
  Proof.
    unfold nearly_contains, pairs, widened. induction lo as [|l lo IH]; intros [|h hi] [|ql qlo] [|qh qhi] L1 L2 F; cbn in *; try discriminate; try solve [inversion F | exact I].
    inversion F as [|? ? ? ? [A B] F']; subst. cbn [fst snd] in A, B. split; [split; assumption|]. apply IH; (congruence || exact F').
  Qed.

  Lemma descend_no_vars c ag md lo hi a : pairs lo hi = [] -> tube_hit iter c ag md lo hi = Hit a -> False.
  Proof. intros P H. unfold tube_hit in H. rewrite P in H. destruct (dget _ _ _); discriminate. Qed.

  Lemma tube_hit_sound l ag md qlo qhi a : (forall s, In s l -> length (s_lo s) = length (s_hi s)) -> length qlo = length qhi ->
    tube_hit iter (tube_history l) ag md qlo qhi = Hit a ->
    exists s, In s l /\ s_agent s = ag /\ s_mode s = md /\ s_addr s = a /\ nearly_contains (s_lo s) (s_hi s) qlo qhi.
  Proof.
    intros WF WQ H. destruct (pairs qlo qhi) as [|p q] eqn:P; [destruct (descend_no_vars _ _ _ _ _ P H)|]. rewrite tube_hit_eq in H by congruence. rewrite P in H.
    destruct (descend_step p q (at_key (ag :: md) (tube_history l))) as [[E _]|(e & I & A & E)]; rewrite E in H; [discriminate|].
    destruct (tube_entry _ _ _ I) as (s & Is & K & Ie). injection K as K1 K2. exists s. split; [exact Is|]. split; [exact K1|]. split; [exact K2|].
    assert (D : descend iter (p :: q) (Level (s_entries s)) = Hit a).
    { unfold s_entries in *. destruct (chain_nil_or (tube_ivs (s_lo s) (s_hi s)) (s_addr s)) as [N|(b & en & rest & _ & _ & N)]; rewrite N in *; [destruct Ie|]. destruct Ie as [<-|[]].
      cbn [descend filter]. rewrite A, iter_one. exact H. }
    destruct (descend_chain _ _ _ D) as [-> F]. split; [reflexivity|]. apply accepts_box; [apply WF; exact Is|exact WQ|]. rewrite <- P in F. rewrite tube_ivs_eq in F. exact F.
  Qed.

  Lemma tube_hit_found l ag md qlo qhi s0 : proper qlo qhi -> (forall s, In s l -> proper (s_lo s) (s_hi s)) ->
    In s0 l -> s_agent s0 = ag -> s_mode s0 = md -> contains_box (s_lo s0) (s_hi s0) qlo qhi ->
    (forall s ql qh sl sh, In s l -> s_agent s = ag -> s_mode s = md -> hd_error qlo = Some ql -> hd_error qhi = Some qh -> hd_error (s_lo s) = Some sl -> hd_error (s_hi s) = Some sh ->
       (sl <= ql)%Q -> (qh <= sh + eps)%Q -> contains_box (s_lo s) (s_hi s) qlo qhi) ->
    exists s, In s l /\ s_agent s = ag /\ s_mode s = md /\ tube_hit iter (tube_history l) ag md qlo qhi = Hit (s_addr s) /\ contains_box (s_lo s) (s_hi s) qlo qhi.
  Proof.
    intros [Nq Fq] Pr I0 A0 M0 C0 Only.
    destruct Fq as [|ql qh qlo qhi Hq Fq]; [congruence|]. set (P := pairs (ql :: qlo) (qh :: qhi)).
    assert (Tot : forall s, proper (s_lo s) (s_hi s) -> contains_box (s_lo s) (s_hi s) (ql :: qlo) (qh :: qhi) -> descend iter P (Level (s_entries s)) = Hit (s_addr s)).
    { intros s [N F] C. unfold s_entries. rewrite tube_ivs_eq. apply descend_chain_total.
      - destruct F; [congruence|discriminate].
      - clear -F. unfold pairs, widened. induction F as [|x y lo hi H F IH]; [constructor|]. cbn. constructor; [cbn; pose proof eps_pos; unfold eps in *; lra|exact IH].
      - unfold P. assert (Fq' : Forall2 Qle (ql :: qlo) (qh :: qhi)) by (constructor; assumption). unfold contains_box in C.
        assert (G : forall qlo qhi, Forall2 Qle qlo qhi -> forall lo hi, box_le qlo qhi lo hi -> Forall2 (fun q iv => (fst q <= snd q)%Q /\ (fst iv <= fst q)%Q /\ (snd q < snd iv)%Q) (pairs qlo qhi) (pairs lo (widened hi))).
        { clear. induction 1 as [|x y qlo qhi H F IH]; intros [|l lo] [|h hi] B; cbn in B; try tauto; [constructor|]. cbn. constructor; [cbn; destruct B as [[B1 B2] _]; pose proof eps_pos; unfold eps in *; repeat split; lra|apply IH; tauto]. }
        apply G; assumption. }
    assert (Ne : P <> []) by discriminate. rewrite tube_hit_eq by exact Ne. unfold P in *. cbn [pairs combine] in *.
    destruct (descend_step (ql, qh) (combine qlo qhi) (at_key (ag :: md) (tube_history l))) as [[_ Cn]|(e & I & A & E)].
    - exfalso. pose proof (Tot s0 (Pr s0 I0) C0) as D. destruct (descend_step (ql, qh) (combine qlo qhi) (s_entries s0)) as [[E _]|(e & Ie & Ae & _)]; [rewrite E in D; discriminate|].
      rewrite Cn in Ae; [discriminate|]. rewrite tube_entries. apply in_flat_map. exists s0. split; [exact I0|]. unfold s_key. rewrite A0, M0, key_eqb_refl. exact Ie.
    - destruct (tube_entry _ _ _ I) as (s & Is & K & Ie). injection K as K1 K2. exists s. split; [exact Is|]. split; [exact K1|]. split; [exact K2|].
      assert (C : contains_box (s_lo s) (s_hi s) (ql :: qlo) (qh :: qhi)).
      { unfold s_entries in Ie. destruct (Pr s Is) as [Ns Fs]. destruct (s_lo s) as [|sl lo] eqn:L; [congruence|]. destruct (s_hi s) as [|sh hi] eqn:Hh; [inversion Fs|].
        destruct (chain_nil_or (tube_ivs (sl :: lo) (sh :: hi)) (s_addr s)) as [N|(b & en & rest & Eq & _ & N)]; rewrite N in Ie; [destruct Ie|]. destruct Ie as [<-|[]]. cbn in Eq. injection Eq as <- <- _. apply accepts_spec in A. destruct A as [A B]. cbn [fst snd] in A, B.
        rewrite <- L, <- Hh. apply (Only s ql qh sl sh); try assumption; try reflexivity; [rewrite L; reflexivity|rewrite Hh; reflexivity]. }
      split; [|exact C]. rewrite E. rewrite <- (Tot s (Pr s Is) C). unfold s_entries in *. destruct (chain_nil_or (tube_ivs (s_lo s) (s_hi s)) (s_addr s)) as [N|(b & en & rest & _ & _ & N)]; rewrite N in *; [destruct Ie|]. destruct Ie as [<-|[]].
      cbn [descend filter]. rewrite A, iter_one. reflexivity.
  Qed.
End Walk.
