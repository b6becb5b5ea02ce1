(** Proofs for StarGuardProps.v. *)
From Coq Require Import Ascii String Lqa.
From Verif Require Import Base BaseFacts Dict PyText ResetProofs Guard GuardSpec GuardProofs Sensor Star StarSpec StarProofs StarReset StarResetSpec StarResetProofs StarGuard StarGuardSpec.
Set Implicit Arguments.
Open Scope nat_scope.

(** ** Names *)
Lemma last_split (c : ascii) a a' d d' : ~ In c d -> ~ In c d' -> a ++ c :: d = a' ++ c :: d' -> a = a' /\ d = d'.
Proof.
  revert a'. induction a as [|x a IH]; intros [|y a'] Hd Hd' E; cbn in E.
  - injection E as ->. auto.
  - injection E as -> ->. exfalso. apply Hd. apply in_app_iff. right. left. reflexivity.
  - injection E as -> <-. exfalso. apply Hd'. apply in_app_iff. right. left. reflexivity.
  - injection E as -> E. destruct (IH a' Hd Hd' E) as [-> ->]. auto.
Qed.
Lemma dec_nounder n : ~ In "_"%char (dec n).
Proof.
  unfold dec. induction (Nat.to_uint n); cbn; try tauto; intros [H|H]; try discriminate; auto.
Qed.
Lemma alpha_split a j : alpha_name a j = (a ++ w "_alpha") ++ "_"%char :: dec (S j).
Proof. unfold alpha_name. rewrite <- app_assoc. reflexivity. Qed.
Lemma alpha_inj a j a' j' : alpha_name a j = alpha_name a' j' -> a = a' /\ j = j'.
Proof.
  rewrite !alpha_split. intros E. apply last_split in E; try apply dec_nounder. destruct E as [E1 E2]. apply app_inv_tail in E1. apply dec_inj in E2. split; [exact E1|lia].
Qed.

(** ** The constraints of one star *)
Lemma add_constraints_ok s names agent l m : wf_star s -> dim s = length names -> add_constraints s names agent = Some l ->
  let al := map m (map (alpha_name agent) (seq 0 (gens s))) in
  (Forall (lin_holds m) l <-> obeys (C s) (g s) al /\ point_of s al (map m names)).
Proof.
  intros (W1 & W2 & W3) Hd H al. unfold add_constraints in H. fold (dim s) in H.
  destruct (mapM _ (seq 0 (dim s))) as [eqs|] eqn:E1; [|discriminate]. cbn [obind] in H.
  destruct (mapM _ (seq 0 (length (C s)))) as [les|] eqn:E2; [|discriminate]. injection H as <-.
  rewrite Forall_app. apply mapM_Forall2 in E1, E2.
  assert (A : Forall (lin_holds m) eqs <-> point_of s al (map m names)).
  { unfold point_of. rewrite map_length. split.
    - intros F. split; [symmetry; exact Hd|]. intros j Hj.
      assert (Hs : nth_error (seq 0 (dim s)) j = Some j). { rewrite (nth_error_nth' _ 0) by (rewrite seq_length; exact Hj). rewrite seq_nth by exact Hj. reflexivity. }
      destruct (Forall2_nth_l _ E1 Hs) as (lj & Hl & Ej). destruct (nth_error names j) as [y|] eqn:Ey; [|discriminate]. destruct (nth_error (center s) j) as [c|] eqn:Ec; [|discriminate].
      cbn [obind] in Ej. injection Ej as <-. pose proof (proj1 (Forall_forall _ _) F _ (nth_error_In _ _ Hl)) as L. cbn [lin_holds] in L.
      fold al in L. rewrite (nth_indep _ 0%Q (m [])) by (rewrite map_length; lia). rewrite map_nth. rewrite (nth_error_nth _ _ [] Ey). rewrite (nth_error_nth _ _ 0%Q Ec).
      rewrite inner_comm. unfold column in L. symmetry. exact L.
    - intros (_ & Hp). apply Forall_forall. intros l Hl. apply In_nth_error in Hl. destruct Hl as (j & Hl). destruct (Forall2_nth_r _ E1 Hl) as (j' & Hs & Ej).
      assert (Hj : j < dim s). { assert (nth_error (seq 0 (dim s)) j <> None) as K by congruence. apply nth_error_Some in K. rewrite seq_length in K. exact K. }
      rewrite (nth_error_nth' _ 0) in Hs by (rewrite seq_length; exact Hj). rewrite seq_nth in Hs by exact Hj. injection Hs as <-.
      cbn [plus] in Ej. destruct (nth_error names j) as [y|] eqn:Ey; [|discriminate]. destruct (nth_error (center s) j) as [c|] eqn:Ec; [|discriminate].
      cbn [obind] in Ej. injection Ej as <-. cbn [lin_holds]. fold al. specialize (Hp j Hj).
      rewrite (nth_indep _ 0%Q (m [])) in Hp by (rewrite map_length; lia). rewrite map_nth in Hp. rewrite (nth_error_nth _ _ [] Ey), (nth_error_nth _ _ 0%Q Ec) in Hp.
      rewrite inner_comm in Hp. unfold column. symmetry. exact Hp. }
  assert (B : Forall (lin_holds m) les <-> obeys (C s) (g s) al).
  { unfold obeys. rewrite (Forall2_nth_iff _ _ _ [] 0%Q). split.
    - intros F. split; [symmetry; exact W3|]. intros i Hi.
      assert (Hs : nth_error (seq 0 (length (C s))) i = Some i). { rewrite (nth_error_nth' _ 0) by (rewrite seq_length; exact Hi). rewrite seq_nth by exact Hi. reflexivity. }
      destruct (Forall2_nth_l _ E2 Hs) as (li & Hl & Ei). destruct (nth_error (C s) i) as [row|] eqn:Er; [|discriminate]. destruct (nth_error (g s) i) as [b|] eqn:Eb; [|discriminate].
      cbn [obind] in Ei. destruct (gens s <=? length row) eqn:El; [|discriminate]. injection Ei as <-. pose proof (proj1 (Forall_forall _ _) F _ (nth_error_In _ _ Hl)) as L. cbn [lin_holds] in L.
      fold al in L. rewrite (nth_error_nth _ _ [] Er), (nth_error_nth _ _ 0%Q Eb). rewrite firstn_all2 in L; [exact L|]. rewrite (W2 row (nth_error_In _ _ Er)). lia.
    - intros (_ & Hp). apply Forall_forall. intros l Hl. apply In_nth_error in Hl. destruct Hl as (i & Hl). destruct (Forall2_nth_r _ E2 Hl) as (i' & Hs & Ei).
      assert (Hi : i < length (C s)). { assert (nth_error (seq 0 (length (C s))) i <> None) as K by congruence. apply nth_error_Some in K. rewrite seq_length in K. exact K. }
      rewrite (nth_error_nth' _ 0) in Hs by (rewrite seq_length; exact Hi). rewrite seq_nth in Hs by exact Hi. injection Hs as <-.
      cbn [plus] in Ei. destruct (nth_error (C s) i) as [row|] eqn:Er; [|discriminate]. destruct (nth_error (g s) i) as [b|] eqn:Eb; [|discriminate].
      cbn [obind] in Ei. destruct (gens s <=? length row) eqn:El; [|discriminate]. injection Ei as <-. cbn [lin_holds]. fold al. specialize (Hp i Hi).
      rewrite (nth_error_nth _ _ [] Er), (nth_error_nth _ _ 0%Q Eb) in Hp. rewrite firstn_all2; [exact Hp|]. rewrite (W2 row (nth_error_In _ _ Er)). lia. }
  tauto.
Qed.

Lemma dmem_key {V} k (d : dict word V) : dmem word_eqb k d = true <-> In k (map fst d).
Proof.
  unfold dmem. destruct (dget word_eqb k d) as [v|] eqn:E.
  - split; [intros _|reflexivity]. apply dget_In in E; [|exact word_eqb_eq]. apply in_map_iff. exists (k, v). auto.
  - apply dget_None in E; [|exact word_eqb_eq]. split; [discriminate|contradiction].
Qed.
Lemma dset_new {V} k (v : V) d : ~ In k (map fst d) -> dset word_eqb k v d = d ++ [(k, v)].
Proof.
  intros H. unfold dset. induction d as [|[k' v'] d IH]; cbn; [reflexivity|]. cbn in H.
  destruct (word_eqb k k') eqn:E; [apply word_eqb_eq in E; subst; tauto|]. f_equal. apply IH. tauto.
Qed.
(** ** The agents whose constraints are added *)
Definition in_parts (P : list part) (s : word -> Q) : Prop := forall p, In p P -> in_star (p_star p) (map s (p_names p)).

Lemma agent_states_inv (cd : sdict) ks : forall (d st : sdict), fold_opt (fun (d : sdict) k => if dmem word_eqb (before_dot k) d then Some d
                       else do v <- dget word_eqb k cd; Some (dset word_eqb (before_dot k) v d)) ks d = Some st ->
  (forall a v, In (a, v) st -> In (a, v) d \/ exists k, In k ks /\ before_dot k = a /\ dget word_eqb k cd = Some v) /\
  (forall a, In a (map fst d) -> In a (map fst st)) /\
  (forall k, In k ks -> In (before_dot k) (map fst st)).
Proof.
  induction ks as [|k ks IH]; intros d st H; cbn [fold_opt] in H.
  - injection H as <-. split; [auto|]. split; [auto|]. contradiction.
  - destruct (dmem word_eqb (before_dot k) d) eqn:Em; cbn [obind] in H.
    + destruct (IH _ _ H) as (A & B & Cc). split; [intros a v Hav; destruct (A a v Hav) as [X|(k' & X & Y)]; [auto|right; exists k'; cbn; auto]|].
      split; [exact B|]. intros k' [<-|Hk']; [|auto]. apply B. apply dmem_key. exact Em.
    + destruct (dget word_eqb k cd) as [v|] eqn:Ev; [|discriminate]. cbn [obind] in H.
      assert (Hn : ~ In (before_dot k) (map fst d)). { intros X. apply dmem_key in X. congruence. }
      rewrite (@dset_new _ _ v _ Hn) in H.
      destruct (IH _ _ H) as (A & B & Cc). split.
      * intros a v' Hav. destruct (A a v' Hav) as [X|(k' & X & Y)]; [|right; exists k'; cbn; auto]. apply in_app_iff in X. destruct X as [X|[X|[]]]; [auto|]. injection X as <- <-. right. exists k. cbn. auto.
      * split; [intros a Ha; apply B; rewrite map_app, in_app_iff; auto|].
        intros k' [<-|Hk']; [|auto]. apply B. rewrite map_app, in_app_iff. cbn. auto.
Qed.

(** Without lane coordinates the bounds do not matter to the hybrid step. *)
Lemma hyb_cd_any {num} dd phys (cs : bool -> word -> num * num -> num * num -> option (num * num)) e : lane_free e = true ->
  forall cd cd', hyb dd phys cs cd' e = option_map (fun r => (fst r, cd')) (hyb dd phys cs cd e).
Proof.
  induction e using gex_ind'; intros Hf cd cd'; try reflexivity; try discriminate; cbn [lane_free] in Hf.
  - cbn [hyb]. rewrite (IHe Hf cd cd'). destruct (hyb dd phys cs cd e) as [[[[v o] n] c]|]; reflexivity.
  - cbn [hyb]. rewrite (IHe Hf cd cd'). destruct (hyb dd phys cs cd e) as [[[[v o] n] c]|]; cbn; [|reflexivity]. destruct (truthy v); reflexivity.
  - apply andb_true_iff in Hf. destruct Hf as [F1 F2]. cbn [hyb]. rewrite (IHe1 F1 cd cd'). destruct (hyb dd phys cs cd e1) as [[[[v o'] n] c]|]; cbn; [|reflexivity].
    rewrite (IHe2 F2 c cd'). destruct (hyb dd phys cs c e2) as [[[[v2 o2] n2] c2]|]; reflexivity.
  - apply andb_true_iff in Hf. destruct Hf as [F1 F2]. cbn [hyb]. rewrite (IHe1 F1 cd cd'). destruct (hyb dd phys cs cd e1) as [[[[v o'] n] c]|]; cbn; [|reflexivity].
    rewrite (IHe2 F2 c cd'). destruct (hyb dd phys cs c e2) as [[[[v2 o2] n2] c2]|]; reflexivity.
  - assert (A : forall v cd cd', hyb_and (hyb dd phys cs) cd' v es = option_map (fun r => (fst r, cd')) (hyb_and (hyb dd phys cs) cd v es) /\
                                 hyb_or (hyb dd phys cs) cd' v es = option_map (fun r => (fst r, cd')) (hyb_or (hyb dd phys cs) cd v es)).
    { clear cd cd'. induction H as [|e es He _ IH]; intros v cd cd'; [split; reflexivity|]. cbn [forallb] in Hf. apply andb_true_iff in Hf. destruct Hf as [F1 F2].
      rewrite !hyb_and_cons, !hyb_or_cons. rewrite (He F1 cd cd'). destruct (hyb dd phys cs cd e) as [[[[v1 o1] n1] c1]|]; cbn [obind option_map]; [|split; reflexivity].
      unfold hr_val, hr_old, hr_new, hr_cd. cbn [fst snd].
      destruct (IH F2 (if truthy v then v1 else v) c1 cd') as [-> _]. destruct (IH F2 (if truthy v then v else v1) c1 cd') as [_ ->].
      destruct (hyb_and (hyb dd phys cs) c1 _ es) as [[[? ?] ?]|], (hyb_or (hyb dd phys cs) c1 _ es) as [[[? ?] ?]|]; cbn; destruct (truthy (if truthy v then v1 else v)); split; reflexivity. }
    destruct b; [destruct (A (DB true) cd cd') as [E _]|destruct (A (DB false) cd cd') as [_ E]]; cbn [hyb]; rewrite E;
      [destruct (hyb_and (hyb dd phys cs) cd _ es) as [[[? ?] ?]|]|destruct (hyb_or (hyb dd phys cs) cd _ es) as [[[? ?] ?]|]]; reflexivity.
Qed.

Section Core.
  Variable of_q : Q -> Q.
  Variable n_neg : Q -> Q.
  Variable n_bin : binop -> Q -> Q -> Q.
  Variable n_cmp : cmpop -> Q -> Q -> bool.
  Hypothesis agree : numbers_agree of_q n_neg n_cmp.
  Variable call : word -> list dval -> option dval.
  Variable coord : bool -> word -> Q -> Q -> option Q.
  Variable phys : word -> word.
  Variable dd : dict word word.
  Variable cd : sdict.
  Variable solve : list word -> form -> list lin -> verdict.
  Variable P : list part.
  Notation ks := (map fst cd).
  Notation geval := (geval of_q n_neg n_bin n_cmp call coord phys).

  Hypothesis K0 : NoDup ks.
  Hypothesis K1 : forall k S, In (k, One S) cd -> exists p, In p P /\ In k (p_names p) /\ S = p_star p.
  Hypothesis K1' : forall k l, In (k, Many l) cd -> ~ In (before_dot k) (map p_agent P).
  Hypothesis K2 : forall p k, In p P -> In k (p_names p) -> before_dot k = p_agent p.
  Hypothesis K3 : forall p, In p P -> state_names cd (p_agent p) = Some (map under (p_names p)).
  Hypothesis K4 : NoDup (map p_agent P).
  Hypothesis K5 : forall p, In p P -> wf_star (p_star p) /\ dim (p_star p) = length (p_names p).
  Notation L := (flat_map p_names P).
  Hypothesis K6 : forall a b, In a L -> In b L -> under a = under b -> a = b.
  Hypothesis K6k : forall k, In k ks -> few_dots k /\ k <> [].
  Hypothesis K6d : forall k, In k (map fst dd) -> dotted k.
  Hypothesis K6x : forall k t, In k ks -> In t (map fst dd) -> under k <> under t.
  Hypothesis K7 : forall p j, In p P -> ~ In (alpha_name (p_agent p) j) (map under L).

  Lemma same_agent p q : In p P -> In q P -> p_agent p = p_agent q -> p = q.
  Proof.
    revert K4. generalize P as l. clear. induction l as [|x l IH]; [contradiction|]. cbn. intros N Hp Hq E. inversion N as [|? ? Nx N']; subst.
    destruct Hp as [->|Hp], Hq as [->|Hq]; auto; exfalso; apply Nx; apply in_map_iff; eauto.
  Qed.

  Definition constrains (Ps : list part) (ls : list lin) : Prop :=
    exists lss, ls = concat lss /\ Forall2 (fun p l => add_constraints (p_star p) (map under (p_names p)) (p_agent p) = Some l) Ps lss.

  Lemma lins_parts f ls : star_lins cd f = Some ls -> exists Ps, incl Ps P /\ constrains Ps ls /\
    forall k, In k (star_symbols cd f) -> exists p, In p Ps /\ In k (p_names p).
  Proof.
    intros H. unfold star_lins in H. destruct (agent_states cd (star_symbols cd f)) as [st|] eqn:Es; [|discriminate]. cbn [obind] in H.
    destruct (mapM _ st) as [nm|] eqn:En; [|discriminate]. cbn [obind] in H. destruct (mapM _ (combine st nm)) as [lss|] eqn:El; [|discriminate]. injection H as <-.
    apply mapM_Forall2 in En, El. unfold agent_states in Es. destruct (agent_states_inv _ _ _ Es) as (A & _ & B).
    assert (X : forall a v, In (a, v) st -> exists k, In k ks /\ before_dot k = a /\ dget word_eqb k cd = Some v).
    { intros a v Hav. destruct (A a v Hav) as [[]|(k & Hk & E1 & E2)]. exists k. split; [|auto]. apply filter_In in Hk. tauto. }
    assert (Y : exists Ps, incl Ps P /\ Forall2 (fun av p => fst av = p_agent p) st Ps /\ Forall2 (fun p l => add_constraints (p_star p) (map under (p_names p)) (p_agent p) = Some l) Ps lss).
    { clear A B Es. revert nm lss En El X. induction st as [|[a v] st IH]; intros nm lss En El X.
      - inversion En; subst. cbn in El. inversion El; subst. exists []. split; [intros ? []|]. split; constructor.
      - inversion En as [|? n0 ? nm' E1 F1]; subst. cbn [combine] in El. inversion El as [|? l0 ? lss' E2 F2]; subst. cbn [fst snd] in E1, E2.
        destruct (IH _ _ F1 F2) as (Ps & I1 & I2 & I3); [intros; apply X; right; assumption|].
        destruct (X a v (or_introl eq_refl)) as (k & Hk & Ea & Ev). destruct v as [S|lst]; [|discriminate].
        apply dget_In in Ev; [|exact word_eqb_eq]. destruct (K1 _ _ Ev) as (p & Hp & Hkp & ->). exists (p :: Ps).
        pose proof (K2 p k Hp Hkp) as Ek. rewrite Ek in Ea. subst a. rewrite (K3 p Hp) in E1. injection E1 as <-.
        split; [intros q [<-|Hq]; [exact Hp|exact (I1 q Hq)]|]. split; constructor; auto. }
    destruct Y as (Ps & I1 & I2 & I3). exists Ps. split; [exact I1|]. split; [exists lss; auto|].
    intros k Hk. pose proof (B k Hk) as Hb. apply in_map_iff in Hb. destruct Hb as ((a & v) & Ea & Hav). cbn in Ea. subst a.
    apply In_nth_error in Hav. destruct Hav as (i & Hi). destruct (Forall2_nth_l _ I2 Hi) as (p & Hp & Eb). cbn in Eb. apply nth_error_In in Hp.
    exists p. split; [exact Hp|]. apply filter_In in Hk. destruct Hk as [Hk _]. apply in_map_iff in Hk. destruct Hk as ((k' & u) & Ek & Hk). cbn in Ek. subst k'.
    destruct u as [S|lst].
    - destruct (K1 _ _ Hk) as (q & Hq & Hkq & _). rewrite (K2 q k Hq Hkq) in Eb. rewrite <- (same_agent q p Hq (I1 p Hp) Eb). exact Hkq.
    - exfalso. apply (K1' _ _ Hk). rewrite Eb. apply in_map. exact (I1 p Hp).
  Qed.

  Definition alphas (m : word -> Q) (p : part) : vec := map m (map (alpha_name (p_agent p)) (seq 0 (gens (p_star p)))).
  Lemma constrains_ok Ps ls m : incl Ps P -> constrains Ps ls ->
    (Forall (lin_holds m) ls <-> forall p, In p Ps -> obeys (C (p_star p)) (g (p_star p)) (alphas m p) /\ point_of (p_star p) (alphas m p) (map m (map under (p_names p)))).
  Proof.
    intros I (lss & -> & F). induction F as [|p l Ps lss Hl F IH].
    - cbn. split; [intros _ ? []|constructor].
    - cbn [concat]. rewrite Forall_app. destruct (K5 p (I p (or_introl eq_refl))) as [W D].
      rewrite (@add_constraints_ok (p_star p) _ _ _ m W (eq_trans D (eq_sym (map_length _ _))) Hl). rewrite IH by (intros q Hq; apply I; right; exact Hq).
      split.
      + intros [H1 H2] q [<-|Hq]; [exact H1|exact (H2 q Hq)].
      + intros H. split; [apply (H p); left; reflexivity|intros q Hq; apply H; right; exact Hq].
  Qed.

  Lemma pick (Qp : part -> vec -> Prop) (l : list part) : NoDup (map p_agent l) -> (forall p, In p l -> exists a, Qp p a) ->
    exists F : word -> vec, forall p, In p l -> Qp p (F (p_agent p)).
  Proof.
    induction l as [|p l IH]; intros N H; [exists (fun _ => []); contradiction|]. cbn in N. inversion N as [|? ? Nx N']; subst.
    destruct (IH N' (fun q Hq => H q (or_intror Hq))) as (F & HF). destruct (H p (or_introl eq_refl)) as (a & Ha).
    exists (fun x => if word_eqb x (p_agent p) then a else F x). intros q [<-|Hq]; [rewrite word_eqb_same; exact Ha|].
    destruct (word_eqb (p_agent q) (p_agent p)) eqn:E; [|exact (HF q Hq)]. apply word_eqb_eq in E. exfalso. apply Nx. rewrite <- E. apply in_map. exact Hq.
  Qed.

  (** From a state to values of the solver's variables, and back. *)
  Lemma to_solver s : in_parts P s -> exists m, (forall k, In k L -> m (under k) = s k) /\
    forall Ps ls, incl Ps P -> constrains Ps ls -> Forall (lin_holds m) ls.
  Proof.
    intros Hs. destruct (pick (fun p a => length a = gens (p_star p) /\ obeys (C (p_star p)) (g (p_star p)) a /\ point_of (p_star p) a (map s (p_names p))) P K4 Hs) as (F & HF).
    set (pairs := flat_map (fun p => map (fun j => (p_agent p, j)) (seq 0 (gens (p_star p)))) P).
    set (m := fun t => match find (fun k => word_eqb (under k) t) L with
                       | Some k => s k
                       | None => match find (fun aj => word_eqb (alpha_name (fst aj) (snd aj)) t) pairs with Some aj => nth (snd aj) (F (fst aj)) 0%Q | None => 0%Q end
                       end).
    assert (M1 : forall k, In k L -> m (under k) = s k).
    { intros k Hk. unfold m. destruct (find (fun z => word_eqb (under z) (under k)) L) as [k'|] eqn:Ef.
      - apply find_some in Ef. destruct Ef as [Hk' E]. apply word_eqb_eq in E. rewrite (K6 k' k Hk' Hk E). reflexivity.
      - apply find_none with (x := k) in Ef; [|exact Hk]. rewrite word_eqb_same in Ef. discriminate. }
    assert (M2 : forall p, In p P -> alphas m p = F (p_agent p)).
    { intros p Hp. destruct (HF p Hp) as (Hl & _). unfold alphas. rewrite map_map. rewrite <- (map_nth_seq (F (p_agent p)) 0%Q), Hl. apply map_ext_in. intros j Hj.
      unfold m. destruct (find _ L) as [k|] eqn:Ef.
      - apply find_some in Ef. destruct Ef as [Hk E]. apply word_eqb_eq in E. exfalso. apply (K7 p j Hp). rewrite <- E. apply in_map. exact Hk.
      - destruct (find (fun aj => word_eqb (alpha_name (fst aj) (snd aj)) (alpha_name (p_agent p) j)) pairs) as [[a j']|] eqn:Eg.
        + apply find_some in Eg. destruct Eg as [_ E]. apply word_eqb_eq, alpha_inj in E. cbn in E |- *. destruct E as [-> ->]. reflexivity.
        + apply find_none with (x := (p_agent p, j)) in Eg; [cbn [fst snd] in Eg; rewrite word_eqb_same in Eg; discriminate|].
          unfold pairs. apply in_flat_map. exists p. split; [exact Hp|]. apply in_map_iff. exists j. auto. }
    exists m. split; [exact M1|]. intros Ps ls I Hc. apply (@constrains_ok Ps ls m I Hc). intros p Hp. rewrite (M2 p (I p Hp)). destruct (HF p (I p Hp)) as (_ & H1 & H2). split; [exact H1|].
    rewrite map_map. replace (map (fun x => m (under x)) (p_names p)) with (map s (p_names p)); [exact H2|]. apply map_ext_in. intros k Hk. symmetry. apply M1. apply in_flat_map. exists p. split; [exact (I p Hp)|exact Hk].
  Qed.
  Lemma from_solver Ps ls m s0 : in_parts P s0 -> incl Ps P -> constrains Ps ls -> Forall (lin_holds m) ls ->
    exists s, in_parts P s /\ forall p k, In p Ps -> In k (p_names p) -> m (under k) = s k.
  Proof.
    intros H0 I Hc Hm. rewrite (@constrains_ok Ps ls m I Hc) in Hm.
    set (s := fun k => if existsb (word_eqb (before_dot k)) (map p_agent Ps) then m (under k) else s0 k). exists s.
    assert (E : forall p k, In p P -> In k (p_names p) -> s k = if existsb (word_eqb (p_agent p)) (map p_agent Ps) then m (under k) else s0 k).
    { intros p k Hp Hk. unfold s. rewrite (K2 p k Hp Hk). reflexivity. }
    split.
    - intros p Hp. destruct (existsb (word_eqb (p_agent p)) (map p_agent Ps)) eqn:Ex.
      + apply existsb_word in Ex. apply in_map_iff in Ex. destruct Ex as (q & Eq & Hq). rewrite <- (same_agent q p (I q Hq) Hp Eq) in *. destruct (Hm q Hq) as [H1 H2].
        exists (alphas m q). split; [unfold alphas; rewrite !map_length, seq_length; reflexivity|]. split; [exact H1|].
        replace (map s (p_names q)) with (map m (map under (p_names q))); [exact H2|]. rewrite map_map. apply map_ext_in. intros k Hk. rewrite (E q k (I q Hq) Hk).
        replace (existsb (word_eqb (p_agent q)) (map p_agent Ps)) with true; [reflexivity|]. symmetry. apply existsb_word. apply in_map. exact Hq.
      + replace (map s (p_names p)) with (map s0 (p_names p)); [exact (H0 p Hp)|]. apply map_ext_in. intros k Hk. rewrite (E p k Hp Hk), Ex. reflexivity.
    - intros p k Hp Hk. rewrite (E p k (I p Hp) Hk). replace (existsb (word_eqb (p_agent p)) (map p_agent Ps)) with true; [reflexivity|]. symmetry. apply existsb_word. apply in_map. exact Hp.
  Qed.

  Lemma k_nonempty : ~ In [] ks.
  Proof. intros H. apply K6k in H. destruct H as [_ H]. congruence. Qed.
  Lemma k_rename k : In k ks -> rename ks k = under k.
  Proof. intros H. apply rename_key; [exact k_nonempty|exact (proj1 (K6k _ H))|exact H]. Qed.
  Lemma k_dd t v : dget word_eqb t dd = Some v -> ~ In (rename ks t) (map under ks).
  Proof.
    intros Ht Hin. assert (Hd : In t (map fst dd)). { apply dget_In in Ht; [|exact word_eqb_eq]. apply in_map_iff. exists (t, v). auto. }
    apply in_map_iff in Hin. destruct Hin as (k & Ek & Hk). destruct (@rename_few ks t k_nonempty (or_introl (K6d _ Hd))) as [E|E]; rewrite E in Ek.
    - apply K6d, dotted_dot in Hd. rewrite <- Ek in Hd. exact (under_no_dot k Hd).
    - exact (K6x _ _ Hk Hd Ek).
  Qed.

  (** The check up to the solver's formula. *)
  Lemma run g r : (forall k, In k ks -> dotted k) -> lane_free g = true -> star_check call dd phys solve cd g = Some r ->
    (r = (false, false) /\ forall s b, geval (flat dd ks s) g = Some (VB Q b) -> b = false) \/
    exists e, star_cont solve cd e = Some r /\ forall s b, geval (flat dd ks s) g = Some (VB Q b) -> geval (flat dd ks s) e = Some (VB Q b).
  Proof.
    intros Kd Hf H. unfold star_check in H. destruct (disc call dd g) as [p|] eqn:Ep; [|discriminate]. cbn [obind] in H.
    assert (A : forall s b, geval (flat dd ks s) g = Some (VB Q b) -> geval (flat dd ks s) (snd p) = Some (VB Q b) /\ (truthy (fst p) = false -> b = false)).
    { intros s b He.
      assert (D1 : forall r v, dlook dd r = Some v -> look (flat dd ks s) r = Some (VS Q v)) by (intros r0 v; rewrite flat_look; unfold dlook, value_of; intros ->; reflexivity).
      assert (D2 : forall r u, dlook dd r = None -> look (flat dd ks s) r = Some u -> exists x, u = VN x).
      { intros r0 u. rewrite flat_look. unfold dlook, value_of. intros ->. destruct (existsb _ _); [|discriminate]. intros [= <-]. eauto. }
      pose proof (@disc_sound Q of_q n_neg n_bin n_cmp call coord phys agree dd _ D1 D2 g p _ Ep He) as Hp. apply dsound_bool in Hp. destruct Hp as (Hp & c & Ec & Hc).
      split; [exact Hp|]. rewrite Ec. exact Hc. }
    destruct (truthy (fst p)); [|injection H as <-; left; split; [reflexivity|]; intros s b He; apply (A s b He); reflexivity].
    set (cs := fun (_ : bool) (_ : word) (_ _ : Q * Q) => @None (Q * Q)) in *.
    destruct (hyb dd phys cs [] (snd p)) as [h|] eqn:Eh; [|discriminate]. cbn [obind] in H.
    assert (B : forall s b, geval (flat dd ks s) g = Some (VB Q b) -> geval (flat dd ks s) (hr_new h) = Some (VB Q b) /\ (truthy (hr_val h) = false -> b = false)).
    { intros s b He. destruct (A s b He) as [Hp _].
      set (c := map (fun k => (k, (s k, s k))) ks). assert (Ec : map fst c = ks). { unfold c. rewrite map_map. cbn. apply map_id. }
      pose proof (@hyb_cd_any Q dd phys cs (snd p) (disc_free _ _ _ Hf Ep) [] c) as Eh2. rewrite Eh in Eh2. cbn [option_map] in Eh2.
      assert (csd : coord_sound n_cmp coord cs) by (unfold coord_sound; discriminate).
      destruct (@hyb_sound Q of_q n_neg n_bin n_cmp call coord phys dd cs csd K6d ks Kd (snd p) c s (VB Q b) (fst h, c)) as (s' & (X1 & _) & G & _ & V).
      - intros k Hk. left. rewrite <- Ec. exact Hk.
      - intros k lo hi Hk. unfold c in Hk. apply in_map_iff in Hk. destruct Hk as (k' & [= <- <- <-] & _). split; apply agree.
      - rewrite Ec. exact Hp.
      - exact Eh2.
      - unfold hr_cd, hr_new, hr_val in *. cbn [fst snd] in *. rewrite Ec in *. split.
        + revert G. apply geval_mono; [..|reflexivity]; intros r0 v; rewrite !flat_look; unfold value_of; destruct (dget word_eqb (text r0) dd); auto; destruct (existsb (word_eqb (text r0)) ks) eqn:Ek; try discriminate.
          intros [= <-]. apply existsb_word in Ek. rewrite (X1 _ Ek). reflexivity.
        + unfold vsound in V. destruct (fst (fst (fst h))) as [q|q|t]; [|destruct V; discriminate|destruct V; discriminate]. cbn. intros Eq. specialize (V Eq). congruence. }
    destruct (truthy (hr_val h)); [|injection H as <-; left; split; [reflexivity|]; intros s b He; apply (B s b He); reflexivity].
    right. exists (hr_new h). split; [exact H|]. intros s b He. apply (B s b He).
  Qed.

  Hypothesis right : star_solver_right of_q n_neg n_bin n_cmp solve.

  (** A state of the agents, and values of the solver's variables. *)
  Lemma value_at e f s m b : gen e = inr f -> wf_form ks f = true -> matches ks s m f -> geval (flat dd ks s) e = Some (VB Q b) ->
    holds of_q n_neg n_bin n_cmp ks m f = Some b.
  Proof.
    intros Eg Hw Hm He. pose proof (@gen_sound Q of_q n_neg n_bin n_cmp call coord phys dd ks s m k_dd e b He) as G. rewrite Eg in G. exact (G Hw Hm).
  Qed.
  Lemma at_state f s ls : in_parts P s -> star_lins cd f = Some ls -> exists m, Forall (lin_holds m) ls /\ matches ks s m f.
  Proof.
    intros Hs El. destruct (lins_parts f El) as (Ps & I & Hc & Hk). destruct (to_solver Hs) as (m & M1 & M2). exists m. split; [exact (M2 _ _ I Hc)|].
    intros r Hr Ht. rewrite (k_rename _ Ht). apply M1. destruct (Hk (text r)) as (p & Hp & Hin).
    - apply filter_In. split; [exact Ht|]. apply existsb_exists. exists r. split; [exact Hr|apply occurs_refl].
    - apply in_flat_map. exists p. split; [exact (I p Hp)|exact Hin].
  Qed.
  Lemma at_model f m ls : (exists s, in_parts P s) -> star_lins cd f = Some ls -> Forall (lin_holds m) ls -> exists s, in_parts P s /\ matches ks s m f.
  Proof.
    intros (s0 & H0) El Hm. destruct (lins_parts f El) as (Ps & I & Hc & Hk). destruct (from_solver H0 I Hc Hm) as (s & Hs & E). exists s. split; [exact Hs|].
    intros r Hr Ht. rewrite (k_rename _ Ht). destruct (Hk (text r)) as (p & Hp & Hin).
    - apply filter_In. split; [exact Ht|]. apply existsb_exists. exists r. split; [exact Hr|apply occurs_refl].
    - exact (E p _ Hp Hin).
  Qed.
  Lemma twice m ls : Forall (lin_holds m) (ls ++ ls) <-> Forall (lin_holds m) ls.
  Proof. rewrite Forall_app. tauto. Qed.

  Notation value s e := (geval (flat dd ks s) e).
  (** What holds in every state. *)
  Lemma cont_over e s b sat con : in_parts P s -> value s e = Some (VB Q b) -> star_cont solve cd e = Some (sat, con) ->
    ((forall k f l, solve k f l <> Unknown) -> b = true -> sat = true) /\ (con = true -> b = true).
  Proof.
    intros Hs He Hc. unfold star_cont in Hc. destruct (gen e) as [b0|f] eqn:Eg.
    - injection Hc as <- <-. pose proof (@gen_sound Q of_q n_neg n_bin n_cmp call coord phys dd ks s s k_dd e b He) as G. rewrite Eg in G. cbn in G. subst b0. tauto.
    - destruct (wf_form ks f) eqn:Hw; [|discriminate]. destruct (star_lins cd f) as [ls|] eqn:El; [|discriminate]. cbn [obind] in Hc.
      destruct (at_state f Hs El) as (m & Hm & Ht). pose proof (value_at _ Eg Hw Ht He) as Hh.
      pose proof (right ks f (ls ++ ls)) as R1. pose proof (right ks (FNot f) ls) as R2.
      destruct (solve ks f (ls ++ ls)) eqn:E1.
      + injection Hc as <- <-. split; [reflexivity|]. destruct (solve ks (FNot f) ls); try discriminate. intros _. specialize (R2 m Hm). cbn [holds] in R2. rewrite Hh in R2.
        destruct b; [reflexivity|exfalso; apply R2; reflexivity].
      + injection Hc as <- <-. split; [|discriminate]. intros _ ->. exfalso. exact (R1 m (proj2 (twice m ls) Hm) Hh).
      + injection Hc as <- <-. split; [|discriminate]. intros D. exfalso. exact (D _ _ _ E1).
  Qed.
  Lemma star_over g s b sat con : (forall k, In k ks -> dotted k) -> lane_free g = true -> in_parts P s -> value s g = Some (VB Q b) -> star_check call dd phys solve cd g = Some (sat, con) ->
    ((forall k f l, solve k f l <> Unknown) -> b = true -> sat = true) /\ (con = true -> b = true).
  Proof.
    intros Kd Hf Hs He H. destruct (run g Kd Hf H) as [[[= -> ->] Hb]|(e & Hc & Hv)]; [rewrite (Hb s b He); split; [intros _|]; discriminate|].
    exact (@cont_over e s b sat con Hs (Hv _ _ He) Hc).
  Qed.
  (** What is witnessed by a state. *)
  Lemma star_witness g sat con : (forall k, In k ks -> dotted k) -> lane_free g = true -> (exists s, in_parts P s) -> (forall s, in_parts P s -> exists b, value s g = Some (VB Q b)) ->
    star_check call dd phys solve cd g = Some (sat, con) ->
    (sat = true -> exists s, in_parts P s /\ value s g = Some (VB Q true)) /\
    ((forall k f l, solve k f l <> Unknown) -> con = false -> exists s, in_parts P s /\ value s g = Some (VB Q false)).
  Proof.
    intros Kd Hf Hex Hall H. pose proof Hex as (s0 & H0). destruct (Hall s0 H0) as (b0 & E0).
    destruct (run g Kd Hf H) as [[[= -> ->] Hb]|(e & Hc & Hv)].
    { split; [discriminate|]. intros _ _. exists s0. split; [exact H0|]. rewrite (Hb _ _ E0) in E0. exact E0. }
    unfold star_cont in Hc. destruct (gen e) as [b1|f] eqn:Eg.
    - injection Hc as <- <-. pose proof (@gen_sound Q of_q n_neg n_bin n_cmp call coord phys dd ks s0 s0 k_dd e b0 (Hv _ _ E0)) as G. rewrite Eg in G. cbn in G. subst b1.
      split; [intros ->|intros _ ->]; eauto.
    - destruct (wf_form ks f) eqn:Hw; [|discriminate]. destruct (star_lins cd f) as [ls|] eqn:El; [|discriminate]. cbn [obind] in Hc.
      assert (Val : forall m b, Forall (lin_holds m) ls -> holds of_q n_neg n_bin n_cmp ks m f = Some b -> exists s, in_parts P s /\ value s g = Some (VB Q b)).
      { intros m b Hm Hh. destruct (at_model f Hex El Hm) as (s & Hs & Ht). exists s. split; [exact Hs|]. destruct (Hall s Hs) as (b' & Eb).
        rewrite (value_at _ Eg Hw Ht (Hv _ _ Eb)) in Hh. congruence. }
      pose proof (right ks f (ls ++ ls)) as R1. pose proof (right ks (FNot f) ls) as R2.
      destruct (solve ks f (ls ++ ls)) eqn:E1.
      + injection Hc as <- <-. destruct R1 as (m & Hm & Hh). split; [intros _; exact (Val m true (proj1 (twice m ls) Hm) Hh)|].
        intros D. destruct (solve ks (FNot f) ls) eqn:E2; [|discriminate|exfalso; exact (D _ _ _ E2)]. intros _. destruct R2 as (m2 & Hm2 & Hh2). cbn [holds] in Hh2.
        destruct (holds of_q n_neg n_bin n_cmp ks m2 f) as [b2|] eqn:E3; [|discriminate]. cbn in Hh2. destruct b2; [discriminate|]. exact (Val m2 false Hm2 E3).
      + injection Hc as <- <-. split; [discriminate|]. intros _ _. exists s0. split; [exact H0|]. destruct b0; [|exact E0]. exfalso.
        destruct (at_state f H0 El) as (m & Hm & Ht). exact (R1 m (proj2 (twice m ls) Hm) (value_at _ Eg Hw Ht (Hv _ _ E0))).
      + injection Hc as <- <-. split; [discriminate|]. intros D. exfalso. exact (D _ _ _ E1).
  Qed.
End Core.
