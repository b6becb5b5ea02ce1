From Coq Require Import Ascii String.
From Verif Require Import Base BaseFacts PyText Reset ResetSpec.
From Coq Require Import Lqa.
Set Implicit Arguments.
Open Scope nat_scope.

(** ** Words *)
Lemma word_eqb_eq a b : word_eqb a b = true <-> a = b.
Proof.
  revert b; induction a as [|x a IH]; intros [|y b]; simpl; split; try discriminate; auto.
  - intros H. apply andb_prop in H. destruct H as [H1 H2]. apply Ascii.eqb_eq in H1. apply IH in H2. congruence.
  - intros [= -> ->]. rewrite Ascii.eqb_refl. apply IH. reflexivity.
Qed.
Lemma word_eqb_refl a : word_eqb a a = true.
Proof. apply word_eqb_eq; reflexivity. Qed.
Lemma word_eqb_neq a b : word_eqb a b = false <-> a <> b.
Proof.
  destruct (word_eqb a b) eqn:E; split; try discriminate; try congruence.
  - apply word_eqb_eq in E. congruence.
  - intros _ ->. rewrite word_eqb_refl in E. discriminate.
Qed.

Lemma prefix_of_refl a : prefix_of a a = true.
Proof. induction a; simpl; auto. rewrite Ascii.eqb_refl. auto. Qed.
Lemma occurs_refl a : occurs a a = true.
Proof. destruct a; [reflexivity|]. unfold occurs at 1; fold occurs. rewrite prefix_of_refl. reflexivity. Qed.

Lemma replace_skip old new s rest : replace_from old new (length s) (s ++ rest) = replace_from old new 0 rest.
Proof. induction s; simpl; auto. Qed.

Lemma replace_self x new : x <> [] -> replace x new x = new.
Proof.
  intros Hx. destruct x as [|c x]; [congruence|]. unfold replace. simpl replace_from at 1.
  rewrite Ascii.eqb_refl, prefix_of_refl. cbn [andb]. rewrite Nat.sub_0_r.
  pose proof (replace_skip (c :: x) new x []) as H. rewrite app_nil_r in H. rewrite H. simpl. apply app_nil_r.
Qed.

Lemma replace_absent old new s : occurs old s = false -> replace old new s = s.
Proof.
  unfold replace. induction s as [|c s IH]; intros H; [reflexivity|].
  simpl in H. apply orb_false_elim in H. destruct H as [H1 H2].
  cbn [replace_from]. rewrite H1. rewrite IH by exact H2. reflexivity.
Qed.

(** ** Substitution of all symbols *)
Section Subst.
  Variables (show : Q -> word) (read : word -> option Q) (F : Q -> Prop) (names : list word).
  Hypothesis W : writes show read F names.
  Hypothesis NA : names_apart names.

  Definition rep_all (ps : list (word * Q)) (x : word) : word :=
    fold_left (fun t p => replace (fst p) (show (snd p)) t) ps x.

  Lemma rep_all_absent ps x : (forall y v, In (y, v) ps -> occurs y x = false) -> rep_all ps x = x.
  Proof.
    unfold rep_all. induction ps as [|[y v] ps IH]; intros H; simpl; [reflexivity|].
    rewrite replace_absent by (eapply H; simpl; eauto). apply IH. intros; eapply H; simpl; eauto.
  Qed.

  Lemma rep_all_var ps x v :
    NoDup (map fst ps) -> In (x, v) ps -> (forall y u, In (y, u) ps -> In y names /\ F u) ->
    rep_all ps x = show v.
  Proof.
    unfold rep_all. induction ps as [|[y u] ps IH]; intros ND Hin Hall; simpl; [contradiction|].
    inversion ND as [|? ? Hni ND']; subst. simpl in *.
    destruct Hin as [[= -> ->]|Hin].
    - rewrite replace_self.
      + apply rep_all_absent. intros y u Hy. apply (wr_names W); [apply (Hall x v); auto|apply (Hall y u); auto].
      + apply (proj1 NA). apply (Hall x v). auto.
    - assert (y <> x). { intros ->. apply Hni. apply in_map_iff. exists (x, v). auto. }
      rewrite replace_absent.
      + apply IH; auto.
      + apply (proj2 NA); auto; [apply (Hall y u); auto|apply (Hall x v); auto].
  Qed.

  (** The printed form with values in place of variables. *)
  Fixpoint unparse_env (env : word -> Q) (e : expr) : list tok :=
    match e with
    | Num q => [TWord (show q)]
    | Var x => [TWord (show (env x))]
    | Neg a => TL :: TMinus :: unparse_env env a ++ [TR]
    | Bin o a b => TL :: unparse_env env a ++ op_tok o :: unparse_env env b ++ [TR]
    | Pow a n => TL :: unparse_env env a ++ TPow :: [TWord (show (inject_Z (Z.of_nat n)))] ++ [TR]
    end.

  Lemma fold_replace_map ps ts :
    fold_left (fun t p => replace_text (fst p) (show (snd p)) t) ps ts =
    map (fun t => match t with TWord x => TWord (rep_all ps x) | _ => t end) ts.
  Proof.
    revert ts; induction ps as [|p ps IH]; intros ts; simpl.
    - rewrite <- (map_id ts) at 1. apply map_ext. intros []; reflexivity.
    - rewrite IH. unfold replace_text. rewrite map_map. apply map_ext. intros []; reflexivity.
  Qed.

  Lemma subst_unparse ps env e :
    NoDup (map fst ps) -> (forall y u, In (y, u) ps -> In y names /\ F u) ->
    (forall x, In x (vars e) -> In (x, env x) ps) -> literals F e ->
    fold_left (fun t p => replace_text (fst p) (show (snd p)) t) ps (unparse show e) = unparse_env env e.
  Proof.
    intros ND Hall Hv HL. rewrite fold_replace_map.
    assert (HF : forall q, F q -> rep_all ps (show q) = show q).
    { intros q Hq. apply rep_all_absent. intros y v Hy. apply (wr_names W); auto. apply (Hall y v); auto. }
    induction e as [q|x|a IH|o a IHa b IHb|a IH n]; simpl in *.
    - rewrite HF; auto.
    - rewrite (@rep_all_var ps x (env x)); auto.
    - rewrite map_app. simpl. rewrite IH; auto.
    - rewrite map_app. simpl. rewrite map_app. simpl. rewrite IHa, IHb; try tauto.
      + destruct o; reflexivity.
      + intros; apply Hv, in_or_app; auto.
      + intros; apply Hv, in_or_app; auto.
    - rewrite map_app. simpl. destruct HL as [HL1 HL2]. rewrite IH, HF; auto.
  Qed.

  (** ** Lexing *)
  Fixpoint ltoks (env : word -> Q) (e : expr) : list tok :=
    match e with
    | Num q => [TWord (show q)]
    | Var x => if Qlt_le_dec (env x) 0 then [TMinus; TWord (show (- env x)%Q)] else [TWord (show (env x))]
    | Neg a => TL :: TMinus :: ltoks env a ++ [TR]
    | Bin o a b => TL :: ltoks env a ++ op_tok o :: ltoks env b ++ [TR]
    | Pow a n => TL :: ltoks env a ++ TPow :: [TWord (show (inject_Z (Z.of_nat n)))] ++ [TR]
    end.

  Lemma lex_word_plain cur s : ~ In "-"%char s -> lex_word cur s = match rev cur ++ s with [] => [] | x => [TWord x] end.
  Proof.
    revert cur; induction s as [|c s IH]; intros cur H; simpl.
    - rewrite app_nil_r. destruct cur as [|a cur]; simpl; [reflexivity|].
      destruct (rev cur ++ [a]) eqn:E; [|reflexivity]. destruct (rev cur); discriminate.
    - destruct (Ascii.eqb c "-"%char) eqn:E.
      + apply Ascii.eqb_eq in E. subst. exfalso. apply H. simpl; auto.
      + rewrite IH by (intros H1; apply H; simpl; auto). simpl. rewrite <- app_assoc. reflexivity.
  Qed.

  Lemma lex_show q : F q -> (0 <= q)%Q -> lex_word [] (show q) = [TWord (show q)].
  Proof.
    intros Hq H0. destruct (wr_plain W Hq H0) as [H1 H2]. rewrite lex_word_plain by exact H2.
    simpl. destruct (show q); congruence.
  Qed.

  Lemma lex_app a b : lex (a ++ b) = lex a ++ lex b.
  Proof. unfold lex. apply flat_map_app. Qed.

  Lemma lex_cons t ts : lex (t :: ts) = lex [t] ++ lex ts.
  Proof. exact (lex_app [t] ts). Qed.

  Definition nonneg_lits (e : expr) := literals (fun q => F q /\ (0 <= q)%Q) e.

  Lemma nonneg_lits_F e : nonneg_lits e -> literals F e.
  Proof. unfold nonneg_lits. induction e; simpl; try tauto. Qed.

  Lemma lex_unparse env e : nonneg_lits e -> (forall x, In x (vars e) -> F (env x)) ->
    lex (unparse_env env e) = ltoks env e.
  Proof.
    unfold nonneg_lits. induction e as [q|x|a IH|o a IHa b IHb|a IH n]; intros HL HV; cbn [unparse_env ltoks literals vars] in *.
    - simpl. rewrite lex_show by tauto. reflexivity.
    - destruct (Qlt_le_dec (env x) 0) as [H|H].
      + destruct (wr_neg W (HV x (or_introl eq_refl)) H) as [H1 H2]. unfold lex. cbn [flat_map]. rewrite H2. simpl.
        rewrite lex_show; [reflexivity|exact H1|lra].
      + unfold lex. cbn [flat_map]. rewrite lex_show; auto. apply HV; simpl; auto.
    - rewrite (lex_cons TL), (lex_cons TMinus (_ ++ _)), lex_app, IH; auto.
    - rewrite (lex_cons TL), lex_app, (lex_cons (op_tok o)), lex_app, IHa, IHb; try tauto; [destruct o; reflexivity| |]; intros; apply HV, in_or_app; auto.
    - rewrite (lex_cons TL). rewrite lex_app, IH; try tauto. simpl. f_equal. f_equal. f_equal.
      rewrite lex_show by tauto. reflexivity.
  Qed.

  (** ** Parsing *)
  Definition not_pow (r : list tok) : Prop := match r with TPow :: _ => False | _ => True end.
  Definition plain (env : word -> Q) (e : expr) : Prop := match e with Var x => (0 <= env x)%Q | _ => True end.

  Lemma qpow_ok v v' e n : (v == v')%Q -> (e == inject_Z (Z.of_nat n))%Q ->
    exists r, qpow v e = Some r /\ (r == Qpower v' (Z.of_nat n))%Q.
  Proof.
    intros H1 H2. unfold qpow. rewrite (Qred_complete _ _ H2).
    assert (E : Qred (inject_Z (Z.of_nat n)) = inject_Z (Z.of_nat n)).
    { unfold inject_Z. unfold Qred. pose proof (Z.ggcd_gcd (Z.of_nat n) 1) as G.
      pose proof (Z.ggcd_correct_divisors (Z.of_nat n) 1) as D.
      destruct (Z.ggcd (Z.of_nat n) 1) as [g [a b]]. simpl in *.
      rewrite Z.gcd_1_r in G. subst g. destruct D as [D1 D2].
      rewrite Z.mul_1_l in D1, D2. subst. reflexivity. }
    rewrite E. simpl. replace (0 <=? Z.of_nat n)%Z with true by (symmetry; apply Z.leb_le; lia).
    eexists. split; [reflexivity|]. rewrite H1. reflexivity.
  Qed.

  Lemma ltoks_pos env e : 1 <= length (ltoks env e).
  Proof. destruct e; simpl; try lia. destruct (Qlt_le_dec (env x) 0); simpl; lia. Qed.

  (** One step of each parsing function. *)
  Lemma p_expr_S n ts : p_expr read (S n) ts = do p <- p_term read n ts; p_expr_rest read n (fst p) (snd p).
  Proof. reflexivity. Qed.
  Lemma p_expr_rest_S n v ts : p_expr_rest read (S n) v ts =
    match ts with
    | TPlus :: r => do p <- p_term read n r; p_expr_rest read n (v + fst p)%Q (snd p)
    | TMinus :: r => do p <- p_term read n r; p_expr_rest read n (v - fst p)%Q (snd p)
    | _ => Some (v, ts)
    end.
  Proof. reflexivity. Qed.
  Lemma p_term_S n ts : p_term read (S n) ts = do p <- p_factor read n ts; p_term_rest read n (fst p) (snd p).
  Proof. reflexivity. Qed.
  Lemma p_term_rest_S n v ts : p_term_rest read (S n) v ts =
    match ts with
    | TStar :: r => do p <- p_factor read n r; p_term_rest read n (v * fst p)%Q (snd p)
    | _ => Some (v, ts)
    end.
  Proof. reflexivity. Qed.
  Lemma p_factor_S n ts : p_factor read (S n) ts =
    match ts with
    | TMinus :: r => do p <- p_factor read n r; Some (Qopp (fst p), snd p)
    | _ =>
      do p <- p_atom read n ts;
      match snd p with
      | TPow :: r => do e <- p_factor read n r; do v <- qpow (fst p) (fst e); Some (v, snd e)
      | _ => Some p
      end
    end.
  Proof. reflexivity. Qed.
  Lemma p_atom_S n ts : p_atom read (S n) ts =
    match ts with
    | TWord x :: r => do v <- read x; Some (v, r)
    | TL :: r =>
      do p <- p_expr read n r;
      match snd p with
      | TR :: r' => Some (fst p, r')
      | _ => None
      end
    | _ => None
    end.
  Proof. reflexivity. Qed.

  (** What an operand parses to, as an atom and as a factor. *)
  Definition atom_is (ts : list tok) (v : Q) : Prop :=
    forall n rest, 8 * length ts <= S n -> p_atom read n (ts ++ rest) = Some (v, rest).
  Definition factor_is (ts : list tok) (v : Q) : Prop :=
    forall n rest, 8 * length ts <= n -> not_pow rest -> p_factor read n (ts ++ rest) = Some (v, rest).

  Lemma atom_factor ts v : 1 <= length ts -> match ts with TMinus :: _ => False | _ => True end ->
    atom_is ts v -> factor_is ts v.
  Proof.
    intros HL HM HA n rest Hn Hr. destruct n as [|n]; [lia|]. specialize (HA n rest ltac:(lia)).
    destruct ts as [|t ts]; [simpl in HL; lia|].
    cbn [app] in *. rewrite p_factor_S.
    destruct t; try contradiction; rewrite HA; cbn [obind fst snd];
      destruct rest as [|[] ?]; simpl in *; tauto || reflexivity.
  Qed.

  Lemma neg_atom ts v : factor_is ts v -> atom_is (TL :: TMinus :: ts ++ [TR]) (- v)%Q.
  Proof.
    intros HF n rest Hn. cbn [length] in Hn. rewrite app_length in Hn. cbn [length] in Hn.
    cbn [app]. rewrite <- app_assoc. cbn [app].
    do 6 (destruct n as [|n]; [lia|]).
    rewrite p_atom_S, p_expr_S, p_term_S, p_factor_S, HF; [|lia|exact I].
    cbn [obind fst snd]. rewrite p_term_rest_S. cbn [obind fst snd]. rewrite p_expr_rest_S. reflexivity.
  Qed.

  Definition bin_val (o : binop) (a b : Q) : Q :=
    match o with Add => a + b | Sub => a - b | Mul => a * b end%Q.

  Lemma bin_atom o ta tb va vb : factor_is ta va -> factor_is tb vb -> 
    atom_is (TL :: ta ++ op_tok o :: tb ++ [TR]) (bin_val o va vb).
  Proof.
    intros HA HB n rest Hn. cbn [length] in Hn. rewrite !app_length in Hn. cbn [length] in Hn.
    rewrite app_length in Hn. cbn [length] in Hn.
    cbn [app]. rewrite <- app_assoc. cbn [app]. rewrite <- app_assoc. cbn [app].
    do 8 (destruct n as [|n]; [lia|]).
    rewrite p_atom_S, p_expr_S, p_term_S, HA; [|lia|destruct o; exact I].
    cbn [obind fst snd]. rewrite p_term_rest_S.
    destruct o; cbn [op_tok obind fst snd].
    - rewrite p_expr_rest_S, p_term_S, HB; [|lia|exact I].
      cbn [obind fst snd]. rewrite p_term_rest_S. cbn [obind fst snd]. rewrite p_expr_rest_S. reflexivity.
    - rewrite p_expr_rest_S, p_term_S, HB; [|lia|exact I].
      cbn [obind fst snd]. rewrite p_term_rest_S. cbn [obind fst snd]. rewrite p_expr_rest_S. reflexivity.
    - rewrite HB; [|lia|exact I]. cbn [obind fst snd]. rewrite p_term_rest_S. cbn [obind fst snd].
      rewrite p_expr_rest_S. reflexivity.
  Qed.

  Lemma pow_atom ta va x e r : ta <> [] -> match ta with TMinus :: _ => False | _ => True end ->
    atom_is ta va -> read x = Some e -> qpow va e = Some r ->
    atom_is (TL :: ta ++ TPow :: [TWord x] ++ [TR]) r.
  Proof.
    intros HN HM HA Hx Hr n rest Hn. cbn [length] in Hn. rewrite !app_length in Hn. cbn [length app] in Hn.
    cbn [app]. rewrite <- app_assoc. cbn [app].
    do 8 (destruct n as [|n]; [lia|]).
    rewrite p_atom_S, p_expr_S, p_term_S.
    assert (E : p_factor read (S (S (S (S (S n))))) (ta ++ TPow :: TWord x :: TR :: rest) = Some (r, TR :: rest)).
    { destruct ta as [|t ta]; [congruence|].
      specialize (HA (S (S (S (S n)))) (TPow :: TWord x :: TR :: rest)). cbn [length app] in *.
      rewrite p_factor_S.
      destruct t; try contradiction; rewrite HA by lia; cbn [obind fst snd];
        rewrite p_factor_S, p_atom_S, Hx; cbn [obind fst snd]; rewrite Hr; reflexivity. }
    rewrite E. cbn [obind fst snd]. rewrite p_term_rest_S. cbn [obind fst snd]. rewrite p_expr_rest_S. reflexivity.
  Qed.

  Lemma ltoks_plain env e : plain env e -> match ltoks env e with TMinus :: _ => False | _ => True end.
  Proof. destruct e; simpl; auto. destruct (Qlt_le_dec (env x) 0); simpl; auto. lra. Qed.

  Lemma parse_ok env e :
    nonneg_lits e -> (forall x, In x (vars e) -> F (env x)) -> pow_bases (fun x => 0 <= env x)%Q e ->
    exists v, (v == aeval env e)%Q /\ (plain env e -> atom_is (ltoks env e) v) /\ factor_is (ltoks env e) v.
  Proof.
    intros HL HV HP. unfold nonneg_lits in HL.
    induction e as [q|x|a IH|o a IHa b IHb|a IH m].
    - destruct (wr_back W (proj1 HL) (proj2 HL)) as (q' & E & Eq). exists q'. split; [exact Eq|].
      assert (HA : atom_is (ltoks env (Num q)) q').
      { intros n rest Hn. simpl in Hn. destruct n as [|n]; [lia|]. cbn [ltoks app]. rewrite p_atom_S, E. reflexivity. }
      split; [auto|]. apply atom_factor; simpl; auto.
    - cbn [ltoks plain aeval]. specialize (HV x (or_introl eq_refl)).
      destruct (Qlt_le_dec (env x) 0) as [H|H].
      + destruct (wr_neg W HV H) as [H1 _]. destruct (wr_back W H1) as (q' & E & Eq); [lra|].
        exists (Qopp q'). split; [rewrite Eq; ring|]. split; [intros; lra|].
        intros n rest Hn Hr. simpl in Hn.
        destruct n as [|[|[|n]]]; try lia. cbn [app]. rewrite p_factor_S, p_factor_S, p_atom_S, E. cbn [obind fst snd].
        destruct rest as [|[] ?]; simpl in *; tauto || reflexivity.
      + destruct (wr_back W HV H) as (q' & E & Eq). exists q'. split; [exact Eq|].
        assert (HA : atom_is [TWord (show (env x))] q').
        { intros n rest Hn. simpl in Hn. destruct n as [|n]; [lia|]. cbn [app]. rewrite p_atom_S, E. reflexivity. }
        split; [auto|]. apply atom_factor; simpl; auto.
    - cbn [literals vars pow_bases] in *. destruct (IH HL HV HP) as (v & Eq & _ & HF).
      exists (- v)%Q. split; [simpl; rewrite Eq; reflexivity|].
      pose proof (neg_atom HF) as HA. split; [intros _; exact HA|].
      apply atom_factor; [simpl; lia|exact I|exact HA].
    - cbn [literals vars pow_bases] in *.
      destruct (IHa (proj1 HL)) as (va & Ea & _ & HFa); [intros; apply HV, in_or_app; auto|tauto|].
      destruct (IHb (proj2 HL)) as (vb & Eb & _ & HFb); [intros; apply HV, in_or_app; auto|tauto|].
      exists (bin_val o va vb). split.
      { destruct o; simpl; rewrite Ea, Eb; reflexivity. }
      pose proof (bin_atom o HFa HFb) as HA. split; [intros _; exact HA|].
      apply atom_factor; [simpl; lia|exact I|exact HA].
    - cbn [literals vars] in *. destruct HL as [HL1 [HL2 HL3]].
      assert (Pa : plain env a) by (destruct a; simpl in *; auto).
      assert (HPa : pow_bases (fun x => 0 <= env x)%Q a) by (destruct a; simpl in *; auto).
      destruct (IH HL1 HV HPa) as (va & Ea & HAa & _). specialize (HAa Pa).
      destruct (wr_back W HL2 HL3) as (e' & Ee & Eqe).
      destruct (@qpow_ok va (aeval env a) e' m Ea Eqe) as (r & Er & Eqr).
      exists r. split; [exact Eqr|].
      pose proof (@pow_atom (ltoks env a) va (show (inject_Z (Z.of_nat m))) e' r) as HA.
      assert (HA' : atom_is (ltoks env (Pow a m)) r).
      { apply HA; auto.
        - pose proof (ltoks_pos env a). destruct (ltoks env a); simpl in *; [lia|congruence].
        - apply ltoks_plain; auto. }
      split; [auto|]. apply atom_factor; [simpl; lia|exact I|exact HA'].
  Qed.

  Lemma eval_subst_ok syms comb env e :
    NoDup syms -> length comb = length syms -> (forall y, In y syms -> In y names) ->
    (forall u, In u comb -> F u) ->
    (forall x, In x (vars e) -> In (x, env x) (combine syms comb)) ->
    nonneg_lits e -> pow_bases (fun x => 0 <= env x)%Q e ->
    exists v, eval_subst show read syms comb (unparse show e) = Some v /\ (v == aeval env e)%Q.
  Proof.
    intros ND HLen Hn Hc Hv HL HP.
    assert (Hin : forall y u, In (y, u) (combine syms comb) -> In y names /\ F u).
    { intros y u H. split; [apply Hn; eapply in_combine_l; eauto|apply Hc; eapply in_combine_r; eauto]. }
    unfold eval_subst. rewrite (@subst_unparse (combine syms comb) env e); auto.
    - assert (HF : forall x, In x (vars e) -> F (env x)) by (intros x Hx; apply (Hin x), Hv; auto).
      unfold eval_text. rewrite lex_unparse; auto.
      destruct (parse_ok env e HL HF HP) as (v & Eq & _ & HFac). exists v. split; [|exact Eq].
      set (l := ltoks env e) in *. replace (8 * length l + 8) with (S (S (S (S (8 * length l + 4))))) by lia.
      rewrite p_expr_S, p_term_S. specialize (HFac (S (S (8 * length l + 4))) []). rewrite app_nil_r in HFac.
      rewrite HFac; [|lia|exact I]. cbn [obind fst snd]. rewrite p_term_rest_S. cbn [obind fst snd].
      rewrite p_expr_rest_S. reflexivity.
    - clear -ND HLen. revert comb HLen. induction syms as [|x syms IH]; intros [|c comb] HLen; simpl in *; try lia; [constructor|].
      inversion ND; subst. constructor; [|apply IH; auto; lia].
      intros H. apply in_map_iff in H. destruct H as ([y u] & E & H). simpl in E. subst y.
      apply H1. eapply in_combine_l; eauto.
    - apply nonneg_lits_F; auto.
  Qed.
End Subst.

(** ** Assignments *)
Fixpoint assign (ps : list (word * Q)) (env : word -> Q) : word -> Q :=
  match ps with
  | [] => env
  | (x, c) :: ps' => assign ps' (upd env x c)
  end.

Lemma assign_notin ps : forall env x, ~ In x (map fst ps) -> assign ps env x = env x.
Proof.
  induction ps as [|[y c] ps IH]; intros env x H; simpl in *; [reflexivity|].
  rewrite IH by tauto. unfold upd. rewrite (proj2 (word_eqb_neq x y)); [reflexivity|]. intros ->. tauto.
Qed.

Lemma assign_in ps : forall env x c, NoDup (map fst ps) -> In (x, c) ps -> assign ps env x = c.
Proof.
  induction ps as [|[y d] ps IH]; intros env x c ND Hin; simpl in *; [contradiction|].
  inversion ND as [|? ? Hni ND']; subst. destruct Hin as [[= -> ->]|Hin].
  - rewrite assign_notin by exact Hni. unfold upd. rewrite word_eqb_refl. reflexivity.
  - apply IH; auto.
Qed.

Lemma NoDup_map_filter {A B} (g : A -> B) (p : A -> bool) l : NoDup (map g l) -> NoDup (map g (filter p l)).
Proof.
  induction l as [|a l IH]; simpl; intros H; [constructor|]. inversion H; subst.
  destruct (p a); simpl; auto. constructor; auto. intros Hin. apply H2.
  apply in_map_iff in Hin. destruct Hin as (b & E & Hb). apply filter_In in Hb. apply in_map_iff. exists b. tauto.
Qed.

Lemma dict_unique (D : bounds) x b b' : NoDup (map fst D) -> In (x, b) D -> In (x, b') D -> b = b'.
Proof.
  induction D as [|[y c] D IH]; simpl; intros ND H1 H2; [contradiction|].
  inversion ND as [|? ? Hni ND']; subst.
  destruct H1 as [E1|H1], H2 as [E2|H2].
  - congruence.
  - exfalso. apply Hni. injection E1 as -> ->. apply in_map_iff. exists (x, b'). auto.
  - exfalso. apply Hni. injection E2 as -> ->. apply in_map_iff. exists (x, b). auto.
  - auto.
Qed.

Lemma within_upd D env x l h c : NoDup (map fst D) -> In (x, (l, h)) D -> within D env -> (l <= c <= h)%Q -> within D (upd env x c).
Proof.
  intros ND Hx Hw Hc y l' h' Hy. unfold upd. destruct (word_eqb y x) eqn:E.
  - apply word_eqb_eq in E. subst y. pose proof (dict_unique _ _ _ _ ND Hx Hy) as Eb. injection Eb as <- <-. exact Hc.
  - exact (Hw y l' h' Hy).
Qed.

Definition ext (f : (word -> Q) -> Q) : Prop := forall e1 e2, (forall x, e1 x == e2 x)%Q -> (f e1 == f e2)%Q.

Definition combos (S : bounds) : list (list Q) := get_combinations S.

Lemma vertex_upper D f : NoDup (map fst D) -> (forall x l h, In (x, (l, h)) D -> (l <= h)%Q) -> ext f -> axis_between D f ->
  forall S env, (forall p, In p S -> In p D) -> within D env ->
  exists comb, In comb (combos S) /\ (f env <= f (assign (combine (map fst S) comb) env))%Q.
Proof.
  intros ND HD Hext Hab. induction S as [|[x [l h]] S IH]; intros env HS Hw.
  - exists []. split; [simpl; auto|]. simpl. lra.
  - assert (Hx : In (x, (l, h)) D) by (apply HS; simpl; auto).
    pose proof (Hw x l h Hx) as Hb. pose proof (Hab env x l h (env x) Hx Hw Hb) as [_ Hmax].
    assert (E0 : (f (upd env x (env x)) == f env)%Q).
    { apply Hext. intros y. unfold upd. destruct (word_eqb y x) eqn:E; [|reflexivity]. apply word_eqb_eq in E. subst. reflexivity. }
    rewrite E0 in Hmax.
    assert (Hc : exists c, In c [l; h] /\ (l <= c <= h)%Q /\ (f env <= f (upd env x c))%Q).
    { pose proof (HD x l h Hx). destruct (Q.max_spec (f (upd env x l)) (f (upd env x h))) as [[_ Em]|[_ Em]];
        rewrite Em in Hmax; [exists h|exists l]; simpl; repeat split; auto; lra. }
    destruct Hc as (c & Hcin & Hcb & Hcf).
    destruct (IH (upd env x c)) as (comb & Hcomb & Hle).
    + intros p Hp. apply HS. simpl; auto.
    + eapply within_upd; eauto.
    + exists (c :: comb). split.
      * unfold combos, get_combinations. cbn [map product fst snd]. apply in_flat_map. exists c. split; [exact Hcin|].
        apply in_map. exact Hcomb.
      * cbn [map combine assign fst]. lra.
Qed.

Lemma vertex_lower D f : NoDup (map fst D) -> (forall x l h, In (x, (l, h)) D -> (l <= h)%Q) -> ext f -> axis_between D f ->
  forall S env, (forall p, In p S -> In p D) -> within D env ->
  exists comb, In comb (combos S) /\ (f (assign (combine (map fst S) comb) env) <= f env)%Q.
Proof.
  intros ND HD Hext Hab S env HS Hw.
  destruct (@vertex_upper D (fun e => - f e)%Q ND HD) with (S := S) (env := env) as (comb & Hc & Hle); auto.
  - intros e1 e2 H. rewrite (Hext e1 e2 H). reflexivity.
  - intros e x l h t Hx Hw' Ht. destruct (Hab e x l h t Hx Hw' Ht) as [A B].
    split.
    + apply Q.min_le_iff. destruct (Q.max_spec (f (upd e x l)) (f (upd e x h))) as [[_ Em]|[_ Em]];
        rewrite Em in B; [right|left]; lra.
    + apply Q.max_le_iff. destruct (Q.min_spec (f (upd e x l)) (f (upd e x h))) as [[_ Em]|[_ Em]];
        rewrite Em in A; [left|right]; lra.
  - exists comb. split; [exact Hc|]. simpl in Hle. lra.
Qed.

(** ** [minmax] *)
Lemma fold_Qmin_spec vs : forall v, (forall u, In u (v :: vs) -> (fold_left Qmin vs v <= u)%Q) /\
  exists u, In u (v :: vs) /\ (fold_left Qmin vs v == u)%Q.
Proof.
  induction vs as [|a vs IH]; intros v; simpl.
  - split; [intros u [<-|[]]; lra|]. exists v. split; [auto|reflexivity].
  - destruct (IH (Qmin v a)) as [H1 (u & Hu & Eu)]. split.
    + intros u' [<-|[<-|H]].
      * pose proof (H1 (Qmin v a) (or_introl eq_refl)). pose proof (Q.le_min_l v a). lra.
      * pose proof (H1 (Qmin v a) (or_introl eq_refl)). pose proof (Q.le_min_r v a). lra.
      * apply H1. simpl; auto.
    + destruct Hu as [<-|Hu]; [|exists u; auto].
      destruct (Q.min_spec v a) as [[_ E]|[_ E]]; [exists v|exists a]; (split; [auto|]); rewrite Eu; exact E.
Qed.
Lemma fold_Qmax_spec vs : forall v, (forall u, In u (v :: vs) -> (u <= fold_left Qmax vs v)%Q) /\
  exists u, In u (v :: vs) /\ (fold_left Qmax vs v == u)%Q.
Proof.
  induction vs as [|a vs IH]; intros v; simpl.
  - split; [intros u [<-|[]]; lra|]. exists v. split; [auto|reflexivity].
  - destruct (IH (Qmax v a)) as [H1 (u & Hu & Eu)]. split.
    + intros u' [<-|[<-|H]].
      * pose proof (H1 (Qmax v a) (or_introl eq_refl)). pose proof (Q.le_max_l v a). lra.
      * pose proof (H1 (Qmax v a) (or_introl eq_refl)). pose proof (Q.le_max_r v a). lra.
      * apply H1. simpl; auto.
    + destruct Hu as [<-|Hu]; [|exists u; auto].
      destruct (Q.max_spec v a) as [[_ E]|[_ E]]; [exists a|exists v]; (split; [auto|]); rewrite Eu; exact E.
Qed.

(** ** Expressions *)
Lemma aeval_ext e : ext (fun env => aeval env e).
Proof.
  intros e1 e2 H. induction e as [q|x|a IH|[] a IHa b IHb|a IH n]; simpl; try reflexivity; auto;
    try (rewrite IHa, IHb; reflexivity); rewrite IH; reflexivity.
Qed.

Lemma aeval_agree e e1 e2 : (forall x, In x (vars e) -> e1 x = e2 x) -> aeval e1 e = aeval e2 e.
Proof.
  induction e as [q|x|a IH|o a IHa b IHb|a IH n]; simpl; intros H; auto.
  - rewrite IH; auto.
  - rewrite IHa, IHb by (intros; apply H, in_or_app; auto). reflexivity.
  - rewrite IH; auto.
Qed.

Lemma upd_agree e env x v : ~ In x (vars e) -> aeval (upd env x v) e = aeval env e.
Proof.
  intros H. apply aeval_agree. intros y Hy. unfold upd. destruct (word_eqb y x) eqn:E; [|reflexivity].
  apply word_eqb_eq in E. subst. contradiction.
Qed.

Lemma Qpower_1 (q : Q) : (Qpower q (Z.of_nat 1) == q)%Q.
Proof. simpl. ring. Qed.

Lemma each_once_multiaffine e : each_once e -> multiaffine (fun env => aeval env e).
Proof.
  induction e as [q|x|a IH|o a IHa b IHb|a IH n]; intros H env y u v s.
  - simpl. ring.
  - simpl. unfold upd. destruct (word_eqb x y); ring.
  - simpl in *. rewrite (IH H env y u v s). ring.
  - assert (Hor : each_once a /\ each_once b) by (destruct o; simpl in H; tauto).
    destruct Hor as [Ha Hb]. pose proof (IHa Ha env y u v s) as Ea. pose proof (IHb Hb env y u v s) as Eb.
    cbv beta in Ea, Eb. destruct o; simpl.
    + rewrite Ea, Eb. ring.
    + rewrite Ea, Eb. ring.
    + destruct H as (_ & _ & Hd). destruct (in_dec (list_eq_dec ascii_dec) y (vars a)) as [Hy|Hy].
      * rewrite !(@upd_agree b) by (apply Hd; exact Hy). rewrite Ea. ring.
      * rewrite !(@upd_agree a) by exact Hy. rewrite Eb. ring.
  - simpl in H. destruct H as [H|[-> H]].
    + simpl. rewrite !(@upd_agree a) by (rewrite H; simpl; tauto). ring.
    + cbn [aeval]. rewrite !Qpower_1. exact (IH H env y u v s).
Qed.

Lemma multiaffine_between D f : ext f -> multiaffine f -> axis_between D f.
Proof.
  intros Hext Hm env x l h t Hx Hw [H1 H2].
  destruct (Qlt_le_dec l h) as [Hlh|Hlh].
  - set (s := ((t - l) / (h - l))%Q).
    assert (Hs : (s * (h - l) == t - l)%Q) by (unfold s; field; lra).
    assert (Hs0 : (0 <= s)%Q). { unfold s. apply Qle_shift_div_l; lra. }
    assert (Hs1 : (s <= 1)%Q). { unfold s. apply Qle_shift_div_r; lra. }
    assert (E : (f (upd env x t) == (1 - s) * f (upd env x l) + s * f (upd env x h))%Q).
    { eapply Qeq_trans; [|exact (Hm env x l h s)]. apply Hext. intros y. unfold upd. destruct (word_eqb y x); [|reflexivity]. lra. }
    rewrite E. set (a := f (upd env x l)). set (b := f (upd env x h)). split.
    + apply Q.min_le_iff. destruct (Qlt_le_dec a b); [left|right]; nra.
    + apply Q.max_le_iff. destruct (Qlt_le_dec a b); [right|left]; nra.
  - assert (E : (f (upd env x t) == f (upd env x l))%Q).
    { apply Hext. intros y. unfold upd. destruct (word_eqb y x); [|reflexivity]. lra. }
    rewrite E. split; [apply Q.le_min_l|apply Q.le_max_l].
Qed.

Lemma vars_occur show e x : In x (vars e) -> occurs_text x (unparse show e) = true.
Proof.
  unfold occurs_text. intros H. apply existsb_exists.
  assert (Hin : In (TWord x) (unparse show e)).
  { revert H. induction e as [q|y|a IH|o a IHa b IHb|a IH n]; simpl; intros H.
    - contradiction.
    - destruct H as [->|[]]. auto.
    - right. right. apply in_or_app. auto.
    - right. apply in_app_iff in H. apply in_or_app. destruct H as [H|H]; [left; auto|right; right; apply in_or_app; auto].
    - right. apply in_or_app. auto. }
  exists (TWord x). split; [exact Hin|apply occurs_refl].
Qed.

Lemma pow_bases_mono (P R : word -> Prop) e : (forall x, In x (vars e) -> P x -> R x) -> pow_bases P e -> pow_bases R e.
Proof.
  induction e as [q|x|a IH|o a IHa b IHb|a IH n]; cbn [vars pow_bases]; intros H; auto.
  - intros [H1 H2]. split; [apply IHa|apply IHb]; auto; intros x Hx; apply H, in_or_app; auto.
  - specialize (IH H). destruct a as [q|x|a|o a b|a m]; try exact IH. intros Hx. apply H; simpl; auto.
Qed.

(** ** Bounds of a reset *)
Section Bounds.
  Variables (show : Q -> word) (read : word -> option Q) (F : Q -> Prop) (D : bounds).
  Hypothesis W : writes show read F (map fst D).
  Hypothesis NA : names_apart (map fst D).
  Hypothesis DO : dict_ok F D.

  Lemma combos_values S comb : In comb (combos S) ->
    length comb = length S /\ forall x c, In (x, c) (combine (map fst S) comb) -> exists l h, In (x, (l, h)) S /\ (c = l \/ c = h).
  Proof.
    unfold combos, get_combinations. intros H. apply In_product in H.
    revert comb H. induction S as [|[x [l h]] S IH]; intros comb H; simpl in H.
    - inversion H; subst. split; [reflexivity|]. intros ? ? [].
    - inversion H as [|c ? comb' ? Hc Hrest]; subst. destruct (IH _ Hrest) as [HL Hin]. split; [simpl; lia|].
      intros y d [[= <- <-]|Hy].
      + exists l, h. simpl in *. intuition congruence.
      + destruct (Hin y d Hy) as (l' & h' & A & B). exists l', h'. simpl. auto.
  Qed.

  Lemma combine_map_fst {A B} (l : list A) (m : list B) : length m = length l -> map fst (combine l m) = l.
  Proof. revert m; induction l as [|a l IH]; intros [|b m] H; simpl in *; try lia; auto. rewrite IH; auto. Qed.

  Lemma reset_bounds_exact e :
    (forall x, In x (vars e) -> In x (map fst D)) -> nonneg_lits F e ->
    pow_bases (fun x => exists l h, In (x, (l, h)) D /\ (0 <= l)%Q) e ->
    axis_between D (fun env => aeval env e) ->
    exists l h, reset_bounds show read D e = Some (l, h) /\ exact_range D (fun env => aeval env e) l h.
  Proof.
    intros Hv HL HP Hab. destruct DO as [ND HD].
    set (S := symbols_in D (unparse show e)).
    assert (SD : forall p, In p S -> In p D) by (intros p Hp; apply filter_In in Hp; tauto).
    assert (NDS : NoDup (map fst S)) by (apply NoDup_map_filter; exact ND).
    assert (HvS : forall x, In x (vars e) -> exists l h, In (x, (l, h)) S).
    { intros x Hx. specialize (Hv x Hx). apply in_map_iff in Hv. destruct Hv as ([y [l h]] & E & Hin). simpl in E. subst y.
      exists l, h. apply filter_In. split; [exact Hin|]. apply vars_occur. exact Hx. }
    assert (HDl : forall x l h, In (x, (l, h)) D -> (l <= h)%Q) by (intros x l h H; apply (HD x l h H)).
    (* every combination evaluates, to the value at that vertex *)
    assert (HE : forall comb env, In comb (combos S) ->
      exists v, eval_subst show read (map fst S) comb (unparse show e) = Some v /\
                (v == aeval (assign (combine (map fst S) comb) env) e)%Q).
    { intros comb env Hc. destruct (combos_values _ _ Hc) as [HLc Hcv].
      assert (NDc : NoDup (map fst (combine (map fst S) comb))).
      { rewrite combine_map_fst; [exact NDS|]. rewrite map_length. exact HLc. }
      apply (@eval_subst_ok show read F (map fst D) W NA); auto.
      - rewrite map_length. exact HLc.
      - intros y Hy. apply in_map_iff in Hy. destruct Hy as (p & <- & Hp). apply in_map. auto.
      - intros u Hu. apply In_nth with (d := 0%Q) in Hu. destruct Hu as (i & Hi & <-).
        destruct (nth_error S i) as [p|] eqn:Ep; [|apply nth_error_None in Ep; lia].
        destruct p as [x [l h]].
        assert (Hin : In (x, nth i comb 0%Q) (combine (map fst S) comb)).
        { replace (x, nth i comb 0%Q) with (nth i (combine (map fst S) comb) (x, 0%Q)).
          - apply nth_In. rewrite combine_length, map_length. lia.
          - rewrite combine_nth by (rewrite map_length; lia). f_equal.
            rewrite (nth_indep _ x (fst (x, (l, h)))) by (rewrite map_length; lia).
            rewrite map_nth. rewrite (nth_error_nth S i (x, (l, h)) Ep). reflexivity. }
        destruct (Hcv _ _ Hin) as (l' & h' & Hl & [->| ->]); apply (HD x l' h'); auto.
      - intros x Hx. destruct (HvS x Hx) as (l & h & Hin).
        assert (Hx' : In x (map fst (combine (map fst S) comb))).
        { rewrite combine_map_fst by (rewrite map_length; exact HLc). apply in_map_iff. exists (x, (l, h)). auto. }
        apply in_map_iff in Hx'. destruct Hx' as ([y c] & E & Hc'). simpl in E. subst y.
        rewrite (@assign_in _ _ _ _ NDc Hc'). exact Hc'.
      - eapply pow_bases_mono; [|exact HP]. intros x Hxv (l & h & Hin & H0). cbv beta.
        assert (Hx : In x (map fst (combine (map fst S) comb))).
        { rewrite combine_map_fst by (rewrite map_length; exact HLc). destruct (HvS x Hxv) as (l1 & h1 & H1).
          apply in_map_iff. exists (x, (l1, h1)). auto. }
        apply in_map_iff in Hx. destruct Hx as ([y c] & E & Hc'). simpl in E. subst y.
        rewrite (@assign_in _ _ _ _ NDc Hc').
        destruct (Hcv _ _ Hc') as (l' & h' & Hl & Hcc). pose proof (@dict_unique _ _ _ _ ND Hin (SD _ Hl)) as Eb.
        injection Eb as <- <-. pose proof (HDl _ _ _ Hin). destruct Hcc as [->| ->]; lra. }
    assert (HW : forall comb env, In comb (combos S) -> within D env -> within D (assign (combine (map fst S) comb) env)).
    { intros comb env Hc Hw x l h Hin. destruct (combos_values _ _ Hc) as [HLc Hcv].
      assert (NDc : NoDup (map fst (combine (map fst S) comb))).
      { rewrite combine_map_fst; [exact NDS|]. rewrite map_length. exact HLc. }
      destruct (in_dec (list_eq_dec ascii_dec) x (map fst (combine (map fst S) comb))) as [Hx|Hx].
      - apply in_map_iff in Hx. destruct Hx as ([y c] & E & Hc'). simpl in E. subst y.
        rewrite (@assign_in _ _ _ _ NDc Hc').
        destruct (Hcv _ _ Hc') as (l' & h' & Hl & Hcc). pose proof (@dict_unique _ _ _ _ ND Hin (SD _ Hl)) as Eb.
        injection Eb as <- <-. pose proof (HDl _ _ _ Hin). destruct Hcc as [->| ->]; lra.
      - rewrite assign_notin by exact Hx. auto. }
    (* an assignment inside the dictionary *)
    set (env0 := assign (map (fun p => (fst p, fst (snd p))) D) (fun _ => 0%Q)).
    assert (Hw0 : within D env0).
    { intros x l h Hin. unfold env0. rewrite (@assign_in _ _ x l).
      - pose proof (HDl _ _ _ Hin). lra.
      - rewrite map_map. simpl. exact ND.
      - apply in_map_iff. exists (x, (l, h)). auto. }
    assert (Hmap : exists vals, mapM (fun comb => eval_subst show read (map fst S) comb (unparse show e)) (combos S) = Some vals).
    { clear -HE. induction (combos S) as [|c cs IH]; [exists []; reflexivity|].
      destruct (HE c (fun _ => 0%Q)) as (v & Ev & _); [simpl; auto|].
      destruct IH as (vs & Evs); [intros; apply HE; simpl; auto|].
      exists (v :: vs). simpl. rewrite Ev, Evs. reflexivity. }
    destruct Hmap as (vals & Evals). pose proof (proj1 (mapM_Forall2 _ _ _) Evals) as F2.
    assert (Hval : forall comb, In comb (combos S) -> exists v, In v vals /\ forall env, (v == aeval (assign (combine (map fst S) comb) env) e)%Q).
    { intros comb Hc.
      assert (exists v, In v vals /\ eval_subst show read (map fst S) comb (unparse show e) = Some v) as (v & Hv1 & Ev).
      { clear -F2 Hc. induction F2; [contradiction|]. destruct Hc as [<-|Hc]; [exists y; simpl; auto|].
        destruct (IHF2 Hc) as (v & A & B). exists v. simpl; auto. }
      exists v. split; [exact Hv1|]. intros env. destruct (HE comb env Hc) as (v' & Ev' & Eq). congruence. }
    assert (Hinv : forall v, In v vals -> exists comb, In comb (combos S) /\ forall env, (v == aeval (assign (combine (map fst S) comb) env) e)%Q).
    { intros v Hv1.
      assert (exists comb, In comb (combos S) /\ eval_subst show read (map fst S) comb (unparse show e) = Some v) as (comb & Hc & Ev).
      { clear -F2 Hv1. induction F2; [contradiction|]. destruct Hv1 as [<-|Hv1]; [exists x; simpl; auto|].
        destruct (IHF2 Hv1) as (c & A & B). exists c. simpl; auto. }
      exists comb. split; [exact Hc|]. intros env. destruct (HE comb env Hc) as (v' & Ev' & Eq). congruence. }
    destruct (@vertex_upper D (fun env => aeval env e) ND HDl (aeval_ext e) Hab S env0 SD Hw0) as (c0 & Hc0 & _).
    destruct (Hval c0 Hc0) as (v0 & Hv0 & _).
    destruct vals as [|v1 vs]; [contradiction|].
    exists (fold_left Qmin vs v1), (fold_left Qmax vs v1). split.
    - unfold reset_bounds. fold S. unfold combos in Evals. rewrite Evals. reflexivity.
    - destruct (fold_Qmin_spec vs v1) as [Hmin (ul & Hul & El)]. destruct (fold_Qmax_spec vs v1) as [Hmax (uh & Huh & Eh)].
      split; [|split].
      + intros env Hw. split.
        * destruct (@vertex_lower D (fun env => aeval env e) ND HDl (aeval_ext e) Hab S env SD Hw) as (c & Hc & Hle).
          destruct (Hval c Hc) as (v & Hvin & Hvq). specialize (Hvq env). specialize (Hmin v Hvin). cbv beta in Hle. lra.
        * destruct (@vertex_upper D (fun env => aeval env e) ND HDl (aeval_ext e) Hab S env SD Hw) as (c & Hc & Hle).
          destruct (Hval c Hc) as (v & Hvin & Hvq). specialize (Hvq env). specialize (Hmax v Hvin). cbv beta in Hle. lra.
      + destruct (Hinv ul Hul) as (c & Hc & Hq). exists (assign (combine (map fst S) c) env0).
        split; [apply HW; auto|]. rewrite El. symmetry. apply Hq.
      + destruct (Hinv uh Huh) as (c & Hc & Hq). exists (assign (combine (map fst S) c) env0).
        split; [apply HW; auto|]. rewrite Eh. symmetry. apply Hq.
  Qed.
End Bounds.

(** ** The whole reset *)
Lemma find_var_spec x l : NoDup l -> In x l -> exists i, find_var x l = Some i /\ nth_error l i = Some x.
Proof.
  induction l as [|y l IH]; intros ND Hin; [contradiction|]. simpl.
  inversion ND; subst. destruct (word_eqb y x) eqn:E.
  - apply word_eqb_eq in E. subst. exists 0. auto.
  - apply word_eqb_neq in E. destruct Hin as [->|Hin]; [congruence|].
    destruct (IH H2 Hin) as (i & Ei & Hi). exists (S i). rewrite Ei. auto.
Qed.

Lemma nodup_nth_inj {A} (l : list A) i j x : NoDup l -> nth_error l i = Some x -> nth_error l j = Some x -> i = j.
Proof.
  intros ND Hi Hj. apply (proj1 (NoDup_nth_error l) ND); [apply nth_error_Some; congruence|congruence].
Qed.

Section Whole.
  Variables (show : Q -> word) (read : word -> option Q) (D : bounds) (lg : logic) (mode : list word) (lo0 hi0 : vec).
  Hypothesis NDd : NoDup (disc_vars lg).
  Hypothesis NDc : NoDup (cont_vars lg).
  Hypothesis Lm : length mode = length (disc_vars lg).
  Hypothesis Ll : length lo0 = length (cont_vars lg).
  Hypothesis Lh : length hi0 = length (cont_vars lg).

  Definition rinv (done : list reset) (st : list (list word) * (vec * vec)) : Prop :=
    let '(pd, (lo, hi)) := st in
    length pd = length mode /\ length lo = length lo0 /\ length hi = length hi0 /\
    (forall i x, nth_error (cont_vars lg) i = Some x ->
       (forall r e, In r done -> rvar r = x -> is_mode_var x = false -> rval r = RArith e ->
          reset_bounds show read D e = Some (nth i lo 0%Q, nth i hi 0%Q)) /\
       ((forall r, In r done -> is_mode_var x = false -> rvar r <> x) -> nth i lo 0%Q = nth i lo0 0%Q /\ nth i hi 0%Q = nth i hi0 0%Q)) /\
    (forall i x, nth_error (disc_vars lg) i = Some x ->
       (forall r, In r done -> rvar r = x -> is_mode_var x = true -> nth i pd [] = choices (rval r)) /\
       ((forall r, In r done -> is_mode_var x = true -> rvar r <> x) -> nth i pd [] = [nth i mode []])).

  Lemma rinv_step done st r :
    rinv done st -> (forall r', In r' done -> rvar r' <> rvar r) ->
    ((is_mode_var (rvar r) = true /\ In (rvar r) (disc_vars lg) /\
       match rval r with RArith _ => False | RMember t _ => In t (mode_types lg) | _ => True end) \/
     (is_mode_var (rvar r) = false /\ In (rvar r) (cont_vars lg) /\
       exists e l h, rval r = RArith e /\ reset_bounds show read D e = Some (l, h))) ->
    exists st', apply_one show read lg D st r = Some st' /\ rinv (done ++ [r]) st'.
  Proof.
    destruct st as [pd [lo hi]]. intros (Hp & Hl & Hh & Hc & Hd) Hfresh Hok.
    unfold apply_one. fold (is_mode_var (rvar r)).
    destruct Hok as [(Em & Hin & Hr)|(Em & Hin & e & l & h & Er & Eb)]; rewrite Em.
    - destruct (@find_var_spec _ _ NDd Hin) as (i & Ei & Hi). rewrite Ei. cbn [obind].
      assert (Hil : i < length pd).
      { rewrite Hp, Lm. apply nth_error_Some. congruence. }
      exists (set_nth i (choices (rval r)) pd, (lo, hi)). split.
      { destruct (rval r) as [v|t m|res|e]; simpl; try reflexivity; [|contradiction].
        replace (existsb (word_eqb t) (mode_types lg)) with true; [reflexivity|]. symmetry.
        apply existsb_exists. exists t. split; [exact Hr|apply word_eqb_refl]. }
      unfold rinv. rewrite set_nth_length. repeat (split; [assumption|]). split.
      + intros j x Hj. destruct (Hc j x Hj) as [H1 H2]. split.
        * intros r' e Hr' Ex Emx Ee. apply in_app_iff in Hr'. destruct Hr' as [Hr'|[<-|[]]]; [eauto|congruence].
        * intros Hno. apply H2. intros r' Hr'. apply Hno. apply in_or_app; auto.
      + intros j x Hj. destruct (Hd j x Hj) as [H1 H2]. destruct (Nat.eq_dec i j) as [<-|Hij].
        * assert (x = rvar r) by congruence. subst x. rewrite set_nth_same by exact Hil. split.
          -- intros r' Hr' Ex _. apply in_app_iff in Hr'. destruct Hr' as [Hr'|[<-|[]]]; [|reflexivity].
             exfalso. eapply Hfresh; eauto.
          -- intros Hno. exfalso. apply (Hno r); auto. apply in_or_app; simpl; auto.
        * rewrite set_nth_other by exact Hij. split.
          -- intros r' Hr' Ex Emx. apply in_app_iff in Hr'. destruct Hr' as [Hr'|[<-|[]]]; [eauto|].
             exfalso. subst x. exact (Hij (@nodup_nth_inj _ _ _ _ _ NDd Hi Hj)).
          -- intros Hno. apply H2. intros r' Hr'. apply Hno. apply in_or_app; auto.
    - destruct (@find_var_spec _ _ NDc Hin) as (i & Ei & Hi). rewrite Ei. cbn [obind]. rewrite Er, Eb. cbn [obind fst snd].
      assert (Hil : i < length (cont_vars lg)) by (apply nth_error_Some; congruence).
      eexists. split; [reflexivity|].
      unfold rinv. rewrite !set_nth_length. repeat (split; [assumption|]). split.
      + intros j x Hj. destruct (Hc j x Hj) as [H1 H2]. destruct (Nat.eq_dec i j) as [<-|Hij].
        * assert (x = rvar r) by congruence. subst x. rewrite !set_nth_same by lia. split.
          -- intros r' e' Hr' Ex _ Ee. apply in_app_iff in Hr'. destruct Hr' as [Hr'|[<-|[]]]; [|congruence].
             exfalso. eapply Hfresh; eauto.
          -- intros Hno. exfalso. apply (Hno r); auto. apply in_or_app; simpl; auto.
        * rewrite !set_nth_other by exact Hij. split.
          -- intros r' e' Hr' Ex Emx Ee. apply in_app_iff in Hr'. destruct Hr' as [Hr'|[<-|[]]]; [eauto|].
             exfalso. subst x. exact (Hij (@nodup_nth_inj _ _ _ _ _ NDc Hi Hj)).
          -- intros Hno. apply H2. intros r' Hr'. apply Hno. apply in_or_app; auto.
      + intros j x Hj. destruct (Hd j x Hj) as [H1 H2]. split.
        * intros r' Hr' Ex Emx. apply in_app_iff in Hr'. destruct Hr' as [Hr'|[<-|[]]]; [eauto|congruence].
        * intros Hno. apply H2. intros r' Hr'. apply Hno. apply in_or_app; auto.
  Qed.

  Lemma rinv_fold rs : forall done st,
    rinv done st -> NoDup (map rvar (done ++ rs)) ->
    (forall r, In r rs ->
      (is_mode_var (rvar r) = true /\ In (rvar r) (disc_vars lg) /\
         match rval r with RArith _ => False | RMember t _ => In t (mode_types lg) | _ => True end) \/
      (is_mode_var (rvar r) = false /\ In (rvar r) (cont_vars lg) /\
         exists e l h, rval r = RArith e /\ reset_bounds show read D e = Some (l, h))) ->
    exists st', fold_left (fun acc r => do a <- acc; apply_one show read lg D a r) rs (Some st) = Some st' /\ rinv (done ++ rs) st'.
  Proof.
    induction rs as [|r rs IH]; intros done st Hinv ND Hok.
    - exists st. rewrite app_nil_r. auto.
    - destruct (@rinv_step done st r) as (st1 & E1 & I1); auto.
      + intros r' Hr' E. rewrite map_app in ND. simpl in ND. apply NoDup_remove_2 in ND. apply ND.
        rewrite <- E. apply in_or_app. left. apply in_map. exact Hr'.
      + apply Hok. simpl; auto.
      + destruct (IH (done ++ [r]) st1) as (st' & E & I'); auto.
        * rewrite <- app_assoc. exact ND.
        * intros; apply Hok; simpl; auto.
        * exists st'. simpl. rewrite E1. split; [exact E|]. rewrite <- app_assoc in I'. exact I'.
  Qed.

  Lemma rinv_init : rinv [] (map (fun m => [m]) mode, (lo0, hi0)).
  Proof.
    unfold rinv. rewrite map_length. repeat (split; [reflexivity|]). split.
    - intros i x Hi. split; [intros r e []|]. auto.
    - intros i x Hi. split; [intros r []|]. intros _.
      assert (i < length mode). { rewrite Lm. apply nth_error_Some. congruence. }
      rewrite (nth_indep _ [] [[]]) by (rewrite map_length; lia). exact (map_nth (fun m : word => [m]) mode [] i).
  Qed.

  Lemma apply_reset_full rs :
    resets_ok lg rs ->
    (forall r e, In r rs -> rval r = RArith e -> exists l h, reset_bounds show read D e = Some (l, h)) ->
    exists dests lo hi, apply_reset show read lg D mode (lo0, hi0) rs = Some (dests, (lo, hi)) /\
      length lo = length lo0 /\ length hi = length hi0 /\
      (forall i x, nth_error (cont_vars lg) i = Some x ->
         (forall r e, In r rs -> rvar r = x -> rval r = RArith e -> reset_bounds show read D e = Some (nth i lo 0%Q, nth i hi 0%Q)) /\
         ((forall r, In r rs -> is_mode_var x = false -> rvar r <> x) -> nth i lo 0%Q = nth i lo0 0%Q /\ nth i hi 0%Q = nth i hi0 0%Q)) /\
      (forall d, In d dests <-> length d = length mode /\
         forall i x, nth_error (disc_vars lg) i = Some x ->
           (forall r, In r rs -> rvar r = x -> is_mode_var x = true -> In (nth i d []) (choices (rval r))) /\
           ((forall r, In r rs -> is_mode_var x = true -> rvar r <> x) -> nth i d [] = nth i mode [])).
  Proof.
    intros [ND Hok] Hb.
    destruct (@rinv_fold rs [] (map (fun m => [m]) mode, (lo0, hi0)) rinv_init) as (st & E & Hinv); auto.
    { intros r Hr. destruct (Hok r Hr) as [H|(H1 & H2 & e & H3)]; [left; exact H|right].
      split; [exact H1|]. split; [exact H2|]. destruct (Hb r e Hr H3) as (l & h & H4). eauto 6. }
    destruct st as [pd [lo hi]]. simpl in Hinv. destruct Hinv as (Hp & Hl & Hh & Hc & Hd).
    exists (product pd), lo, hi. split.
    { unfold apply_reset. rewrite E. reflexivity. }
    split; [exact Hl|]. split; [exact Hh|]. split.
    { intros i x Hi. destruct (Hc i x Hi) as [H1 H2]. split; [|exact H2].
      intros r e Hr Ex Ee. eapply H1; eauto. subst x.
      destruct (Hok r Hr) as [(_ & _ & H)|(H & _)]; [rewrite Ee in H; contradiction|exact H]. }
    intros d. rewrite In_product, (Forall2_nth_iff _ _ _ [] []). rewrite Hp. split.
    - intros [HLd Hn]. split; [exact HLd|]. intros i x Hi. destruct (Hd i x Hi) as [H1 H2].
      assert (Hil : i < length d). { rewrite HLd, Lm. apply nth_error_Some. congruence. }
      specialize (Hn i Hil). split.
      + intros r Hr Ex Em. rewrite (H1 r Hr Ex Em) in Hn. exact Hn.
      + intros Hno. rewrite (H2 Hno) in Hn. destruct Hn as [Hn|[]]. congruence.
    - intros [HLd Hn]. split; [exact HLd|]. intros i Hil.
      destruct (nth_error (disc_vars lg) i) as [x|] eqn:Ex.
      2: { apply nth_error_None in Ex. lia. }
      destruct (Hn i x Ex) as [N1 N2]. destruct (Hd i x Ex) as [H1 H2].
      destruct (is_mode_var x) eqn:Em.
      + destruct (in_dec (list_eq_dec ascii_dec) x (map rvar rs)) as [Hin|Hni].
        * apply in_map_iff in Hin. destruct Hin as (r & Er & Hr). rewrite (H1 r Hr Er eq_refl). apply N1; auto.
        * rewrite H2; [left; symmetry; apply N2|]; intros r Hr _ Er; apply Hni, in_map_iff; eauto.
      + rewrite H2 by discriminate. left. symmetry. apply N2. discriminate.
  Qed.
End Whole.
