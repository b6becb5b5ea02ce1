(** What Python's parser builds is proper, and the text of a proper expression falls into the intended lexemes. *)
From Coq Require Import Ascii String.
From Verif Require Import Base PyText Unparse UnparseSpec UnparseProofs UnparseRound.
Set Implicit Arguments.
Open Scope nat_scope.

(** ** Lexemes *)
Definition junction (a b : piece) : bool := match a, b with T x, T y => negb (glue x y) | _, _ => true end.
Lemma lexable_cons p ps : lexable (p :: ps) = junction p (hd Sp ps) && lexable ps.
Proof. destruct p as [a|]; [|reflexivity]. destruct ps as [|[b|] ps]; reflexivity. Qed.
Lemma lexable_app a b : lexable (a ++ b) = lexable a && lexable b && junction (last a Sp) (hd Sp b).
Proof.
  induction a as [|p a IH]; [cbn; rewrite andb_true_r; reflexivity|]. cbn [app]. rewrite !lexable_cons, IH. destruct a as [|q a].
  - cbn. destruct (junction p (hd Sp b)); rewrite ?andb_true_r, ?andb_false_r; destruct p; cbn; rewrite ?andb_true_r; reflexivity.
  - cbn [app hd]. change (last (p :: q :: a) Sp) with (last (q :: a) Sp). rewrite !andb_assoc. reflexivity.
Qed.
Lemma last_app {A} (a b : list A) d : b <> [] -> last (a ++ b) d = last b d.
Proof. intros H. induction a as [|x a IH]; [reflexivity|]. cbn [app]. rewrite <- IH. cbn. destruct (a ++ b) eqn:E; [apply app_eq_nil in E; tauto|reflexivity]. Qed.

(** What the first and the last lexeme of a printed expression can be. *)
Definition opens (p : piece) : bool := match p with T t => start t | Sp => false end.
Definition ends (e : pexpr) (p : piece) : bool :=
  match p with T (TName _) | T TR | T TRB => true | T (TConst KInt _) => is_int e | T (TConst _ _) => true | _ => false end.
Lemma opens_head e : proper e = true -> opens (hd Sp (unparse e)) = true.
Proof.
  induction e; intros H; cbn [proper unparse] in *; try reflexivity.
  - destruct negative; [discriminate|reflexivity].
  - specialize (IHe H). destruct (unparse e); [discriminate|exact IHe].
  - apply andb_prop in H as [H _]. apply andb_prop in H as [H _]. specialize (IHe H). destruct (unparse e); [discriminate|exact IHe].
  - assert (H' : proper e1 = true) by (destruct e2; repeat (apply andb_prop in H as [H ?]); exact H). specialize (IHe1 H'). destruct (unparse e1); [discriminate|exact IHe1].
  - discriminate.
Qed.
Lemma ends_last e : proper e = true -> ends e (last (unparse e) Sp) = true.
Proof.
  assert (E1 : forall a b c : list piece, c <> [] -> last (a ++ b ++ c) Sp = last c Sp).
  { intros. rewrite last_app, last_app; auto. intros E. apply app_eq_nil in E. tauto. }
  assert (Q : forall (l : list piece) c, last (l ++ [c]) Sp = c) by (intros; apply last_last).
  destruct e; intros H; cbn [proper unparse] in *; try discriminate; try reflexivity; rewrite ?app_assoc, ?Q; try reflexivity.
  - destruct negative; [discriminate|]. cbn. destruct k; reflexivity.
  - rewrite last_app by discriminate. reflexivity.
Qed.

(** Lexemes beside which nothing runs together. *)
Definition quiet (t : tok) : bool := match t with TL | TR | TLB | TRB | TComma => true | _ => false end.
Lemma quiet_l t p : quiet t = true -> junction (T t) p = true.
Proof. destruct p as [u|]; [|reflexivity]. destruct t; try discriminate; destruct u; reflexivity. Qed.
Lemma quiet_r t p : quiet t = true -> junction p (T t) = true.
Proof. destruct p as [u|]; [|reflexivity]. destruct t; try discriminate; destruct u as [|[]| | | | | | | | | | | | ]; reflexivity. Qed.
Lemma sp_r p : junction p Sp = true. Proof. destruct p; reflexivity. Qed.

Definition lex_ok (e : pexpr) : Prop := lexable (unparse e) = true.
Lemma hd_app {A} (a b : list A) d : a <> [] -> hd d (a ++ b) = hd d a.
Proof. destruct a; [congruence|reflexivity]. Qed.
Lemma nonempty e : proper e = true -> unparse e <> [].
Proof. intros H E. pose proof (opens_head _ H) as O. rewrite E in O. discriminate. Qed.

(** Before [ps] anything may stand if it starts with a blank or a quiet lexeme. *)
Definition calm (ps : list piece) : Prop := forall p, junction p (hd Sp ps) = true.
Lemma calm_sp ps : calm (Sp :: ps). Proof. intros p. apply sp_r. Qed.
Lemma calm_quiet t ps : quiet t = true -> calm (T t :: ps). Proof. intros H p. apply quiet_r, H. Qed.
Lemma lex_calm a b : lexable a = true -> lexable b = true -> calm b -> lexable (a ++ b) = true.
Proof. intros A B C. rewrite lexable_app, A, B. apply C. Qed.
Lemma lex_sp a : lexable a = true -> lexable (Sp :: a) = true. Proof. auto. Qed.
Lemma lex_quiet t a : quiet t = true -> lexable a = true -> lexable (T t :: a) = true.
Proof. intros H A. rewrite lexable_cons, A, quiet_l by exact H. reflexivity. Qed.
Lemma lex_word t a : lexable (Sp :: a) = true -> lexable (T t :: Sp :: a) = true. Proof. auto. Qed.

Lemma calm_app a b : calm a -> calm b -> calm (a ++ b).
Proof. destruct a; [auto|]. intros A _ q. apply (A q). Qed.
Lemma calm_nil : calm []. Proof. intros p. apply sp_r. Qed.

Lemma lex_inter (l : list (list piece)) sep b : (forall x, In x l -> lexable x = true) -> lexable b = true -> calm b ->
  (forall X, lexable X = true -> lexable (sep ++ X) = true) -> (forall X, calm (sep ++ X)) -> lexable (interleave sep l ++ b) = true.
Proof.
  intros H B C S1 S2. induction l as [|a l IH]; [exact B|]. destruct l as [|a' l].
  - cbn [interleave]. apply lex_calm; auto. apply H. left; reflexivity.
  - change (interleave sep (a :: a' :: l)) with (a ++ sep ++ interleave sep (a' :: l)). rewrite <- !app_assoc. apply lex_calm; [apply H; left; reflexivity| |apply S2].
    apply S1, IH. intros x Hx. apply H. right; exact Hx.
Qed.
Lemma lex_flat {A} (f : A -> list piece) l b : (forall x X, In x l -> lexable X = true -> calm X -> lexable (f x ++ X) = true) -> (forall x X, calm (f x ++ X)) ->
  lexable b = true -> calm b -> lexable (flat_map f l ++ b) = true /\ calm (flat_map f l ++ b).
Proof.
  intros H C B Cb. induction l as [|a l IH]; [split; assumption|]. cbn [flat_map]. rewrite <- app_assoc.
  destruct IH as [I1 I2]; [intros; apply H; [right|..]; assumption|]. split; [apply H; [left; reflexivity|assumption|assumption]|apply C].
Qed.
Lemma comma_l X : lexable X = true -> lexable (comma ++ X) = true.
Proof. intros H. cbn [comma app]. apply lex_quiet; [reflexivity|]. exact H. Qed.
Lemma comma_calm X : calm (comma ++ X). Proof. apply calm_quiet. reflexivity. Qed.

Ltac lx :=
  repeat match goal with
    | |- _ => assumption
    | |- calm (Sp :: _) => apply calm_sp
    | |- calm (T _ :: _) => apply calm_quiet; reflexivity
    | |- lexable (T _ :: Sp :: _) = true => apply lex_word
    | |- lexable (T _ :: _) = true => apply lex_quiet; [reflexivity|]
    | |- lexable (Sp :: _) = true => apply lex_sp
    | |- lexable [] = true => reflexivity
    | |- lexable (_ ++ _) = true => apply lex_calm
    end.

Definition gen_text (g : pexpr * pexpr * list pexpr) : list piece :=
  [Sp; T (TKw KFor); Sp] ++ unparse (fst (fst g)) ++ [Sp; T (TKw KIn); Sp] ++ unparse (snd (fst g)) ++ flat_map (fun c => [Sp; T (TKw KIf); Sp] ++ unparse c) (snd g).
Lemma lex_gens gs b : (forall g, In g gs -> lex_ok (fst (fst g)) /\ lex_ok (snd (fst g)) /\ forall c, In c (snd g) -> lex_ok c) -> lexable b = true -> calm b ->
  lexable (flat_map gen_text gs ++ b) = true /\ calm (flat_map gen_text gs ++ b).
Proof.
  intros H B C. apply lex_flat; auto; [|intros x X; apply calm_sp]. intros g X Hg HX CX. destruct (H g Hg) as (H1 & H2 & H3). unfold gen_text. rewrite <- !app_assoc. cbn [app].
  unfold lex_ok in H1, H2.
  assert (L : lexable (flat_map (fun c => [Sp; T (TKw KIf); Sp] ++ unparse c) (snd g) ++ X) = true /\ calm (flat_map (fun c => [Sp; T (TKw KIf); Sp] ++ unparse c) (snd g) ++ X)).
  { apply lex_flat; auto; [|intros; apply calm_sp].
    intros c Y Hc HY CY. rewrite <- app_assoc. cbn [app]. specialize (H3 c Hc). unfold lex_ok in H3. lx. }
  destruct L as [L1 L2]. cbn [app] in L1, L2. lx.
Qed.

Lemma junction_start t p : opens p = true -> (wordlike t = false /\ t <> TDot) -> junction (T t) p = true.
Proof. intros H [W N]. destruct p as [u|]; [|reflexivity]. destruct t; try discriminate; try congruence; destruct u; try discriminate; reflexivity. Qed.

Theorem lexes m : forall e, size e <= m -> proper e = true -> lex_ok e.
Proof.
  induction m as [|m IH]; intros e Hs Hp; [destruct e; cbn in Hs; lia|]. unfold lex_ok in *.
  assert (GL : forall l, list_sum (map size l) <= m -> forallb proper l = true -> forall x, In x (map unparse l) -> lexable x = true).
  { intros l Hl Hpl x Hx. apply in_map_iff in Hx as (a & <- & Ha). rewrite forallb_forall in Hpl. apply IH; [pose proof (in_sum size l a Ha); lia|apply Hpl, Ha]. }
  assert (GG : forall gs, list_sum (map (fun g => size (fst (fst g)) + size (snd (fst g)) + list_sum (map size (snd g))) gs) <= m ->
     forallb (fun g => is_target (fst (fst g)) && proper (fst (fst g)) && proper (snd (fst g)) && forallb proper (snd g)) gs = true ->
     forall g, In g gs -> lex_ok (fst (fst g)) /\ lex_ok (snd (fst g)) /\ forall c, In c (snd g) -> lex_ok c).
  { intros gs Hg Hpg g Hin. rewrite forallb_forall in Hpg. specialize (Hpg g Hin). repeat (apply andb_prop in Hpg as [Hpg ?]).
    pose proof (in_sum (fun g => size (fst (fst g)) + size (snd (fst g)) + list_sum (map size (snd g))) gs g Hin) as Hsz. cbn beta in Hsz.
    split; [apply IH; auto; lia|]. split; [apply IH; auto; lia|]. intros c Hc. rewrite forallb_forall in H. apply IH; auto. pose proof (in_sum size (snd g) c Hc). lia. }
  destruct e; cbn [size proper] in Hs, Hp; cbn [unparse].
  - reflexivity.
  - destruct negative; [discriminate|reflexivity].
  - assert (L := IH e ltac:(lia) Hp). cbn [app]. apply lex_quiet; [reflexivity|]. apply lex_word. lx.
  - apply andb_prop in Hp as [P1 P2]. assert (L1 := IH e1 ltac:(lia) P1). assert (L2 := IH e2 ltac:(lia) P2). cbn [app]. lx.
  - apply andb_prop in Hp as [Hp P3]. apply andb_prop in Hp as [P1 P2]. assert (L := IH e ltac:(lia) P1). rewrite forallb_forall in P3. cbn [app].
    destruct (@lex_flat _ (fun r => [Sp] ++ cmp_text (fst r) ++ [Sp] ++ unparse (snd r)) rest [T TR]) as [F1 F2].
    + intros [o e'] X Hin HX CX. pose proof (in_sum (fun r => size (snd r)) rest (o, e') Hin) as Hz. cbn [snd fst] in *.
      assert (L' := IH e' ltac:(lia) (P3 _ Hin)). rewrite <- !app_assoc. destruct o; cbn [cmp_text app]; lx.
    + intros. apply calm_sp.
    + reflexivity.
    + apply calm_quiet. reflexivity.
    + cbn [app] in F1, F2. lx.
  - apply andb_prop in Hp as [P1 P2]. cbn [app]. apply lex_quiet; [reflexivity|]. apply lex_inter; [apply GL; auto; lia|reflexivity|apply calm_quiet; reflexivity| |intros; apply calm_sp].
    intros X HX. destruct o; exact HX.
  - apply andb_prop in Hp as [Hp P3]. apply andb_prop in Hp as [P1 P2]. assert (L1 := IH e1 ltac:(lia) P1). assert (L2 := IH e2 ltac:(lia) P2). assert (L3 := IH e3 ltac:(lia) P3). cbn [app]. lx.
  - assert (L := IH e ltac:(lia) Hp). rewrite lexable_app, L. destruct (is_int e) eqn:Ei; cbn [app].
    + rewrite sp_r. reflexivity.
    + pose proof (ends_last _ Hp) as En. cbn [andb lexable glue wordlike symbolic negb orb hd]. destruct (last (unparse e) Sp) as [[]|]; try discriminate; try reflexivity. destruct k; try reflexivity.
      cbn in En. congruence.
  - apply andb_prop in Hp as [Hp P3]. apply andb_prop in Hp as [P1 P2]. assert (L := IH e ltac:(lia) P1). cbn [app]. apply lex_calm; [exact L| |apply calm_quiet; reflexivity].
    apply lex_quiet; [reflexivity|]. apply lex_inter; [|reflexivity|apply calm_quiet; reflexivity|apply comma_l|apply comma_calm].
    intros x Hx. apply in_app_or in Hx as [Hx|Hx]; [apply (GL args); auto; lia|]. apply in_map_iff in Hx as ([o e'] & <- & Hk). cbn [fst snd].
    rewrite forallb_forall in P3. pose proof (in_sum (fun k => size (snd k)) keywords (o, e') Hk) as Hz. cbn [snd] in Hz. specialize (P3 _ Hk). cbn [snd] in P3. assert (L' := IH e' ltac:(lia) P3).
    rewrite lexable_app, L'. assert (J := opens_head _ P3). destruct o; cbn [last]; rewrite junction_start; auto; split; auto; discriminate.
  - assert (D : (exists lo up st, e2 = Slice lo up st) \/ (proper e1 && proper e2 = true)) by (destruct e2; eauto). destruct D as [(lo & up & st & ->)|D].
    + apply andb_prop in Hp as [Hp P4]. apply andb_prop in Hp as [Hp P3]. apply andb_prop in Hp as [P1 P2]. cbn [size] in Hs. assert (L := IH e1 ltac:(lia) P1). cbn [app unparse].
      apply lex_calm; [exact L| |apply calm_quiet; reflexivity]. apply lex_quiet; [reflexivity|].
      assert (OL : forall o : option pexpr, match o with None => true | Some e => proper e end = true -> match o with None => 0 | Some e => size e end <= m -> lexable (match o with None => [] | Some e => unparse e end) = true).
      { intros [e|] H1 H2; [apply IH; assumption|reflexivity]. }
      assert (OH : forall o X, match o with None => true | Some e => proper e end = true -> junction (T TColon) (hd Sp X) = true -> junction (T TColon) (hd Sp (match o with None => [] | Some e => unparse e end ++ X)) = true).
      { intros [e|] X H1 H2; [|exact H2]. rewrite hd_app by (apply nonempty, H1). apply junction_start; [apply opens_head, H1|split; [reflexivity|discriminate]]. }
      assert (CC : forall o X, match o with None => true | Some e => proper e end = true -> junction (last (match o with None => [] | Some e => unparse e end) Sp) (hd Sp (T TColon :: X)) = true).
      { intros [e|] X H1; [|reflexivity]. pose proof (ends_last _ H1) as En. cbn [hd]. destruct (last (unparse e) Sp) as [[]|]; try discriminate; try reflexivity. destruct k; reflexivity. }
      assert (LoL := OL lo P2 ltac:(lia)). assert (UpL := OL up P3 ltac:(lia)). assert (StL := OL st P4 ltac:(lia)).
      rewrite <- !app_assoc. cbn [app]. rewrite lexable_app, LoL, CC by exact P2. rewrite andb_true_r. cbn [andb]. rewrite lexable_cons.
      rewrite <- app_assoc. rewrite OH; [|exact P3|destruct st; reflexivity]. cbn [andb]. rewrite lexable_app, UpL. cbn [andb]. destruct st as [e|].
      * cbn [app]. rewrite lexable_cons. assert (P4' : match Some e with None => true | Some e => proper e end = true) by exact P4. pose proof (OH (Some e) [T TRB] P4' eq_refl) as J. cbn beta iota in J. rewrite J. cbn [andb].
        pose proof (CC up (unparse e ++ [T TRB]) P3) as J2. rewrite J2. rewrite andb_true_r. apply lex_calm; [exact StL|reflexivity|apply calm_quiet; reflexivity].
      * cbn [app hd]. rewrite quiet_r by reflexivity. reflexivity.
    + apply andb_prop in D as [P1 P2]. assert (L1 := IH e1 ltac:(lia) P1). assert (L2 := IH e2 ltac:(lia) P2). cbn [app]. lx.
  - discriminate.
  - cbn [app]. apply lex_quiet; [reflexivity|]. apply lex_inter; [apply GL; auto; lia|reflexivity|apply calm_quiet; reflexivity|apply comma_l|apply comma_calm].
  - cbn [app]. apply lex_quiet; [reflexivity|]. destruct elts as [|a [|b l]].
    + reflexivity.
    + cbn in Hs. cbn [forallb] in Hp. rewrite andb_true_r in Hp. assert (L := IH a ltac:(lia) Hp). rewrite <- app_assoc. cbn [app]. lx.
    + apply lex_inter; [apply GL; auto; lia|reflexivity|apply calm_quiet; reflexivity|apply comma_l|apply comma_calm].
  - assert (L := IH e ltac:(lia) Hp). cbn [app]. apply lex_quiet; [reflexivity|]. apply lex_word. apply lex_sp.
    assert (Lb : lexable (unparse e ++ [T TR]) = true) by lx.
    assert (LI : forall xs : list word, lexable (interleave comma (map (fun x => [T (TName x)]) xs) ++ T TColon :: Sp :: unparse e ++ [T TR]) = true).
    { induction xs as [|x xs IHx]; [exact Lb|]. destruct xs as [|y xs]; [exact Lb|].
      change (interleave comma (map (fun x => [T (TName x)]) (x :: y :: xs))) with ([T (TName x)] ++ comma ++ interleave comma (map (fun x => [T (TName x)]) (y :: xs))). rewrite <- !app_assoc. cbn [app comma] in *. exact IHx. }
    apply LI.
  - apply andb_prop in Hp as [Hp P3]. apply andb_prop in Hp as [P1 P2]. assert (L := IH e ltac:(lia) P1). cbn [app].
    destruct (@lex_gens gens [T TRB]) as [F1 F2]; [apply GG; auto; lia|reflexivity|apply calm_quiet; reflexivity|]. apply lex_quiet; [reflexivity|]. apply lex_calm; assumption.
  - apply andb_prop in Hp as [Hp P3]. apply andb_prop in Hp as [P1 P2]. assert (L := IH e ltac:(lia) P1). cbn [app].
    destruct (@lex_gens gens [T TR]) as [F1 F2]; [apply GG; auto; lia|reflexivity|apply calm_quiet; reflexivity|]. apply lex_quiet; [reflexivity|]. apply lex_calm; assumption.
Qed.

(** ** What the parser builds *)
Definition good (e : pexpr) : Prop := no_multi e = true -> proper e = true.
Definition goods (l : list pexpr) : Prop := forall e, In e l -> good e.
Lemma goods_forall l : goods l -> forallb no_multi l = true -> forallb proper l = true.
Proof. intros G H. rewrite forallb_forall in *. intros e He. apply G; auto. Qed.
Lemma goods_cons a l : good a -> goods l -> goods (a :: l).
Proof. intros A L e [<-|He]; auto. Qed.
Lemma goods_nil : goods []. Proof. intros e []. Qed.
Definition pgood (p : parser pexpr) : Prop := forall ts e r, p ts = Some (e, r) -> good e.

Ltac bnd H := match type of H with obind ?x _ = _ => let E := fresh "E" in let a := fresh "a" in let r := fresh "r" in
  destruct x as [[a r]|] eqn:E; cbn [obind fst snd] in H; [|discriminate H] end.

Section Good.
  Variable n : nat.
  Variable P : level -> parser pexpr.
  Hypothesis HP : forall l, pgood (P l).

  Lemma more_good sep p : pgood p -> forall k ts l r, more k sep p ts = Some (l, r) -> goods l.
  Proof.
    intros Hp. induction k as [|k IH]; intros ts l r H; [discriminate|]. cbn [more] in H. destruct ts as [|t ts]; [injection H as <- <-; apply goods_nil|].
    destruct (sep t); [|injection H as <- <-; apply goods_nil]. bnd H. bnd H. injection H as <- <-. apply goods_cons; eauto.
  Qed.
  (** [Q] holds of all items if it holds of what [p] returns. *)
  Lemma items_all (Q : pexpr -> Prop) p close : (forall ts e r, p ts = Some (e, r) -> Q e) -> forall k ts l r, items k p close ts = Some (l, r) -> forall e, In e l -> Q e.
  Proof.
    intros Hp. induction k as [|k IH]; intros ts l r H e He; [discriminate|]. cbn [items] in H. destruct ts as [|t ts]; [discriminate|].
    destruct (close t); [injection H as <- <-; destruct He|]. bnd H.
    assert (D : (exists r1, r0 = TComma :: r1 /\ (do y <- items k p close r1; Some (a :: fst y, snd y)) = Some (l, r)) \/ l = [a]).
    { destruct r0 as [|t1 r1]; [discriminate|]. destruct t1; try (destruct (close _); [injection H as <- <-; right; reflexivity|discriminate]). left. eauto. }
    destruct D as [(r1 & -> & D)| ->]; [|destruct He as [<-|[]]; eauto]. bnd D. injection D as <- <-. destruct He as [<-|He]; eauto.
  Qed.
  Definition ggood (g : pexpr * pexpr * list pexpr) : Prop := is_target (fst (fst g)) = true /\ good (fst (fst g)) /\ good (snd (fst g)) /\ goods (snd g).
  Lemma gens_good' : forall k ts gs r, gens n P k ts = Some (gs, r) -> forall g, In g gs -> ggood g.
  Proof.
    induction k as [|k IH]; intros ts gs r H g Hg; [discriminate|]. cbn [gens] in H.
    assert (D : (exists r', ts = TKw KFor :: r') \/ gs = []).
    { destruct ts as [|t ts]; [right; injection H as <- <-; reflexivity|]. destruct t; try (right; injection H as <- <-; reflexivity). destruct k0; try (right; injection H as <- <-; reflexivity). eauto. }
    destruct D as [[r' ->]| ->]; [|destruct Hg]. bnd H. destruct (is_target a) eqn:Et; [|discriminate].
    destruct r0 as [|t1 r1]; [discriminate|]. destruct t1; try discriminate. destruct k0; try discriminate. bnd H. bnd H. bnd H. injection H as <- <-.
    destruct Hg as [<-|Hg]; [|eauto]. split; [exact Et|]. cbn [fst snd]. split; [eapply HP; eassumption|]. split; [eapply HP; eassumption|]. eapply more_good; [|eassumption]. apply HP.
  Qed.
  Lemma gens_some k r gs r' : gens n P k (TKw KFor :: r) = Some (gs, r') -> gs <> [].
  Proof.
    destruct k as [|k]; [discriminate|]. cbn [gens]. intros H. bnd H. destruct (is_target a); [|discriminate]. destruct r0 as [|t1 r1]; [discriminate|]. destruct t1; try discriminate. destruct k0; try discriminate.
    bnd H. bnd H. bnd H. injection H as <- <-. discriminate.
  Qed.
  Lemma comp_good a gs : good a -> gs <> [] -> (forall g, In g gs -> ggood g) ->
    no_multi a && forallb (fun g => no_multi (fst (fst g)) && no_multi (snd (fst g)) && forallb no_multi (snd g)) gs = true ->
    proper a && negb (length gs =? 0) && forallb (fun g => is_target (fst (fst g)) && proper (fst (fst g)) && proper (snd (fst g)) && forallb proper (snd g)) gs = true.
  Proof.
    intros A N G H. apply andb_prop in H as [H1 H2]. rewrite (A H1). destruct gs as [|g0 gs0] eqn:Eg; [congruence|]. rewrite <- Eg in *. replace (length gs =? 0) with false by (rewrite Eg; reflexivity). cbn [negb andb].
    rewrite forallb_forall in *. intros g Hg. specialize (H2 g Hg). destruct (G g Hg) as (G1 & G2 & G3 & G4). apply andb_prop in H2 as [H2 H4]. apply andb_prop in H2 as [H2 H3].
    rewrite G1, (G2 H2), (G3 H3), (goods_forall G4 H4). reflexivity.
  Qed.
  Lemma bracketed_good close single several comp :
    (forall a, good a -> good (single a)) -> (forall l, goods l -> good (several l)) -> (forall a gs, good a -> gs <> [] -> (forall g, In g gs -> ggood g) -> good (comp a gs)) ->
    pgood (bracketed n P close single several comp).
  Proof.
    intros H1 H2 H3 ts e r H. unfold bracketed in H. destruct ts as [|t ts]; [discriminate|]. destruct (close t); [injection H as <- <-; apply H2, goods_nil|]. bnd H.
    assert (A : good a) by (eapply HP; eassumption).
    assert (D : (exists r1 l, (do y <- items n (P LExpr) close r1; Some (several (a :: fst y), snd y)) = Some (e, r) /\ l = r1) \/
                (exists r1, r0 = TKw KFor :: r1 /\ (do y <- gens n P n r0; match snd y with t1 :: r1 => if close t1 then Some (comp a (fst y), r1) else None | [] => None end) = Some (e, r)) \/ e = single a).
    { destruct r0 as [|t1 r1]; [discriminate|]. destruct t1; try (destruct (close _); [injection H as <- <-; right; right; reflexivity|discriminate]); [|left; eauto].
      destruct k; try (destruct (close _); [injection H as <- <-; right; right; reflexivity|discriminate]). right; left. eauto. }
    destruct D as [(r1 & _ & D & _)|[(r1 & Er & D)| ->]]; [| |auto].
    - bnd D. injection D as <- <-. apply H2. apply goods_cons; [exact A|]. intros x Hx. eapply (@items_all good); [|eassumption|exact Hx]. apply HP.
    - bnd D. destruct r2 as [|t2 r2]; [discriminate|]. destruct (close t2); [|discriminate]. injection D as <- <-. apply H3; [exact A|subst r0; eapply gens_some; eassumption|eapply gens_good'; eassumption].
  Qed.
  Lemma atom_good : pgood (atom n P).
  Proof.
    intros ts e r H. unfold atom in H. destruct ts as [|[] ts]; try discriminate.
    - injection H as <- <-. intros _. reflexivity.
    - injection H as <- <-. intros _. reflexivity.
    - eapply bracketed_good; [| | |exact H]; auto.
      + intros l Hl. exact (goods_forall Hl).
      + intros a gs A B C. exact (comp_good A B C).
    - eapply bracketed_good; [| | |exact H].
      + intros a A. intros Hm. cbn in *. rewrite andb_true_r in *. auto.
      + intros l Hl. exact (goods_forall Hl).
      + intros a gs A B C. exact (comp_good A B C).
  Qed.

  Lemma arguments_good : forall k kw ts args kws r, arguments P k kw ts = Some (args, kws, r) -> goods args /\ forall x, In x kws -> good (snd x).
  Proof.
    induction k as [|k IH]; intros kw ts args kws r H; [discriminate|].
    assert (Nx : forall b x args kws r, next_arg P k b x = Some (args, kws, r) -> goods args /\ forall x, In x kws -> good (snd x)).
    { intros b x args' kws' r' Hn. unfold next_arg in Hn. destruct x as [|[] x]; try discriminate; [injection Hn as <- <- <-; split; [apply goods_nil|intros ? []]|eauto]. }
    assert (KW : forall o r0, (do y <- P LExpr r0; do z <- next_arg P k true (snd y); Some (fst (fst z), (o, fst y) :: snd (fst z), snd z)) = Some (args, kws, r) -> goods args /\ forall x, In x kws -> good (snd x)).
    { intros o r0 Hk. bnd Hk. bnd Hk. destruct a0 as [a1 a2]. cbn [fst snd] in Hk. injection Hk as <- <- <-. destruct (Nx _ _ _ _ _ E0) as [N1 N2]. split; [exact N1|]. intros x [<-|Hx]; [cbn; eapply HP; eassumption|auto]. }
    assert (PO : (if kw then None else do y <- P LExpr ts; do z <- next_arg P k false (snd y); Some (fst y :: fst (fst z), snd (fst z), snd z)) = Some (args, kws, r) -> goods args /\ forall x, In x kws -> good (snd x)).
    { intros Hk. destruct kw; [discriminate|]. bnd Hk. bnd Hk. destruct a0 as [a1 a2]. cbn [fst snd] in Hk. injection Hk as <- <- <-. destruct (Nx _ _ _ _ _ E0) as [N1 N2]. split; [apply goods_cons; [eapply HP; eassumption|exact N1]|exact N2]. }
    destruct ts as [|t ts]; [apply PO, H|]. destruct t; try (apply PO; exact H).
    - destruct ts as [|[] ts]; try (apply PO; exact H). eapply (KW (Some x)); exact H.
    - destruct o; try (apply PO; exact H). eapply (KW None); exact H.
    - injection H as <- <- <-. split; [apply goods_nil|intros ? []].
  Qed.

  Definition slice_good (e : pexpr) : Prop :=
    match e with
    | Slice lo up st => no_multi e = true -> match lo with None => true | Some e => proper e end && match up with None => true | Some e => proper e end && match st with None => true | Some e => proper e end = true
    | _ => good e
    end.
  Lemma optional_good ts o r : optional P ts = Some (o, r) -> forall e, o = Some e -> good e.
  Proof.
    intros H e ->. unfold optional in H. destruct ts as [|[] ts]; try discriminate; bnd H; injection H as <- <-; eapply HP; eassumption.
  Qed.
  Arguments optional_good : clear implicits.
  Lemma not_slice e : is_slice e = false -> slice_good e = good e. Proof. destruct e; try reflexivity. discriminate. Qed.
  (** No expression that [P] returns is a slice. *)
  Hypothesis HS : forall l ts e r, P l ts = Some (e, r) -> is_slice e = false.
  Lemma opt_ok (o : option pexpr) : (forall e, o = Some e -> good e) -> match o with None => true | Some e => no_multi e end = true -> match o with None => true | Some e => proper e end = true.
  Proof. destruct o; intros H1 H2; [apply (H1 _ eq_refl), H2|reflexivity]. Qed.
  Lemma slice_is_good ts e r : slice P ts = Some (e, r) -> slice_good e.
  Proof.
    unfold slice. intros H. bnd H.
    assert (S : forall up st, (forall e, up = Some e -> good e) -> (forall e, st = Some e -> good e) -> slice_good (Slice a up st)).
    { intros up st H1 H2 Hm. cbn [no_multi] in Hm. apply andb_prop in Hm as [Hm M3]. apply andb_prop in Hm as [M1 M2].
      rewrite (opt_ok (optional_good _ _ _ E) M1), (opt_ok H1 M2), (opt_ok H2 M3). reflexivity. }
    assert (D : (exists r1, r0 = TColon :: r1) \/ (a = Some e)).
    { destruct r0 as [|t r1]; [destruct a; [injection H as <- <-; auto|discriminate]|]. destruct t; try (destruct a; [injection H as <- <-; auto|discriminate]). eauto. }
    destruct D as [[r1 ->]| ->].
    - bnd H. assert (D2 : (exists r2, r0 = TColon :: r2) \/ e = Slice a a0 None).
      { destruct r0 as [|t r2]; [injection H as <- <-; auto|]. destruct t; try (injection H as <- <-; auto). eauto. }
      destruct D2 as [[r2 ->]| ->]; [|apply S; [exact (optional_good _ _ _ E0)|discriminate]]. bnd H. injection H as <- <-. apply S; [exact (optional_good _ _ _ E0)|exact (optional_good _ _ _ E1)].
    - rewrite not_slice; [apply (optional_good _ _ _ E _ eq_refl)|]. clear - E HS. unfold optional in E. destruct ts as [|[] ts]; try discriminate; bnd E; injection E as <- <-; eapply HS; eassumption.
  Qed.
  Lemma sub_good a s : good a -> slice_good s -> good (Subscript a s).
  Proof.
    intros A S Hm. cbn [no_multi] in Hm. apply andb_prop in Hm as [Hm _]. apply andb_prop in Hm as [M1 M2]. destruct (is_slice s) eqn:Is.
    - destruct s; try discriminate. cbn [proper]. specialize (S M2). apply andb_prop in S as [S S3]. apply andb_prop in S as [S1 S2]. rewrite (A M1), S1, S2, S3. reflexivity.
    - rewrite not_slice in S by exact Is. replace (proper (Subscript a s)) with (proper a && proper s) by (destruct s; try reflexivity; discriminate). rewrite (A M1), (S M2). reflexivity.
  Qed.
  Lemma sub_tuple a l : good a -> (forall s, In s l -> slice_good s) -> good (Subscript a (Tuple l)).
  Proof.
    intros A L Hm. cbn [no_multi] in Hm. apply andb_prop in Hm as [Hm M3]. apply andb_prop in Hm as [M1 M2]. cbn [proper]. rewrite (A M1). cbn [andb]. rewrite forallb_forall in M2 |- *. intros s Hs.
    assert (Is : is_slice s = false). { destruct (is_slice s) eqn:Is; [|reflexivity]. apply negb_true_iff in M3. assert (existsb is_slice l = true) by (apply existsb_exists; eauto). congruence. }
    pose proof (L s Hs) as G. rewrite not_slice in G by exact Is. apply G, M2, Hs.
  Qed.
  Lemma subscript_good a ts s r : good a -> subscript n P ts = Some (s, r) -> good (Subscript a s).
  Proof.
    intros A H. unfold subscript in H. bnd H. pose proof (slice_is_good _ E) as S. destruct r0 as [|[] r0]; try discriminate.
    - injection H as <- <-. apply sub_good; assumption.
    - bnd H. injection H as <- <-. apply sub_tuple; [exact A|]. intros x [<-|Hx]; [exact S|]. eapply (@items_all slice_good); [|eassumption|exact Hx]. apply slice_is_good.
  Qed.
  Lemma lone_good : pgood (lone n P).
  Proof.
    intros ts e r H. unfold lone in H. bnd H. destruct r0 as [|[] r0]; try discriminate. destruct k; try discriminate. bnd H. destruct r1 as [|[] r1]; try discriminate. injection H as <- <-.
    intros Hm. apply (comp_good (HP E) (gens_some _ _ E0) (gens_good' _ _ E0) Hm).
  Qed.
  Lemma trailers_good : forall k a ts e r, good a -> trailers n P k a ts = Some (e, r) -> good e.
  Proof.
    induction k as [|k IH]; intros a ts e r A H; [discriminate|]. cbn [trailers] in H.
    assert (St : Some (a, ts) = Some (e, r) -> good e) by (intros [= <- <-]; exact A).
    destruct ts as [|t ts]; [apply St, H|]. destruct t; try (apply St; exact H).
    - destruct (lone n P ts) as [[g r1]|] eqn:El.
      { eapply IH; [|exact H]. intros Hm. cbn in Hm |- *. rewrite !andb_true_r in *. apply andb_prop in Hm as [M1 M2]. rewrite (A M1). cbn. eapply lone_good; eassumption. }
      bnd H. destruct a0 as [args kws]. cbn [fst snd] in H. destruct (arguments_good _ _ _ E) as [G1 G2]. eapply IH; [|exact H]. intros Hm. cbn [no_multi] in Hm. apply andb_prop in Hm as [Hm M3]. apply andb_prop in Hm as [M1 M2].
      cbn [proper]. rewrite (A M1), (goods_forall G1 M2). cbn [andb]. rewrite forallb_forall in M3 |- *. intros x Hx. apply G2; auto.
    - bnd H. eapply IH; [|exact H]. eapply subscript_good; eassumption.
    - destruct ts as [|[] ts]; try discriminate. eapply IH; [|exact H]. exact A.
  Qed.
  Lemma primary_good : pgood (primary n P).
  Proof. intros ts e r H. unfold primary in H. bnd H. eapply trailers_good; [|exact H]. eapply atom_good; eassumption. Qed.
  Lemma good_un o a : good a -> good (UnaryOp o a). Proof. auto. Qed.
  Lemma good_bin o a b : good a -> good b -> good (BinOp o a b).
  Proof. intros A B Hm. cbn in *. apply andb_prop in Hm as [M1 M2]. rewrite (A M1), (B M2). reflexivity. Qed.
  Lemma factor_good : forall k ts e r, factor n P k ts = Some (e, r) -> good e.
  Proof.
    induction k as [|k IH]; intros ts e r H; [discriminate|]. cbn [factor] in H.
    assert (PR : (do x <- primary n P ts; match snd x with TBin Pow :: r => do y <- factor n P k r; Some (BinOp Pow (fst x) (fst y), snd y) | _ => Some x end) = Some (e, r) -> good e).
    { intros Hk. bnd Hk. pose proof (primary_good _ E) as G. destruct r0 as [|[] r0]; try (injection Hk as <- <-; exact G). destruct o; try (injection Hk as <- <-; exact G). bnd Hk. injection Hk as <- <-. apply good_bin; eauto. }
    destruct ts as [|t ts]; [apply PR, H|]. destruct t; try (apply PR; exact H).
    - destruct o; try (apply PR; exact H); bnd H; injection H as <- <-; apply good_un; eauto.
    - bnd H; injection H as <- <-; apply good_un; eauto.
  Qed.
  Lemma left_good ops p : pgood p -> forall k a ts e r, good a -> left_assoc k ops p a ts = Some (e, r) -> good e.
  Proof.
    intros Hp. induction k as [|k IH]; intros a ts e r A H; [discriminate|]. cbn [left_assoc] in H.
    assert (St : Some (a, ts) = Some (e, r) -> good e) by (intros [= <- <-]; exact A).
    destruct ts as [|t ts]; [apply St, H|]. destruct t; try (apply St; exact H). destruct (existsb (binop_eqb o) ops); [|apply St; exact H]. bnd H. eapply IH; [|exact H]. apply good_bin; eauto.
  Qed.
  Lemma binary_good ls : pgood (binary n P ls).
  Proof. induction ls as [|ops ls IH]; [intros ts e r; apply factor_good|]. intros ts e r H. cbn [binary] in H. bnd H. eapply left_good; [exact IH| |exact H]. eapply IH; eassumption. Qed.
  Lemma compares_good : forall k ts l r, compares n P k ts = Some (l, r) -> forall x, In x l -> good (snd x).
  Proof.
    induction k as [|k IH]; intros ts l r H x Hx; [discriminate|]. cbn [compares] in H. destruct (read_cmp ts) as [[o r1]|]; [|injection H as <- <-; destruct Hx].
    bnd H. bnd H. injection H as <- <-. destruct Hx as [<-|Hx]; [cbn; eapply binary_good; eassumption|eauto].
  Qed.
  Lemma comparison_good : pgood (comparison n P).
  Proof.
    intros ts e r H. unfold comparison in H. bnd H. bnd H. injection H as <- <-. pose proof (binary_good _ _ E) as G. pose proof (compares_good _ _ E0) as G2. destruct a0 as [|x l]; [exact G|].
    intros Hm. cbn [no_multi] in Hm. apply andb_prop in Hm as [M1 M2]. cbn [proper]. rewrite (G M1). replace (length (x :: l) =? 0) with false by reflexivity. cbn [negb andb]. rewrite forallb_forall in M2 |- *. intros y Hy. apply G2; auto.
  Qed.
  Lemma inversion_good : forall k ts e r, inversion n P k ts = Some (e, r) -> good e.
  Proof.
    induction k as [|k IH]; intros ts e r H; [discriminate|]. cbn [inversion] in H. destruct ts as [|t ts]; [eapply comparison_good, H|]. destruct t; try (eapply comparison_good; exact H).
    destruct k0; try (eapply comparison_good; exact H). bnd H. injection H as <- <-. apply good_un. eauto.
  Qed.
  Lemma joined_good o sep p : pgood p -> pgood (joined n o sep p).
  Proof.
    intros Hp ts e r H. unfold joined in H. bnd H. bnd H. injection H as <- <-. pose proof (Hp _ _ _ E) as G. pose proof (more_good sep Hp n _ E0) as G2. destruct a0 as [|x l]; [exact G|].
    intros Hm. cbn [no_multi] in Hm. cbn [proper]. rewrite (goods_forall (goods_cons G G2) Hm). reflexivity.
  Qed.
  Lemma disjunction_good : pgood (disjunction n P).
  Proof. apply joined_good, joined_good. intros ts e r. apply inversion_good. Qed.
  Lemma expression_good : pgood (expression n P).
  Proof.
    intros ts e r H.
    assert (D : (exists r1, ts = TKw KLambda :: r1) \/ no_lambda ts) by (destruct ts as [|[] ts]; cbn; auto; destruct k; eauto). destruct D as [[r1 ->]|D].
    - cbn [expression] in H. bnd H. bnd H. injection H as <- <-. assert (G : good a0) by (eapply HP; eassumption). exact G.
    - rewrite expression_or in H by exact D. bnd H. pose proof (disjunction_good _ E) as G. destruct r0 as [|t r0]; [injection H as <- <-; exact G|]. destruct t; try (injection H as <- <-; exact G). destruct k; try (injection H as <- <-; exact G).
      bnd H. pose proof (disjunction_good _ E0) as G2. destruct r1 as [|[] r1]; try discriminate. destruct k; try discriminate. bnd H. injection H as <- <-. assert (G3 : good a1) by (eapply HP; eassumption).
      intros Hm. cbn in *. apply andb_prop in Hm as [Hm M3]. apply andb_prop in Hm as [M1 M2]. rewrite (G M1), (G2 M2), (G3 M3). reflexivity.
  Qed.
End Good.

(** ... and no slices outside of subscripts. *)
Definition flat (p : parser pexpr) : Prop := forall ts e r, p ts = Some (e, r) -> is_slice e = false.
Section Flat.
  Variable n : nat.
  Variable P : level -> parser pexpr.
  Hypothesis HP : forall l, flat (P l).

  Lemma bracketed_flat close single several comp : (forall a, is_slice a = false -> is_slice (single a) = false) -> (forall l, is_slice (several l) = false) -> (forall a gs, is_slice (comp a gs) = false) ->
    flat (bracketed n P close single several comp).
  Proof.
    intros H1 H2 H3 ts e r H. unfold bracketed in H. destruct ts as [|t ts]; [discriminate|]. destruct (close t); [injection H as <- <-; apply H2|]. bnd H. assert (G : is_slice a = false) by (eapply HP; eassumption).
    destruct r0 as [|t1 r1]; [discriminate|]. destruct t1; try (destruct (close _); [injection H as <- <-; auto|discriminate]); [|bnd H; injection H as <- <-; apply H2].
    destruct k; try (destruct (close _); [injection H as <- <-; auto|discriminate]). bnd H. destruct r0 as [|t2 r2]; [discriminate|]. destruct (close t2); [|discriminate]. injection H as <- <-. apply H3.
  Qed.
  Lemma atom_flat : flat (atom n P).
  Proof. intros ts e r H. unfold atom in H. destruct ts as [|[] ts]; try discriminate; try (injection H as <- <-; reflexivity); eapply bracketed_flat in H; auto. Qed.
  Lemma trailers_flat : forall k a ts e r, is_slice a = false -> trailers n P k a ts = Some (e, r) -> is_slice e = false.
  Proof.
    induction k as [|k IH]; intros a ts e r A H; [discriminate|]. cbn [trailers] in H.
    destruct ts as [|t ts]; [injection H as <- <-; exact A|]. destruct t; try (injection H as <- <-; exact A).
    - destruct (lone n P ts) as [[g r1]|]; [eapply IH; [|exact H]; reflexivity|]. bnd H. eapply IH; [|exact H]. reflexivity.
    - bnd H. eapply IH; [|exact H]. reflexivity.
    - destruct ts as [|[] ts]; try discriminate. eapply IH; [|exact H]. reflexivity.
  Qed.
  Lemma primary_flat : flat (primary n P).
  Proof. intros ts e r H. unfold primary in H. bnd H. eapply trailers_flat; [|exact H]. eapply atom_flat; eassumption. Qed.
  Lemma factor_flat : forall k, flat (factor n P k).
  Proof.
    induction k as [|k IH]; intros ts e r H; [discriminate|]. cbn [factor] in H.
    assert (PR : (do x <- primary n P ts; match snd x with TBin Pow :: r => do y <- factor n P k r; Some (BinOp Pow (fst x) (fst y), snd y) | _ => Some x end) = Some (e, r) -> is_slice e = false).
    { intros Hk. bnd Hk. pose proof (primary_flat _ E) as G. destruct r0 as [|[] r0]; try (injection Hk as <- <-; exact G). destruct o; try (injection Hk as <- <-; exact G). bnd Hk. injection Hk as <- <-. reflexivity. }
    destruct ts as [|t ts]; [apply PR, H|]. destruct t; try (apply PR; exact H).
    - destruct o; try (apply PR; exact H); bnd H; injection H as <- <-; reflexivity.
    - bnd H; injection H as <- <-; reflexivity.
  Qed.
  Lemma left_flat ops p : forall k a ts e r, is_slice a = false -> left_assoc k ops p a ts = Some (e, r) -> is_slice e = false.
  Proof.
    induction k as [|k IH]; intros a ts e r A H; [discriminate|]. cbn [left_assoc] in H.
    destruct ts as [|t ts]; [injection H as <- <-; exact A|]. destruct t; try (injection H as <- <-; exact A). destruct (existsb (binop_eqb o) ops); [|injection H as <- <-; exact A]. bnd H. eapply IH; [|exact H]. reflexivity.
  Qed.
  Lemma binary_flat ls : flat (binary n P ls).
  Proof. induction ls as [|ops ls IH]; [apply factor_flat|]. intros ts e r H. cbn [binary] in H. bnd H. eapply left_flat; [|exact H]. eapply IH; eassumption. Qed.
  Lemma inversion_flat : forall k, flat (inversion n P k).
  Proof.
    assert (C : flat (comparison n P)).
    { intros ts e r H. unfold comparison in H. bnd H. bnd H. injection H as <- <-. destruct a0; [eapply binary_flat; eassumption|reflexivity]. }
    induction k as [|k IH]; intros ts e r H; [discriminate|]. cbn [inversion] in H. destruct ts as [|t ts]; [eapply C, H|]. destruct t; try (eapply C; exact H).
    destruct k0; try (eapply C; exact H). bnd H. injection H as <- <-. reflexivity.
  Qed.
  Lemma joined_flat o sep p : flat p -> flat (joined n o sep p).
  Proof. intros Hp ts e r H. unfold joined in H. bnd H. bnd H. injection H as <- <-. destruct a0; [eapply Hp; eassumption|reflexivity]. Qed.
  Lemma disjunction_flat : flat (disjunction n P).
  Proof. apply joined_flat, joined_flat, inversion_flat. Qed.
  Lemma expression_flat : flat (expression n P).
  Proof.
    intros ts e r H. assert (D : (exists r1, ts = TKw KLambda :: r1) \/ no_lambda ts) by (destruct ts as [|[] ts]; cbn; auto; destruct k; eauto). destruct D as [[r1 ->]|D].
    - cbn [expression] in H. bnd H. bnd H. injection H as <- <-. reflexivity.
    - rewrite expression_or in H by exact D. bnd H. pose proof (disjunction_flat _ E) as G. destruct r0 as [|t r0]; [injection H as <- <-; exact G|]. destruct t; try (injection H as <- <-; exact G). destruct k; try (injection H as <- <-; exact G).
      bnd H. destruct r1 as [|[] r1]; try discriminate. destruct k; try discriminate. bnd H. injection H as <- <-. reflexivity.
  Qed.
End Flat.

Lemma parse_flat n : forall l, flat (parse n l).
Proof. induction n as [|n IH]; intros l ts e r H; [discriminate|]. cbn [parse] in H. destruct l; [eapply expression_flat|eapply disjunction_flat|eapply primary_flat]; eauto. Qed.
Lemma parse_good n : forall l, pgood (parse n l).
Proof.
  induction n as [|n IH]; intros l ts e r H; [discriminate|]. cbn [parse] in H. destruct l; [eapply expression_good|eapply disjunction_good|eapply primary_good]; eauto; intros; eapply parse_flat; eassumption.
Qed.
Theorem reads_proper ts e : reads ts e -> no_multi e = true -> proper e = true.
Proof. intros [m H]. apply (parse_good m LExpr ts (H m (le_n m))). Qed.
Theorem text_lexes e : proper e = true -> lexable (unparse e) = true.
Proof. apply (@lexes (size e)). lia. Qed.
