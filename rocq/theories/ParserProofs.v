(** Proofs for ParserProps.v: expressions. *)
From Coq Require Import Ascii String Lia.
From Verif Require Import Base BaseFacts Dict PyText Parser PySem ParserSpec ScanProofs.
Set Implicit Arguments.
Open Scope nat_scope.

(** ** Induction principles *)
Section PexInd.
  Variable P : pex -> Prop.
  Hypothesis HConst : forall c, P (EConst c).
  Hypothesis HName : forall x, P (EName x).
  Hypothesis HHole : forall x, P (EHole x).
  Hypothesis HAttr : forall e a, P e -> P (EAttr e a).
  Hypothesis HNot : forall e, P e -> P (ENot e).
  Hypothesis HUn : forall o e, P e -> P (EUn o e).
  Hypothesis HBin : forall o l r, P l -> P r -> P (EBin o l r).
  Hypothesis HBool : forall b es, Forall P es -> P (EBool b es).
  Hypothesis HCmp : forall l rest, P l -> Forall (fun p => P (snd p)) rest -> P (ECmp l rest).
  Hypothesis HCall : forall f args, P f -> Forall P args -> P (ECall f args).
  Hypothesis HGen : forall q b x i ifs, P b -> P i -> Forall P ifs -> P (EGen q b x i ifs).
  Hypothesis HRed : forall q b x i, P b -> P i -> P (ERed q b x i).
  Hypothesis HIte : forall t a b, P t -> P a -> P b -> P (EIte t a b).
  Fixpoint pex_ind' (e : pex) : P e :=
    let go := (fix go l : Forall P l := match l with [] => Forall_nil _ | a :: l' => Forall_cons a (pex_ind' a) (go l') end) in
    match e with
    | EConst c => HConst c
    | EName x => HName x
    | EHole x => HHole x
    | EAttr e a => HAttr a (pex_ind' e)
    | ENot e => HNot (pex_ind' e)
    | EUn o e => HUn o (pex_ind' e)
    | EBin o l r => HBin o (pex_ind' l) (pex_ind' r)
    | EBool b es => HBool b (go es)
    | ECmp l rest => HCmp (pex_ind' l)
        ((fix gop l : Forall (fun p => P (snd p)) l :=
           match l with [] => Forall_nil _ | p :: l' => Forall_cons p (match p as p0 return P (snd p0) with (_, r) => pex_ind' r end) (gop l') end) rest)
    | ECall f args => HCall (pex_ind' f) (go args)
    | EGen q b x i ifs => HGen q x (pex_ind' b) (pex_ind' i) (go ifs)
    | ERed q b x i => HRed q x (pex_ind' b) (pex_ind' i)
    | EIte t a b => HIte (pex_ind' t) (pex_ind' a) (pex_ind' b)
    end.
End PexInd.

Section StmtInd.
  Variable P : stmt -> Prop.
  Hypothesis HAssign : forall x e, P (SAssign x e).
  Hypothesis HSet : forall o a e, P (SSetAttr o a e).
  Hypothesis HCopy : forall x y, P (SCopy x y).
  Hypothesis HIf : forall t b c, Forall P b -> Forall P c -> P (SIf t b c).
  Hypothesis HAssert : forall e l, P (SAssert e l).
  Hypothesis HReturn : forall e, P (SReturn e).
  Hypothesis HDef : forall f ps body, Forall P body -> P (SDef f ps body).
  Fixpoint stmt_ind' (s : stmt) : P s :=
    let go := (fix go l : Forall P l := match l with [] => Forall_nil _ | a :: l' => Forall_cons a (stmt_ind' a) (go l') end) in
    match s with
    | SAssign x e => HAssign x e
    | SSetAttr o a e => HSet o a e
    | SCopy x y => HCopy x y
    | SIf t b c => HIf t (go b) (go c)
    | SAssert e l => HAssert e l
    | SReturn e => HReturn e
    | SDef f ps body => HDef f ps (go body)
    end.
End StmtInd.

(** ** Equality *)
Lemma all2_iff {A} (f : A -> A -> bool) l : Forall (fun a => forall b, f a b = true <-> a = b) l -> forall m, all2 f l m = true <-> l = m.
Proof.
  induction 1 as [|a l Ha Hl IH]; intros [|b m]; cbn; try (split; [discriminate|discriminate]); [split; auto|].
  rewrite andb_true_iff, Ha, IH. split; [intros [-> ->]; reflexivity|intros [= -> ->]; auto].
Qed.
Lemma all2_eq {A} (f : A -> A -> bool) : (forall a b, f a b = true <-> a = b) -> forall l m, all2 f l m = true <-> l = m.
Proof. intros H l. apply all2_iff. rewrite Forall_forall. auto. Qed.

Lemma pex_eqb_iff : forall e e', pex_eqb e e' = true <-> e = e'.
Proof.
  induction e using pex_ind'; intros [] ; cbn; try (split; [discriminate|discriminate]);
    rewrite ?andb_true_iff, ?word_eqb_iff, ?Bool.eqb_true_iff, ?IHe, ?IHe1, ?IHe2, ?IHe3;
    try rewrite (all2_iff _ H); try (split; intuition congruence).
  assert (K : forall rs, all2 (fun p p' : word * pex => let (o, r) := p in word_eqb o (fst p') && pex_eqb r (snd p')) rest rs = true <-> rest = rs).
  { induction H as [|[o r] rest Hr Hrest IH]; intros [|[o' r'] rs]; cbn; try (split; [discriminate|discriminate]); [split; auto|].
    cbn in Hr. rewrite !andb_true_iff, word_eqb_iff, Hr, IH. split; [intros [[-> ->] ->]; reflexivity|intros [= -> -> ->]; auto]. }
  rewrite K. split; intuition congruence.
Qed.
Lemma case_eqb_iff c d : case_eqb c d = true <-> c = d.
Proof.
  destruct c as [a b], d as [a' b']. unfold case_eqb. cbn. rewrite andb_true_iff, pex_eqb_iff, (all2_eq _ pex_eqb_iff).
  split; [intros [-> ->]; reflexivity|intros [= -> ->]; auto].
Qed.
Lemma cval_eqb_iff c d : cval_eqb c d = true <-> c = d.
Proof.
  destruct c, d; cbn; try (split; [discriminate|discriminate]); [rewrite pex_eqb_iff|rewrite (all2_eq _ case_eqb_iff)]; split; congruence.
Qed.
Lemma sval_eqb_iff c d : sval_eqb c d = true <-> c = d.
Proof.
  destruct c, d; cbn; try (split; [discriminate|discriminate]).
  - rewrite cval_eqb_iff. split; congruence.
  - rewrite all2_eq; [split; congruence|]. intros [k c] [k' c']. cbn. rewrite andb_true_iff, word_eqb_iff, cval_eqb_iff.
    split; [intros [-> ->]; reflexivity|intros [= -> ->]; auto].
  - rewrite andb_true_iff, pex_eqb_iff, (all2_eq _ word_eqb_iff). split; [intros [-> ->]; reflexivity|intros [= -> ->]; auto].
Qed.

(** ** Dictionaries and functions *)
Lemma get_set_same {V} k (v : V) d : get k (set k v d) = Some v.
Proof. unfold get, set, dset. now rewrite (dget_alter_same _ word_eqb_iff). Qed.
Lemma get_set_other {V} k k' (v : V) d : k <> k' -> get k' (set k v d) = get k' d.
Proof. intros H. unfold get, set, dset. now apply (dget_alter_other _ word_eqb_iff). Qed.
Lemma get_set {V} k k' (v : V) d : get k' (set k v d) = if word_eqb k k' then Some v else get k' d.
Proof.
  destruct (word_eqb k k') eqn:E; [apply word_eqb_iff in E; subst; apply get_set_same|].
  apply get_set_other. intros ->. assert (word_eqb k' k' = true) by now apply word_eqb_iff. congruence.
Qed.
Lemma word_eqb_refl x : word_eqb x x = true. Proof. now apply word_eqb_iff. Qed.
Lemma word_eqb_neq x y : x <> y -> word_eqb x y = false.
Proof. intros H. destruct (word_eqb x y) eqn:E; [apply word_eqb_iff in E; congruence|reflexivity]. Qed.
Lemma bound_iff {V} k (d : dict word V) : bound k d = true <-> get k d <> None.
Proof. unfold bound. destruct (get k d); split; congruence. Qed.
Lemma mem_iff x l : mem x l = true <-> In x l.
Proof.
  unfold mem. rewrite existsb_exists. split; [intros (y & H & E); apply word_eqb_iff in E; now subst|intros H; exists x; split; [exact H|apply word_eqb_refl]].
Qed.

Lemma In_concat_map {A B} (f : A -> list B) l b : In b (concat_map f l) <-> exists a, In a l /\ In b (f a).
Proof.
  induction l as [|a l IH]; cbn; [split; [easy|intros (? & [] & _)]|]. rewrite in_app_iff, IH. split.
  - intros [H|(x & H1 & H2)]; [exists a; auto|exists x; auto].
  - intros (x & [->|H1] & H2); [auto|right; exists x; auto].
Qed.
Lemma all_of_In {A} (P : A -> Prop) l : all_of P l <-> forall a, In a l -> P a.
Proof.
  induction l as [|a l IH]; cbn; [split; [intros _ ? []|auto]|]. rewrite IH. split; [intros [H1 H2] x [<-|H]; auto|intros H; split; [apply H; auto|intros x Hx; apply H; auto]].
Qed.
Lemma In_without x y l : In y (without x l) <-> In y l /\ x <> y.
Proof.
  unfold without. rewrite filter_In. split; intros [H1 H2]; (split; [exact H1|]).
  - intros ->. rewrite word_eqb_refl in H2. discriminate.
  - now rewrite word_eqb_neq.
Qed.

Lemma omap_mapM {A B} (f : A -> option B) l : omap f l = mapM f l.
Proof. induction l as [|a l IH]; cbn; [reflexivity|]. rewrite IH. reflexivity. Qed.
Lemma omap_Forall2 {A B} (f : A -> option B) l m : omap f l = Some m <-> Forall2 (fun a b => f a = Some b) l m.
Proof. rewrite omap_mapM. apply mapM_Forall2. Qed.

Lemma upd_same {A} (f : word -> option A) x v : upd f x v x = Some v.
Proof. unfold upd. now rewrite word_eqb_refl. Qed.
Lemma upd_other {A} (f : word -> option A) x y v : x <> y -> upd f x v y = f y.
Proof. intros H. unfold upd. now rewrite word_eqb_neq. Qed.

Section Exprs.
  Variable V : Type.
  Variable truth : V -> bool.
  Variable v_bool : bool -> V.
  Variable v_const : word -> V.
  Variable v_attr : V -> word -> option V.
  Variable v_un : word -> V -> option V.
  Variable v_bin : word -> V -> V -> option V.
  Variable v_cmp : word -> V -> V -> option V.
  Variable v_call : V -> list V -> option V.
  Variable v_items : V -> option (list V).
  Variable modes : list word.
  Variable fields_of : word -> option (list word).
  Hypothesis truth_bool : forall b, truth (v_bool b) = b.
  Notation ev := (ev truth v_bool v_const v_attr v_un v_bin v_cmp v_call v_items).
  Notation value_in := (value_in truth v_bool v_const v_attr v_un v_bin v_cmp v_call v_items).
  Notation shortcut := (shortcut truth v_bool).
  Notation chain := (chain truth v_cmp).
  Notation quantify := (quantify truth v_bool).
  Notation store := (word -> option (pyval V)).
  Notation venv := (word -> option V).
  Definition wrap (r : venv) : store := fun x => option_map (@PV V) (r x).

  (** ** More defined stores give more defined values *)
  Lemma shortcut_mono {A} b (f g : A -> option V) es v : (forall e u, In e es -> f e = Some u -> g e = Some u) ->
    shortcut b f es = Some v -> shortcut b g es = Some v.
  Proof.
    induction es as [|e es IH]; intros H E; [exact E|]. cbn [PySem.shortcut] in *.
    destruct es as [|e2 es]; [apply H; [now left|exact E]|].
    destruct (f e) as [u|] eqn:Ef; [|discriminate]. rewrite (H e u (or_introl eq_refl) Ef). cbn [obind] in *.
    destruct (Bool.eqb (truth u) b); [|exact E]. apply IH; [|exact E]. intros e' u' Hin. apply H. now right.
  Qed.
  Lemma chain_mono {A} (f g : A -> option V) rest : (forall p u, In p rest -> f (snd p) = Some u -> g (snd p) = Some u) ->
    forall lv v, chain f lv rest = Some v -> chain g lv rest = Some v.
  Proof.
    induction rest as [|[o e] rest IH]; intros H lv v E; [exact E|]. cbn [PySem.chain] in *.
    destruct (f e) as [u|] eqn:Ef; [|discriminate]. assert (K := H (o, e) u (or_introl eq_refl) Ef). cbn [snd] in K. rewrite K. cbn [obind] in *.
    destruct (v_cmp o lv u) as [c|]; [|discriminate]. cbn [obind] in *. destruct rest as [|p rest]; [exact E|].
    destruct (truth c); [|exact E]. apply IH; [|exact E]. intros p' u' Hin. apply H. now right.
  Qed.
  Lemma quantify_mono ex k1 k2 e1 e2 items v : (forall u b, k1 u = Some b -> k2 u = Some b) -> (forall u b, e1 u = Some b -> e2 u = Some b) ->
    quantify ex k1 e1 items = Some v -> quantify ex k2 e2 items = Some v.
  Proof.
    intros Hk He. induction items as [|u items IH]; intros E; [exact E|]. cbn [PySem.quantify] in *.
    destruct (k1 u) as [k|] eqn:Ek; [|discriminate]. rewrite (Hk _ _ Ek). cbn [obind] in *. destruct (truth k); [|now apply IH].
    destruct (e1 u) as [b|] eqn:Eb; [|discriminate]. rewrite (He _ _ Eb). cbn [obind] in *. destruct (Bool.eqb (truth b) ex); [exact E|now apply IH].
  Qed.
  Lemma omap_mono {A B} (f g : A -> option B) l m : (forall a b, In a l -> f a = Some b -> g a = Some b) -> omap f l = Some m -> omap g l = Some m.
  Proof.
    rewrite !omap_Forall2. intros H F. induction F as [|a b l m Hab F IH]; constructor; [apply H; [now left|exact Hab]|].
    apply IH. intros x y Hin. apply H. now right.
  Qed.

  Lemma ev_mono : forall e (G G' : store) v, (forall x pv, In x (free e) -> G x = Some pv -> G' x = Some pv) -> ev G e = Some v -> ev G' e = Some v.
  Proof.
    induction e using pex_ind'; intros G G' v HG E; cbn [PySem.ev free] in *.
    - exact E.
    - destruct (G x) as [pv|] eqn:Ex; [|discriminate]. now rewrite (HG x pv (or_introl eq_refl) Ex).
    - destruct (G x) as [pv|] eqn:Ex; [|discriminate]. now rewrite (HG x pv (or_introl eq_refl) Ex).
    - assert (K : (do u <- ev G e; v_attr u a) = Some v -> (do u <- ev G' e; v_attr u a) = Some v).
      { intros E'. destruct (ev G e) as [u|] eqn:Ee; [|discriminate]. now rewrite (IHe G G' u HG Ee). }
      destruct e; try exact (K E). cbn [free PySem.ev] in *. destruct (G x) as [pv|] eqn:Ex; [|discriminate].
      rewrite (HG x pv (or_introl eq_refl) Ex). exact E.
    - destruct (ev G e) as [u|] eqn:Ee; [|discriminate]. now rewrite (IHe G G' u HG Ee).
    - destruct (ev G e) as [u|] eqn:Ee; [|discriminate]. now rewrite (IHe G G' u HG Ee).
    - destruct (ev G e1) as [u1|] eqn:E1; [|discriminate]. cbn [obind] in E. destruct (ev G e2) as [u2|] eqn:E2; [|discriminate]. cbn [obind] in E.
      rewrite (IHe1 G G' u1) by first [exact E1|intros; apply HG; [apply in_or_app; now left|assumption]]. cbn [obind].
      rewrite (IHe2 G G' u2) by first [exact E2|intros; apply HG; [apply in_or_app; now right|assumption]]. exact E.
    - eapply shortcut_mono; [|exact E]. intros e u Hin Ee. rewrite Forall_forall in H. apply (H e Hin G); [|exact Ee].
      intros x pv Hx. apply HG. apply In_concat_map. eauto.
    - destruct (ev G e) as [u|] eqn:Ee; [|discriminate]. rewrite (IHe G G' u) by first [exact Ee|intros; apply HG; [apply in_or_app; now left|assumption]].
      cbn [obind] in *. eapply chain_mono; [|exact E]. intros p u' Hin Ep. rewrite Forall_forall in H. apply (H p Hin G); [|exact Ep].
      intros x pv Hx. apply HG. apply in_or_app. right. apply In_concat_map. exists p. split; [exact Hin|]. destruct p; exact Hx.
    - assert (Hargs : forall vs, omap (ev G) args = Some vs -> omap (ev G') args = Some vs).
      { intros vs. apply omap_mono. intros a b Hin Ea. rewrite Forall_forall in H. apply (H a Hin G); [|exact Ea].
        intros x pv Hx. apply HG. apply in_or_app. right. apply In_concat_map. eauto. }
      assert (K : (do fv <- ev G e; do vs <- omap (ev G) args; v_call fv vs) = Some v -> (do fv <- ev G' e; do vs <- omap (ev G') args; v_call fv vs) = Some v).
      { intros E'. destruct (ev G e) as [u|] eqn:Ee; [|discriminate]. rewrite (IHe G G' u) by first [exact Ee|intros; apply HG; [apply in_or_app; now left|assumption]].
        cbn [obind] in *. destruct (omap (ev G) args) as [vs|] eqn:Ea; [|discriminate]. rewrite (Hargs _ eq_refl). exact E'. }
      destruct e; try exact (K E). cbn [free PySem.ev] in *. destruct (G x) as [pv|] eqn:Ex; [|discriminate].
      rewrite (HG x pv (or_introl eq_refl) Ex). destruct pv as [u|o|d]; try exact (K E).
      all: cbn [obind] in *; first [discriminate|destruct (omap (ev G) args) as [vs|] eqn:Ea; [|discriminate]; rewrite (Hargs _ eq_refl); exact E].
    - destruct (ev G e2) as [u|] eqn:Ee; [|discriminate]. rewrite (IHe2 G G' u) by first [exact Ee|intros; apply HG; [apply in_or_app; right; apply in_or_app; now left|assumption]].
      cbn [obind] in *. destruct (v_items u) as [items|]; [|discriminate]. cbn [obind] in *.
      assert (Hup : forall w0 y pv, (x <> y -> In y (without x (free e1) ++ free e2 ++ without x (concat_map free ifs))) -> upd G x w0 y = Some pv -> upd G' x w0 y = Some pv).
      { intros w0 y pv Hy Ey. destruct (word_eqb x y) eqn:Exy; unfold upd in *; rewrite Exy in *; [exact Ey|]. apply HG; [|exact Ey].
        apply Hy. intros ->. rewrite word_eqb_refl in Exy. discriminate. }
      eapply quantify_mono; [| |exact E].
      + intros w0 b Eb. eapply shortcut_mono; [|exact Eb]. intros e u' Hin Ee'. rewrite Forall_forall in H. apply (H e Hin (upd G x (PV w0))); [|exact Ee'].
        intros y pv Hy. apply Hup. intros Hne. apply in_or_app. right. apply in_or_app. right. apply In_without. split; [|exact Hne]. apply In_concat_map. eauto.
      + intros w0 b Eb. apply (IHe1 (upd G x (PV w0))); [|exact Eb]. intros y pv Hy. apply Hup. intros Hne. apply in_or_app. left. now apply In_without.
    - destruct (ev G e2) as [u|] eqn:Ee; [|discriminate]. rewrite (IHe2 G G' u) by first [exact Ee|intros; apply HG; [apply in_or_app; now right|assumption]].
      cbn [obind] in *. destruct (v_items u) as [items|]; [|discriminate]. cbn [obind] in *.
      eapply quantify_mono; [intros ? ? Ek; exact Ek| |exact E]. intros w0 b Eb. apply (IHe1 (upd G x (PV w0))); [|exact Eb].
      intros y pv Hy Ey. destruct (word_eqb x y) eqn:Exy; unfold upd in *; rewrite Exy in *; [exact Ey|]. apply HG; [|exact Ey].
      apply in_or_app. left. apply In_without. split; [exact Hy|]. intros ->. rewrite word_eqb_refl in Exy. discriminate.
    - destruct (ev G e1) as [u1|] eqn:E1; [|discriminate]. cbn [obind] in E.
      rewrite (IHe1 G G' u1) by first [exact E1|intros; apply HG; [apply in_or_app; now left|assumption]]. cbn [obind]. destruct (truth u1).
      + apply (IHe2 G); [|exact E]. intros; apply HG; [apply in_or_app; right; apply in_or_app; now left|assumption].
      + apply (IHe3 G); [|exact E]. intros; apply HG; [apply in_or_app; right; apply in_or_app; now right|assumption].
  Qed.

  Lemma value_in_ext e r r' v : (forall x u, In x (free e) -> r x = Some u -> r' x = Some u) -> value_in r e = Some v -> value_in r' e = Some v.
  Proof.
    intros H. unfold PySem.value_in. apply ev_mono. intros x pv Hx Ex. destruct (r x) as [u|] eqn:Er; [|discriminate]. cbn in Ex. injection Ex as <-.
    now rewrite (H x u Hx Er).
  Qed.

  (** Values of extracted expressions, by shape. *)
  Lemma value_attr r e a : value_in r (EAttr e a) = do v <- value_in r e; v_attr v a.
  Proof. unfold PySem.value_in. cbn [PySem.ev]. destruct e; try reflexivity. cbn [PySem.ev]. destruct (r x); reflexivity. Qed.
  Lemma value_call r f args : value_in r (ECall f args) = do fv <- value_in r f; do vs <- omap (value_in r) args; v_call fv vs.
  Proof. unfold PySem.value_in. cbn [PySem.ev]. destruct f; try reflexivity. cbn [PySem.ev]. destruct (r x); reflexivity. Qed.
  Lemma value_name r x : value_in r (EName x) = r x.
  Proof. unfold PySem.value_in. cbn. destruct (r x); reflexivity. Qed.
  Lemma value_hole r x : value_in r (EHole x) = r x.
  Proof. unfold PySem.value_in. cbn. destruct (r x); reflexivity. Qed.

  Lemma value_under r e x u v : ev (upd (wrap r) x (PV u)) e = Some v <-> value_in (upd r x u) e = Some v.
  Proof.
    unfold PySem.value_in. split; apply ev_mono; intros y pv _; unfold upd, wrap; destruct (word_eqb x y); auto.
  Qed.

  (** ** Comparison chains *)
  Lemma chain_comparisons r l rest : rest <> [] -> (do lv <- value_in r l; chain (value_in r) lv rest) = shortcut true (value_in r) (comparisons l rest).
  Proof.
    revert l. induction rest as [|[o e] rest IH]; intros l Hne; [easy|]. cbn [comparisons PySem.shortcut PySem.chain].
    assert (E1 : value_in r (ECmp l [(o, e)]) = do lv <- value_in r l; do rv <- value_in r e; v_cmp o lv rv).
    { unfold PySem.value_in. cbn [PySem.ev PySem.chain]. destruct (PySem.ev _ _ _ _ _ _ _ _ _ _ l); [|reflexivity]. cbn [obind].
      destruct (PySem.ev _ _ _ _ _ _ _ _ _ _ e); [|reflexivity]. cbn [obind]. destruct (v_cmp o v v0); reflexivity. }
    destruct rest as [|p rest].
    - cbn [comparisons]. rewrite E1. destruct (value_in r l) as [lv|]; [|reflexivity]. cbn [obind]. destruct (value_in r e) as [rv|]; [|reflexivity]. cbn [obind].
      destruct (v_cmp o lv rv); reflexivity.
    - specialize (IH e ltac:(discriminate)). remember (p :: rest) as rest' eqn:Er.
      assert (Hne' : exists c cs, comparisons e rest' = c :: cs) by (subst rest'; destruct p; cbn; eauto). destruct Hne' as (c & cs & Ec). rewrite Ec.
      rewrite <- Ec, <- IH, E1. destruct (value_in r l) as [lv|]; [|reflexivity]. cbn [obind]. destruct (value_in r e) as [rv|] eqn:Ev; [|reflexivity]. cbn [obind].
      destruct (v_cmp o lv rv) as [b|]; [|reflexivity]. cbn [obind]. rewrite Er. destruct (truth b); reflexivity.
  Qed.

  (** ** Substitution *)
  Lemma shortcut_map {A B} b (f : A -> option V) (g : B -> A) es : shortcut b f (map g es) = shortcut b (fun e => f (g e)) es.
  Proof. induction es as [|e es IH]; [reflexivity|]. destruct es as [|e2 es]; [reflexivity|]. cbn [map PySem.shortcut] in *. destruct (f (g e)); [|reflexivity]. cbn [obind]. now rewrite IH. Qed.

  Definition extends (r0 r : venv) : Prop := forall x u, r0 x = Some u -> r x = Some u.
  Definition same_names (s : dict word pex) (l : list word) : Prop := forall x, In x l -> get x s = None \/ get x s = Some (EHole x).
  Definition uncaught (r0 : venv) (s : dict word pex) (l : list word) : Prop := forall y, In y l -> r0 y = None /\ get y s = None.

  Lemma same_names_app s l m : same_names s (l ++ m) <-> same_names s l /\ same_names s m.
  Proof.
    unfold same_names. split; [intros H; split; intros x Hx; apply H, in_or_app; auto|]. intros [H1 H2] x Hx. apply in_app_or in Hx as [Hx|Hx]; auto.
  Qed.
  Lemma uncaught_app r s l m : uncaught r s (l ++ m) <-> uncaught r s l /\ uncaught r s m.
  Proof.
    unfold uncaught. split; [intros H; split; intros x Hx; apply H, in_or_app; auto|]. intros [H1 H2] x Hx. apply in_app_or in Hx as [Hx|Hx]; auto.
  Qed.
  Lemma same_names_in {A} s (f : A -> list word) l a : same_names s (concat_map f l) -> In a l -> same_names s (f a).
  Proof. intros H Ha x Hx. apply H. apply In_concat_map. eauto. Qed.
  Lemma uncaught_in {A} r s (f : A -> list word) l a : uncaught r s (concat_map f l) -> In a l -> uncaught r s (f a).
  Proof. intros H Ha x Hx. apply H. apply In_concat_map. eauto. Qed.

  Local Arguments uncaught_in {A r s f l a} _ _.
  Local Arguments same_names_in {A s f l a} _ _.
  Lemma subst_sound (s : dict word pex) (r0 : venv) : forall e (r r' : venv) v,
    extends r0 r -> uncaught r0 s (binders e) -> same_names s (names e) ->
    (forall x u, r' x = Some u -> match get x s with Some a => value_in r0 a = Some u | None => r x = Some u end) ->
    value_in r' e = Some v -> value_in r (subst s e) = Some v.
  Proof.
    induction e using pex_ind'; intros r r' v Hr Hb Hn Hx E; cbn [subst binders names] in *.
    - exact E.
    - rewrite value_name in *. specialize (Hx _ _ E). destruct (Hn x (or_introl eq_refl)) as [Eg|Eg]; rewrite Eg in Hx; [exact Hx|]. rewrite value_hole in Hx. auto.
    - rewrite value_hole in *. specialize (Hx _ _ E). destruct (get x s) as [a|]; [|now rewrite value_hole]. eapply value_in_ext; [|exact Hx]. intros; now apply Hr.
    - rewrite value_attr in *. destruct (value_in r' e) as [u|] eqn:Ee; [|discriminate]. now rewrite (IHe r r' u Hr Hb Hn Hx Ee).
    - unfold PySem.value_in in *. cbn [PySem.ev] in *. destruct (PySem.ev _ _ _ _ _ _ _ _ _ _ e) as [u|] eqn:Ee; [|discriminate]. now rewrite (IHe r r' u Hr Hb Hn Hx Ee).
    - unfold PySem.value_in in *. cbn [PySem.ev] in *. destruct (PySem.ev _ _ _ _ _ _ _ _ _ _ e) as [u|] eqn:Ee; [|discriminate]. now rewrite (IHe r r' u Hr Hb Hn Hx Ee).
    - apply uncaught_app in Hb as [Hb1 Hb2]. apply same_names_app in Hn as [Hn1 Hn2]. unfold PySem.value_in in *. cbn [PySem.ev] in *.
      destruct (PySem.ev _ _ _ _ _ _ _ _ _ (fun x => option_map (PV (V:=V)) (r' x)) e1) as [u1|] eqn:E1; [|discriminate]. rewrite (IHe1 r r' u1 Hr Hb1 Hn1 Hx E1). cbn [obind] in *.
      destruct (PySem.ev _ _ _ _ _ _ _ _ _ (fun x => option_map (PV (V:=V)) (r' x)) e2) as [u2|] eqn:E2; [|discriminate]. rewrite (IHe2 r r' u2 Hr Hb2 Hn2 Hx E2). exact E.
    - unfold PySem.value_in in *. cbn [PySem.ev] in *. rewrite shortcut_map. eapply shortcut_mono; [|exact E]. intros e u Hin Ee. cbv beta.
      rewrite Forall_forall in H. exact (H e Hin r r' u Hr (uncaught_in Hb Hin) (same_names_in Hn Hin) Hx Ee).
    - apply uncaught_app in Hb as [Hb1 Hb2]. apply same_names_app in Hn as [Hn1 Hn2]. unfold PySem.value_in in *. cbn [PySem.ev] in *.
      destruct (PySem.ev _ _ _ _ _ _ _ _ _ (fun x => option_map (PV (V:=V)) (r' x)) e) as [u1|] eqn:E1; [|discriminate]. rewrite (IHe r r' u1 Hr Hb1 Hn1 Hx E1). cbn [obind] in *.
      clear E1 IHe Hb1 Hn1. revert u1 E. induction rest as [|[o e2] rest IH]; intros u1 E; [exact E|]. cbn [map PySem.chain] in *.
      apply Forall_cons_iff in H as [H1 H2]. cbn [snd concat_map] in *. apply uncaught_app in Hb2 as [Hb2 Hb3]. apply same_names_app in Hn2 as [Hn2 Hn3].
      destruct (PySem.ev _ _ _ _ _ _ _ _ _ (fun x => option_map (PV (V:=V)) (r' x)) e2) as [u2|] eqn:E2; [|discriminate]. rewrite (H1 r r' u2 Hr Hb2 Hn2 Hx E2). cbn [obind] in *.
      destruct (v_cmp o u1 u2) as [c|]; [|discriminate]. cbn [obind] in *. destruct rest as [|p rest]; [exact E|]. cbn [map] in *. destruct (truth c); [|exact E].
      exact (IH H2 Hb3 Hn3 u2 E).
    - apply uncaught_app in Hb as [Hb1 Hb2]. apply same_names_app in Hn as [Hn1 Hn2]. rewrite value_call in *.
      destruct (value_in r' e) as [u|] eqn:Ee; [|discriminate]. rewrite (IHe r r' u Hr Hb1 Hn1 Hx Ee). cbn [obind] in *.
      destruct (omap (value_in r') args) as [vs|] eqn:Ea; [|discriminate]. assert (Ea' : omap (value_in r) (map (subst s) args) = Some vs).
      { clear E. revert vs Ea. induction args as [|a args IHa]; intros vs Ea; [exact Ea|]. cbn [map omap] in *. apply Forall_cons_iff in H as [H1 H2]. cbn [concat_map] in *.
        apply uncaught_app in Hb2 as [Hb2 Hb3]. apply same_names_app in Hn2 as [Hn2 Hn3].
        destruct (value_in r' a) as [b|] eqn:Eb; [|discriminate]. rewrite (H1 r r' b Hr Hb2 Hn2 Hx Eb). cbn [obind] in *. fold (@omap pex V) in *.
        destruct (omap (value_in r') args) as [bs|] eqn:Ebs; [|discriminate]. rewrite (IHa H2 Hb3 Hn3 bs eq_refl). exact Ea. }
      rewrite Ea'. exact E.
    - assert (Hb0 : r0 x = None /\ get x s = None) by (apply Hb; now left). assert (Hbr : uncaught r0 s (binders e1 ++ binders e2 ++ concat_map binders ifs)) by (intros y Hy; apply Hb; now right).
      apply uncaught_app in Hbr as [Hb1 Hb2]. apply uncaught_app in Hb2 as [Hb2 Hb3]. apply same_names_app in Hn as [Hn1 Hn2]. apply same_names_app in Hn2 as [Hn2 Hn3].
      assert (Hup : forall u0, extends r0 (upd r x u0) /\ forall y u, upd r' x u0 y = Some u -> match get y s with Some a => value_in r0 a = Some u | None => upd r x u0 y = Some u end).
      { intros u0. split.
        - intros y u Ey. unfold upd. destruct (word_eqb x y) eqn:Exy; [apply word_eqb_iff in Exy; subst y; destruct Hb0; congruence|now apply Hr].
        - intros y u Ey. unfold upd in *. destruct (word_eqb x y) eqn:Exy; [apply word_eqb_iff in Exy; subst y; destruct Hb0 as [_ ->]; exact Ey|].
          exact (Hx y u Ey). }
      unfold PySem.value_in in E |- *. cbn [PySem.ev] in *.
      destruct (PySem.ev _ _ _ _ _ _ _ _ _ (fun x => option_map (PV (V:=V)) (r' x)) e2) as [u|] eqn:Ee; [|discriminate]. assert (K := IHe2 r r' u Hr Hb2 Hn2 Hx Ee). unfold PySem.value_in in K. rewrite K. cbn [obind] in *.
      destruct (v_items u) as [items|]; [|discriminate]. cbn [obind] in *. eapply quantify_mono; [| |exact E].
      + intros u0 b Eb. rewrite shortcut_map. eapply shortcut_mono; [|exact Eb]. intros e u' Hin Ee'. apply value_under. apply value_under in Ee'.
        rewrite Forall_forall in H. destruct (Hup u0) as [U1 U2]. exact (H e Hin _ _ u' U1 (uncaught_in Hb3 Hin) (same_names_in Hn3 Hin) U2 Ee').
      + intros u0 b Eb. apply value_under. apply value_under in Eb. destruct (Hup u0) as [U1 U2]. exact (IHe1 _ _ b U1 Hb1 Hn1 U2 Eb).
    - assert (Hb0 : r0 x = None /\ get x s = None) by (apply Hb; now left). assert (Hbr : uncaught r0 s (binders e1 ++ binders e2)) by (intros y Hy; apply Hb; now right).
      apply uncaught_app in Hbr as [Hb1 Hb2]. apply same_names_app in Hn as [Hn1 Hn2].
      assert (Hup : forall u0, extends r0 (upd r x u0) /\ forall y u, upd r' x u0 y = Some u -> match get y s with Some a => value_in r0 a = Some u | None => upd r x u0 y = Some u end).
      { intros u0. split.
        - intros y u Ey. unfold upd. destruct (word_eqb x y) eqn:Exy; [apply word_eqb_iff in Exy; subst y; destruct Hb0; congruence|now apply Hr].
        - intros y u Ey. unfold upd in *. destruct (word_eqb x y) eqn:Exy; [apply word_eqb_iff in Exy; subst y; destruct Hb0 as [_ ->]; exact Ey|].
          exact (Hx y u Ey). }
      unfold PySem.value_in in E |- *. cbn [PySem.ev] in *.
      destruct (PySem.ev _ _ _ _ _ _ _ _ _ (fun x => option_map (PV (V:=V)) (r' x)) e2) as [u|] eqn:Ee; [|discriminate]. assert (K := IHe2 r r' u Hr Hb2 Hn2 Hx Ee). unfold PySem.value_in in K. rewrite K. cbn [obind] in *.
      destruct (v_items u) as [items|]; [|discriminate]. cbn [obind] in *. eapply quantify_mono; [intros ? ? K0; exact K0| |exact E].
      intros u0 b Eb. apply value_under. apply value_under in Eb. destruct (Hup u0) as [U1 U2]. exact (IHe1 _ _ b U1 Hb1 Hn1 U2 Eb).
    - apply uncaught_app in Hb as [Hb1 Hb2]. apply uncaught_app in Hb2 as [Hb2 Hb3]. apply same_names_app in Hn as [Hn1 Hn2]. apply same_names_app in Hn2 as [Hn2 Hn3].
      unfold PySem.value_in in *. cbn [PySem.ev] in *.
      destruct (PySem.ev _ _ _ _ _ _ _ _ _ (fun x => option_map (PV (V:=V)) (r' x)) e1) as [u1|] eqn:E1; [|discriminate]. rewrite (IHe1 r r' u1 Hr Hb1 Hn1 Hx E1). cbn [obind] in *.
      destruct (truth u1); [exact (IHe2 r r' v Hr Hb2 Hn2 Hx E)|exact (IHe3 r r' v Hr Hb3 Hn3 Hx E)].
  Qed.
End Exprs.
