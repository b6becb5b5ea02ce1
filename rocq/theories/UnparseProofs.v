(** Reading back what [unparse] writes. *)
From Coq Require Import Ascii String.
From Verif Require Import Base PyText Unparse UnparseSpec.
Set Implicit Arguments.
Open Scope nat_scope.

Lemma lexemes_app a b : lexemes (a ++ b) = lexemes a ++ lexemes b.
Proof. induction a as [|[t|] a IH]; cbn; [reflexivity|rewrite IH; reflexivity|exact IH]. Qed.
Lemma lexemes_flat {A} (f : A -> list piece) l : lexemes (flat_map f l) = flat_map (fun a => lexemes (f a)) l.
Proof. induction l as [|a l IH]; cbn; [reflexivity|rewrite lexemes_app, IH; reflexivity]. Qed.
Definition toks (e : pexpr) : list tok := lexemes (unparse e).

Fixpoint size (e : pexpr) : nat :=
  S match e with
    | Name _ | Const _ _ _ => 0
    | UnaryOp _ a => size a
    | BinOp _ a b => size a + size b
    | Compare a rest => size a + list_sum (map (fun r => size (snd r)) rest)
    | BoolOp _ vs => list_sum (map size vs)
    | IfExp a b c => size a + size b + size c
    | Attribute a _ => size a
    | Call f args kws => size f + list_sum (map size args) + list_sum (map (fun k => size (snd k)) kws)
    | Subscript a s => size a + size s
    | Slice lo up st => match lo with None => 0 | Some e => size e end + match up with None => 0 | Some e => size e end + match st with None => 0 | Some e => size e end
    | List es | Tuple es => list_sum (map size es)
    | Lambda _ b => size b
    | ListComp a gs | GeneratorExp a gs => size a + list_sum (map (fun g => size (fst (fst g)) + size (snd (fst g)) + list_sum (map size (snd g))) gs)
    end.
Lemma in_sum {A} (f : A -> nat) l a : In a l -> f a <= list_sum (map f l).
Proof. induction l as [|b l IH]; cbn; [easy|]. intros [->|H]; [lia|]. specialize (IH H). unfold list_sum in *. lia. Qed.

(** ** How a text starts *)
Definition start (t : tok) : bool := match t with TName _ | TConst _ _ | TL | TLB => true | _ => false end.
Lemma starts e : proper e = true -> exists t r, toks e = t :: r /\ start t = true.
Proof.
  unfold toks. induction e; intros H; cbn [proper unparse] in *; try (eexists; eexists; split; [reflexivity|reflexivity]).
  - destruct negative; [discriminate|]. eexists; eexists; split; reflexivity.
  - destruct (IHe H) as (t & r & E & S). rewrite lexemes_app, E. eexists; eexists; split; [reflexivity|exact S].
  - apply andb_prop in H as [H _]. apply andb_prop in H as [H _]. destruct (IHe H) as (t & r & E & S). rewrite lexemes_app, E. eexists; eexists; split; [reflexivity|exact S].
  - assert (H' : proper e1 = true) by (destruct e2; repeat (apply andb_prop in H as [H ?]); exact H).
    destruct (IHe1 H') as (t & r & E & S). rewrite lexemes_app, E. eexists; eexists; split; [reflexivity|exact S].
  - discriminate.
Qed.
Lemma second e x t r : proper e = true -> toks e = TName x :: t :: r -> t = TDot \/ t = TL \/ t = TLB.
Proof.
  unfold toks. revert x t r. induction e; intros y t0 r0 H; cbn [proper unparse] in *; try discriminate.
  - destruct negative; discriminate.
  - rewrite lexemes_app. intros E. destruct (starts _ H) as (t1 & r1 & E1 & S1). unfold toks in E1. rewrite E1 in E. cbn in E. injection E as E2 E.
    destruct r1 as [|t2 r2].
    + cbn in E. destruct (is_int e); cbn in E; injection E as <- _; auto.
    + injection E as <- _. eapply IHe; [exact H|]. rewrite E1, E2. reflexivity.
  - apply andb_prop in H as [H _]. apply andb_prop in H as [H _]. rewrite lexemes_app. intros E. destruct (starts _ H) as (t1 & r1 & E1 & S1). unfold toks in E1. rewrite E1 in E. cbn in E. injection E as E2 E.
    destruct r1 as [|t2 r2].
    + cbn in E. injection E as <- _. auto.
    + injection E as <- _. eapply IHe; [exact H|]. rewrite E1, E2. reflexivity.
  - assert (H' : proper e1 = true) by (destruct e2; repeat (apply andb_prop in H as [H ?]); exact H).
    rewrite lexemes_app. intros E. destruct (starts _ H') as (t1 & r1 & E1 & S1). unfold toks in E1. rewrite E1 in E. cbn in E. injection E as E2 E.
    destruct r1 as [|t2 r2].
    + cbn in E. injection E as <- _. auto.
    + injection E as <- _. eapply IHe1; [exact H'|]. rewrite E1, E2. reflexivity.
Qed.

(** ** Lexemes that end a phrase *)
Definition stopP (t : tok) : bool := match t with TDot | TL | TLB => false | _ => true end.
Definition stopB (t : tok) : bool := stopP t && match t with TBin _ => false | _ => true end.
Definition stopC (t : tok) : bool := stopB t && match t with TRel _ | TKw KIs | TKw KIn | TKw KNot => false | _ => true end.
Definition stopA (t : tok) : bool := stopC t && negb (is_and t).
Definition stopO (t : tok) : bool := stopA t && negb (is_or t).
Definition stopE (t : tok) : bool := stopO t && negb (is_if t).
Definition stops (s : tok -> bool) (r : list tok) : Prop := match r with [] => True | t :: _ => s t = true end.
Lemma stops_weak s1 s2 r : (forall t, s1 t = true -> s2 t = true) -> stops s1 r -> stops s2 r.
Proof. intros H. destruct r; cbn; auto. Qed.
Ltac weaken := eapply stops_weak; [|eassumption]; intros ? Hw; unfold stopE, stopO, stopA, stopC, stopB in *; repeat (apply andb_prop in Hw as [Hw ?]); rewrite ?Hw, ?andb_true_l; auto; repeat (apply andb_true_intro; split); auto.
Lemma stopOE r : stops stopE r -> stops stopO r. Proof. intros. weaken. Qed.
Lemma stopAO r : stops stopO r -> stops stopA r. Proof. intros. weaken. Qed.
Lemma stopCA r : stops stopA r -> stops stopC r. Proof. intros. weaken. Qed.
Lemma stopBC r : stops stopC r -> stops stopB r. Proof. intros. weaken. Qed.
Lemma stopPB r : stops stopB r -> stops stopP r. Proof. intros. weaken. Qed.
Local Hint Resolve stopOE stopAO stopCA stopBC stopPB : core.

Section Lift.
  Variable n : nat.
  Variable P : level -> parser pexpr.
  Hypothesis N1 : 1 <= n.

  Lemma left_stop ops p a r : stops stopB r -> left_assoc n ops p a r = Some (a, r).
  Proof. destruct n; [lia|]. destruct r as [|[] r]; cbn; auto. discriminate. Qed.
  Lemma lift_binary l1 ls ts e r : binary n P ls ts = Some (e, r) -> stops stopB r -> binary n P (l1 ++ ls) ts = Some (e, r).
  Proof. intros H S. induction l1 as [|ops l1 IH]; [exact H|]. cbn [app binary]. rewrite IH. cbn [obind fst snd]. apply left_stop, S. Qed.
  Lemma lift_cmp ts e r : binary n P levels ts = Some (e, r) -> stops stopC r -> comparison n P ts = Some (e, r).
  Proof.
    intros H S. unfold comparison. rewrite H. cbn [obind fst snd]. destruct n as [|k]; [lia|]. cbn [compares].
    replace (read_cmp r) with (@None (cmpop * list tok)); [reflexivity|]. destruct r as [|[] r]; try reflexivity; cbn in S |- *; try discriminate. destruct k0; try reflexivity; discriminate.
  Qed.
  Definition no_not (ts : list tok) : Prop := match ts with TKw KNot :: _ => False | _ => True end.
  Definition no_lambda (ts : list tok) : Prop := match ts with TKw KLambda :: _ => False | _ => True end.
  Lemma lift_inv k ts e r : comparison n P ts = Some (e, r) -> no_not ts -> 1 <= k -> inversion n P k ts = Some (e, r).
  Proof. intros H S K. destruct k; [lia|]. cbn [inversion]. destruct ts as [|[] ts]; try exact H. destruct k0; try exact H. destruct S. Qed.
  Lemma more_stop (sep : tok -> bool) p r : stops (fun t => negb (sep t)) r -> more n sep p r = Some ([], r).
  Proof. destruct n; [lia|]. destruct r as [|t r]; cbn; [reflexivity|]. destruct (sep t); [discriminate|reflexivity]. Qed.
  Lemma lift_and ts e r : inversion n P n ts = Some (e, r) -> stops stopA r -> joined n And is_and (inversion n P n) ts = Some (e, r).
  Proof. intros H S. unfold joined. rewrite H. cbn [obind fst snd]. rewrite more_stop by weaken. reflexivity. Qed.
  Lemma lift_or ts e r : joined n And is_and (inversion n P n) ts = Some (e, r) -> stops stopO r -> disjunction n P ts = Some (e, r).
  Proof. intros H S. unfold disjunction, joined at 1. rewrite H. cbn [obind fst snd]. rewrite more_stop by weaken. reflexivity. Qed.
  Lemma lift_expr ts e r : disjunction n P ts = Some (e, r) -> no_lambda ts -> stops stopE r -> expression n P ts = Some (e, r).
  Proof.
    intros H L S. assert (E : match ts with TKw KLambda :: _ => False | _ => True end) by exact L.
    assert (E' : expression n P ts = do x <- disjunction n P ts;
      match snd x with
      | TKw KIf :: r => do y <- disjunction n P r; match snd y with TKw KElse :: r1 => do z <- P LExpr r1; Some (IfExp (fst x) (fst y) (fst z), snd z) | _ => None end
      | _ => Some x
      end). { unfold expression. destruct ts as [|[] ts]; try reflexivity. destruct k; try reflexivity. destruct L. }
    rewrite E', H. cbn [obind fst snd]. destruct r as [|[] r]; try reflexivity. destruct k; try reflexivity. discriminate.
  Qed.
  Lemma factor_all ts e r : factor n P n ts = Some (e, r) -> no_not ts -> no_lambda ts -> stops stopE r -> expression n P ts = Some (e, r).
  Proof.
    intros H A B S. apply lift_expr; auto. apply lift_or; auto. apply lift_and; auto. apply lift_inv; auto. apply lift_cmp; auto.
    rewrite <- (app_nil_r levels). apply lift_binary; auto.
  Qed.
End Lift.

(** ** Expressions that are read back *)
Definition back (e : pexpr) (n : nat) : Prop := forall rest, stops stopP rest -> primary n (parse n) (toks e ++ rest) = Some (e, rest).

Section Back.
  Variables (e : pexpr) (n : nat).
  Hypothesis Pr : proper e = true.
  Hypothesis N1 : 1 <= n.
  Hypothesis B : back e n.

  Lemma head_ok (Q : list tok -> Prop) rest : (forall t r, start t = true -> Q (t :: r)) -> Q (toks e ++ rest).
  Proof. intros H. destruct (starts _ Pr) as (t & r & E & S). rewrite E. apply H, S. Qed.
  Lemma not_ok rest : no_not (toks e ++ rest). Proof. apply head_ok. intros [] ?; try exact (fun _ => I); discriminate. Qed.
  Lemma lam_ok rest : no_lambda (toks e ++ rest). Proof. apply head_ok. intros [] ?; try exact (fun _ => I); discriminate. Qed.

  Lemma back_factor k rest : 1 <= k -> stops stopP rest -> (forall r, rest <> TBin Pow :: r) -> factor n (parse n) k (toks e ++ rest) = Some (e, rest).
  Proof.
    intros K St NP. destruct k as [|k]; [lia|].
    assert (E : factor n (parse n) (S k) (toks e ++ rest) = do x <- primary n (parse n) (toks e ++ rest);
        match snd x with
        | TBin Pow :: r => do y <- factor n (parse n) k r; Some (BinOp Pow (fst x) (fst y), snd y)
        | _ => Some x
        end).
    { apply (head_ok (fun ts => factor n (parse n) (S k) ts = do x <- primary n (parse n) ts; match snd x with TBin Pow :: r => do y <- factor n (parse n) k r; Some (BinOp Pow (fst x) (fst y), snd y) | _ => Some x end)).
      intros [] ?; try discriminate; reflexivity. }
    rewrite E, B by exact St. cbn [obind fst snd]. destruct rest as [|[] rest]; try reflexivity. destruct o; try reflexivity. destruct (NP rest eq_refl).
  Qed.
  (** [rest] starts with no operator of the given levels. *)
  Definition free (ls : list (list binop)) (rest : list tok) : Prop :=
    match rest with TBin o :: _ => o <> Pow /\ forall ops, In ops ls -> existsb (binop_eqb o) ops = false | _ => True end.
  Lemma back_binary ls rest : stops stopP rest -> free ls rest -> binary n (parse n) ls (toks e ++ rest) = Some (e, rest).
  Proof.
    intros S F. induction ls as [|ops ls IH].
    - cbn [binary]. apply back_factor; auto. intros r ->. cbn in F. destruct F as [F _]. auto.
    - cbn [binary]. rewrite IH; [|destruct rest as [|[] rest]; cbn in *; auto; destruct F as [F1 F2]; split; [exact F1|intros; apply F2; auto]].
      cbn [obind fst snd]. destruct n as [|k]; [lia|]. cbn [left_assoc]. destruct rest as [|[] rest]; try reflexivity. destruct F as [_ F]. rewrite F by (left; reflexivity). reflexivity.
  Qed.
  Lemma stop_free ls rest : stops stopB rest -> free ls rest.
  Proof. destruct rest as [|[] rest]; cbn; auto. discriminate. Qed.
  Lemma back_cmp_arg rest : stops stopB rest -> binary n (parse n) levels (toks e ++ rest) = Some (e, rest).
  Proof. intros S. apply back_binary; auto. apply stop_free, S. Qed.
  Lemma back_inv k rest : 1 <= k -> stops stopC rest -> inversion n (parse n) k (toks e ++ rest) = Some (e, rest).
  Proof. intros K S. apply lift_inv; auto using not_ok. apply lift_cmp; auto. apply back_cmp_arg. auto. Qed.
  Lemma back_and rest : stops stopA rest -> joined n And is_and (inversion n (parse n) n) (toks e ++ rest) = Some (e, rest).
  Proof. intros S. apply lift_and; auto. apply back_inv; auto. Qed.
  Lemma back_or rest : stops stopO rest -> disjunction n (parse n) (toks e ++ rest) = Some (e, rest).
  Proof. intros S. apply lift_or; auto. apply back_and; auto. Qed.
  Lemma back_expr rest : stops stopE rest -> expression n (parse n) (toks e ++ rest) = Some (e, rest).
  Proof. intros S. apply lift_expr; auto using lam_ok. apply back_or; auto. Qed.
End Back.

Lemma parse_expr e n rest : proper e = true -> 2 <= n -> back e (n - 1) -> stops stopE rest -> parse n LExpr (toks e ++ rest) = Some (e, rest).
Proof. intros Pr N B St. destruct n as [|m]; [lia|]. cbn [parse]. replace (S m - 1) with m in B by lia. apply back_expr; auto. lia. Qed.
Lemma parse_or e n rest : proper e = true -> 2 <= n -> back e (n - 1) -> stops stopO rest -> parse n LOr (toks e ++ rest) = Some (e, rest).
Proof. intros Pr N B St. destruct n as [|m]; [lia|]. cbn [parse]. replace (S m - 1) with m in B by lia. apply back_or; auto. lia. Qed.
Lemma parse_prim e n rest : 2 <= n -> back e (n - 1) -> stops stopP rest -> parse n LPrim (toks e ++ rest) = Some (e, rest).
Proof. intros N B St. destruct n as [|m]; [lia|]. cbn [parse]. replace (S m - 1) with m in B by lia. apply B. exact St. Qed.

(** ** For all large bounds *)
Definition ev (Q : nat -> Prop) : Prop := exists N, forall n, N <= n -> Q n.
Lemma ev_const (Q : Prop) : Q -> ev (fun _ => Q). Proof. exists 0. auto. Qed.
Lemma ev_ge k : ev (fun n => k <= n). Proof. exists k. auto. Qed.
Lemma ev_and A B : ev A -> ev B -> ev (fun n => A n /\ B n).
Proof. intros [N1 H1] [N2 H2]. exists (N1 + N2). intros n H. split; [apply H1|apply H2]; lia. Qed.
Lemma ev_mono (A B : nat -> Prop) : ev A -> (forall n, A n -> B n) -> ev B.
Proof. intros [N H] I. exists N. intros n Hn. apply I, H, Hn. Qed.
Lemma ev_pred A : ev A -> ev (fun n => A (n - 1)).
Proof. intros [N H]. exists (S N). intros n Hn. apply H. lia. Qed.
Lemma ev_all {X} (l : list X) (A : X -> nat -> Prop) : (forall x, In x l -> ev (A x)) -> ev (fun n => forall x, In x l -> A x n).
Proof.
  induction l as [|x l IH]; intros H; [exists 0; intros n _ x []|].
  eapply ev_mono; [apply ev_and; [apply (H x); left; reflexivity|apply IH; intros; apply H; right; assumption]|].
  intros n [A1 A2] y [<-|Hy]; auto.
Qed.

(** [e] is an atom, followed by [c] trailers. *)
Definition chain (e : pexpr) : Prop := exists c, ev (fun n => forall rest, primary n (parse n) (toks e ++ rest) = trailers n (parse n) (n - c) e rest).
Lemma chain_back e : chain e -> ev (back e).
Proof.
  intros [c H]. eapply ev_mono; [apply ev_and; [exact H|apply (ev_ge (S c))]|]. intros n [H1 H2] rest S. rewrite H1.
  destruct (n - c) as [|k] eqn:E; [lia|]. cbn [trailers]. destruct rest as [|[] rest]; try reflexivity; discriminate.
Qed.
Lemma atom_chain e : ev (fun n => forall rest, atom n (parse n) (toks e ++ rest) = Some (e, rest)) -> chain e.
Proof. intros H. exists 0. eapply ev_mono; [exact H|]. intros n H1 rest. unfold primary. rewrite H1. cbn [obind fst snd]. rewrite Nat.sub_0_r. reflexivity. Qed.

(** In parentheses. *)
Lemma paren_chain e inner : toks e = TL :: inner ++ [TR] -> (exists t r, inner = t :: r /\ t <> TR) ->
  ev (fun n => forall rest, stops stopE rest -> expression n (parse n) (inner ++ rest) = Some (e, rest)) -> chain e.
Proof.
  intros E (t & r & Ei & Nt) H. apply atom_chain. eapply ev_mono; [apply ev_and; [apply ev_pred, H|apply (ev_ge 1)]|].
  intros n [H1 N1] rest. rewrite E. cbn [app]. rewrite <- app_assoc. cbn [app atom]. unfold bracketed.
  assert (E' : parse n LExpr (inner ++ TR :: rest) = Some (e, TR :: rest)).
  { destruct n as [|m]; [lia|]. cbn [parse]. replace (S m - 1) with m in H1 by lia. apply H1. reflexivity. }
  rewrite E'. rewrite Ei. cbn [app]. destruct t; try (destruct (Nt eq_refl)); reflexivity.
Qed.
