(** Every proper expression is read back. *)
From Coq Require Import Ascii String.
From Verif Require Import Base PyText Unparse UnparseSpec UnparseProofs.
Set Implicit Arguments.
Open Scope nat_scope.

Lemma level_of o : o <> Pow -> exists l1 ops l2, levels = l1 ++ ops :: l2 /\ existsb (binop_eqb o) ops = true /\ forall ops', In ops' l2 -> existsb (binop_eqb o) ops' = false.
Proof.
  intros H. destruct o; try (destruct (H eq_refl));
    [exists [[BitOr]; [BitXor]; [BitAnd]; [LShift; RShift]], [Add; Sub], [[Mult; Div; FloorDiv; Mod; MatMult]]
    |exists [[BitOr]; [BitXor]; [BitAnd]; [LShift; RShift]], [Add; Sub], [[Mult; Div; FloorDiv; Mod; MatMult]]
    |exists [[BitOr]; [BitXor]; [BitAnd]; [LShift; RShift]; [Add; Sub]], [Mult; Div; FloorDiv; Mod; MatMult], []
    |exists [[BitOr]; [BitXor]; [BitAnd]; [LShift; RShift]; [Add; Sub]], [Mult; Div; FloorDiv; Mod; MatMult], []
    |exists [[BitOr]; [BitXor]; [BitAnd]; [LShift; RShift]; [Add; Sub]], [Mult; Div; FloorDiv; Mod; MatMult], []
    |exists [[BitOr]; [BitXor]; [BitAnd]; [LShift; RShift]; [Add; Sub]], [Mult; Div; FloorDiv; Mod; MatMult], []
    |exists [[BitOr]; [BitXor]; [BitAnd]], [LShift; RShift], [[Add; Sub]; [Mult; Div; FloorDiv; Mod; MatMult]]
    |exists [[BitOr]; [BitXor]; [BitAnd]], [LShift; RShift], [[Add; Sub]; [Mult; Div; FloorDiv; Mod; MatMult]]
    |exists [], [BitOr], [[BitXor]; [BitAnd]; [LShift; RShift]; [Add; Sub]; [Mult; Div; FloorDiv; Mod; MatMult]]
    |exists [[BitOr]], [BitXor], [[BitAnd]; [LShift; RShift]; [Add; Sub]; [Mult; Div; FloorDiv; Mod; MatMult]]
    |exists [[BitOr]; [BitXor]], [BitAnd], [[LShift; RShift]; [Add; Sub]; [Mult; Div; FloorDiv; Mod; MatMult]]
    |exists [[BitOr]; [BitXor]; [BitAnd]; [LShift; RShift]; [Add; Sub]], [Mult; Div; FloorDiv; Mod; MatMult], []];
    (split; [reflexivity|split; [reflexivity|]]); cbn [In]; intuition (subst; reflexivity).
Qed.

(** [sep a sep b ...] *)
Lemma more_back n (sep : tok) (is_sep : tok -> bool) (p : parser pexpr) (s : tok -> bool) (l : list pexpr) rest :
  is_sep sep = true -> s sep = true -> length l < n ->
  (forall e r, In e l -> stops s r -> p (toks e ++ r) = Some (e, r)) ->
  stops s rest -> stops (fun t => negb (is_sep t)) rest ->
  forall k, length l < k -> more k is_sep p (flat_map (fun e => sep :: toks e) l ++ rest) = Some (l, rest).
Proof.
  intros Hs Hp _ Hb S1 S2. induction l as [|e l IH]; intros k Hk; (destruct k as [|k]; [lia|]).
  - cbn [flat_map app more]. destruct rest as [|t r]; [reflexivity|]. cbn in S2. destruct (is_sep t); [discriminate|reflexivity].
  - cbn [flat_map app more length] in *. rewrite Hs. rewrite <- app_assoc. rewrite Hb; [|left; reflexivity|].
    + cbn [obind fst snd]. rewrite IH; [reflexivity|intros; apply Hb; [right; assumption|assumption]|lia].
    + destruct l as [|e' l]; cbn; [exact S1|exact Hp].
Qed.
Lemma inter_toks sep (l : list pexpr) a : lexemes (interleave [Sp; T sep; Sp] (map unparse (a :: l))) = toks a ++ flat_map (fun e => sep :: toks e) l.
Proof.
  revert a. induction l as [|b l IH]; intros a; [cbn; rewrite app_nil_r; reflexivity|].
  change (interleave [Sp; T sep; Sp] (map unparse (a :: b :: l))) with (unparse a ++ [Sp; T sep; Sp] ++ interleave [Sp; T sep; Sp] (map unparse (b :: l))).
  rewrite !lexemes_app, IH. reflexivity.
Qed.
Fixpoint commas (l : list (list tok)) : list tok := match l with [] => [] | [a] => a | a :: l' => a ++ TComma :: commas l' end.
Lemma comma_toks (l : list (list piece)) : lexemes (interleave comma l) = commas (map lexemes l).
Proof.
  induction l as [|a l IH]; [reflexivity|]. destruct l as [|b l]; [reflexivity|].
  change (interleave comma (a :: b :: l)) with (a ++ comma ++ interleave comma (b :: l)). rewrite !lexemes_app, IH. reflexivity.
Qed.

(** Comma-separated expressions up to a closing bracket. *)
Definition closes (close : tok -> bool) (c : tok) : Prop := close c = true /\ stopE c = true /\ c <> TComma /\ c <> TKw KFor /\ forall t, start t = true -> close t = false.
Lemma closes_R : closes is_R TR. Proof. repeat split; try discriminate. intros []; cbn; congruence. Qed.
Lemma closes_RB : closes is_RB TRB. Proof. repeat split; try discriminate. intros []; cbn; congruence. Qed.
Lemma close_comma close c : closes close c -> close TComma = false -> True. Proof. auto. Qed.
Lemma items_back (p : parser pexpr) close c (l : list pexpr) rest : closes close c ->
  (forall e, In e l -> proper e = true) ->
  (forall e r, In e l -> stops stopE r -> p (toks e ++ r) = Some (e, r)) ->
  forall k, length l < k -> items k p close (commas (map toks l) ++ c :: rest) = Some (l, rest).
Proof.
  intros (C1 & C2 & C3 & _ & C4) Hp Hb. induction l as [|e l IH]; intros k Hk; (destruct k as [|k]; [lia|]).
  - cbn. rewrite C1. reflexivity.
  - assert (St : exists t r, toks e = t :: r /\ start t = true) by (apply starts, Hp; left; reflexivity).
    destruct St as (t & r & E & St). pose proof (C4 t St) as Ct. cbn [length] in Hk.
    assert (K : forall X, items (S k) p close (toks e ++ X) = do x <- p (toks e ++ X);
        match snd x with
        | TComma :: r1 => do y <- items k p close r1; Some (fst x :: fst y, snd y)
        | t1 :: r1 => if close t1 then Some ([fst x], r1) else None
        | [] => None
        end). { intros X. rewrite E. cbn [app items]. rewrite Ct. reflexivity. }
    destruct l as [|e' l].
    + cbn [map commas]. rewrite K, Hb by (cbn; auto). cbn [obind fst snd]. destruct c; try congruence; rewrite C1; reflexivity.
    + change (commas (map toks (e :: e' :: l))) with (toks e ++ TComma :: commas (map toks (e' :: l))). rewrite <- app_assoc. cbn [app].
      rewrite K, Hb by (cbn; auto). cbn [obind fst snd]. rewrite IH; [reflexivity|intros; apply Hp; right; assumption|intros; apply Hb; [right; assumption|assumption]|lia].
Qed.

(** Comparisons. *)
Definition cmp_toks (o : cmpop) : list tok := lexemes (cmp_text o).
Lemma read_cmp_back o t r : start t = true -> read_cmp (cmp_toks o ++ t :: r) = Some (o, t :: r).
Proof. destruct o; destruct t; intros; try discriminate; reflexivity. Qed.
Lemma compares_back n (l : list (cmpop * pexpr)) rest :
  1 <= n -> (forall r, In r l -> proper (snd r) = true /\ back (snd r) n) -> stops stopC rest ->
  forall k, length l < k -> compares n (parse n) k (flat_map (fun r => cmp_toks (fst r) ++ toks (snd r)) l ++ rest) = Some (l, rest).
Proof.
  intros N H S. induction l as [|[o e] l IH]; intros k Hk; (destruct k as [|k]; [lia|]).
  - cbn [flat_map app compares]. replace (read_cmp rest) with (@None (cmpop * list tok)); [reflexivity|]. destruct rest as [|[] r]; try reflexivity; cbn in S |- *; try discriminate. destruct k0; try reflexivity; discriminate.
  - destruct (H (o, e)) as [Pr B]; [left; reflexivity|]. cbn [snd] in Pr, B. cbn [flat_map app length fst snd] in *. rewrite <- !app_assoc.
    destruct (starts _ Pr) as (t & r & E & St). cbn [compares].
    assert (Rc : read_cmp (cmp_toks o ++ toks e ++ flat_map (fun r => cmp_toks (fst r) ++ toks (snd r)) l ++ rest) = Some (o, toks e ++ flat_map (fun r => cmp_toks (fst r) ++ toks (snd r)) l ++ rest)).
    { rewrite E. cbn [app]. apply read_cmp_back, St. }
    rewrite Rc. rewrite (back_cmp_arg Pr N B).
    + cbn [obind fst snd]. rewrite IH; [reflexivity|intros; apply H; right; assumption|lia].
    + destruct l as [|[o' e'] l]; cbn [flat_map app].
      * destruct rest as [|t' r']; [exact I|]. cbn in S |- *. unfold stopC in S. apply andb_prop in S as [S _]. exact S.
      * cbn [fst]. destruct o'; reflexivity.
Qed.

(** Comprehensions. *)
Definition gen_toks (g : pexpr * pexpr * list pexpr) : list tok :=
  TKw KFor :: toks (fst (fst g)) ++ TKw KIn :: toks (snd (fst g)) ++ flat_map (fun c => TKw KIf :: toks c) (snd g).
Definition gen_ok (n : nat) (g : pexpr * pexpr * list pexpr) : Prop :=
  is_target (fst (fst g)) = true /\ back (fst (fst g)) n /\ proper (snd (fst g)) = true /\ back (snd (fst g)) n /\ length (snd g) < n /\
  forall c, In c (snd g) -> proper c = true /\ back c n.
Lemma gens_back n (gs : list (pexpr * pexpr * list pexpr)) c rest : 1 <= n -> (forall g, In g gs -> gen_ok n g) -> stopE c = true -> c <> TKw KFor ->
  forall k, length gs < k -> gens (S n) (parse (S n)) k (flat_map gen_toks gs ++ c :: rest) = Some (gs, c :: rest).
Proof.
  intros N H C1 C2. induction gs as [|[[t i] cs] gs IH]; intros k Hk; (destruct k as [|k]; [lia|]).
  - cbn [flat_map app gens]. destruct c; try reflexivity. destruct k0; try reflexivity. congruence.
  - destruct (H (t, i, cs)) as (H1 & H2 & H3 & H4 & H5 & H6); [left; reflexivity|]. cbn [fst snd] in *. cbn [flat_map length] in *.
    unfold gen_toks at 1. cbn [fst snd app]. rewrite <- !app_assoc. cbn [app]. rewrite <- !app_assoc. cbn [gens].
    assert (Nx : forall s, s c = true -> s (TKw KFor) = true -> stops s (flat_map gen_toks gs ++ c :: rest)).
    { intros s A B. destruct gs as [|g gs]; cbn; [exact A|exact B]. }
    assert (CO : stopO c = true) by (unfold stopE in C1; apply andb_prop in C1; tauto).
    assert (CI : is_if c = false) by (unfold stopE in C1; apply andb_prop in C1 as [_ C1]; destruct (is_if c); [discriminate|reflexivity]).
    rewrite parse_prim; [|lia|replace (S n - 1) with n by lia; exact H2|reflexivity]. cbn [obind fst snd]. rewrite H1.
    rewrite parse_or; [|exact H3|lia|replace (S n - 1) with n by lia; exact H4|].
    2:{ destruct cs; [apply Nx; [exact CO|reflexivity]|reflexivity]. }
    cbn [obind fst snd].
    rewrite (@more_back (S n) (TKw KIf) is_if _ stopO); [|reflexivity|reflexivity|lia| | | |lia].
    + cbn [obind fst snd]. rewrite IH; [reflexivity|intros; apply H; right; assumption|lia].
    + intros e r He Hr. destruct (H6 e He) as [H7 H8]. apply parse_or; [exact H7|lia|replace (S n - 1) with n by lia; exact H8|exact Hr].
    + apply Nx; [exact CO|reflexivity].
    + apply Nx; [rewrite CI; reflexivity|reflexivity].
Qed.

(** Parameters of a lambda. *)
Lemma params_back (xs : list word) rest : forall k, length xs < k -> parameters k (commas (map (fun x => [TName x]) xs) ++ TColon :: rest) = Some (xs, rest).
Proof.
  induction xs as [|x xs IH]; intros k Hk; (destruct k as [|k]; [lia|]); [reflexivity|]. cbn [length] in Hk.
  destruct xs as [|y xs]; [reflexivity|]. change (commas (map (fun x => [TName x]) (x :: y :: xs))) with (TName x :: TComma :: commas (map (fun x => [TName x]) (y :: xs))).
  cbn [app parameters]. rewrite IH by lia. reflexivity.
Qed.

(** Arguments of a call. *)
Definition kw_toks (k : option word * pexpr) : list tok := match fst k with None => [TBin Pow] | Some x => [TName x; TAssign] end ++ toks (snd k).
Definition next_arg (P : level -> parser pexpr) (k : nat) (kw : bool) (r : list tok) : option (list pexpr * list (option word * pexpr) * list tok) :=
  match r with TComma :: r1 => arguments P k kw r1 | TR :: r1 => Some ([], [], r1) | _ => None end.
Lemma arg_kw P k kw (o : option word * pexpr) ts : arguments P (S k) kw (match fst o with None => [TBin Pow] | Some x => [TName x; TAssign] end ++ ts) =
  do y <- P LExpr ts; do z <- next_arg P k true (snd y); Some (fst (fst z), (fst o, fst y) :: snd (fst z), snd z).
Proof. destruct o as [[x|] e]; reflexivity. Qed.
Lemma arg_pos P k e rest : proper e = true -> (forall r, rest <> TAssign :: r) -> arguments P (S k) false (toks e ++ rest) =
  do y <- P LExpr (toks e ++ rest); do z <- next_arg P k false (snd y); Some (fst y :: fst (fst z), snd (fst z), snd z).
Proof.
  intros Pr NA. destruct (starts _ Pr) as (t & r & E & St). rewrite E. cbn [app].
  destruct t; try discriminate; try reflexivity.
  assert (NS : forall r', r ++ rest <> TAssign :: r').
  { intros r'. destruct r as [|t2 r2]; [apply NA|]. cbn. destruct (second _ Pr E) as [->|[->| ->]]; discriminate. }
  destruct (r ++ rest) as [|[] ?]; try reflexivity. destruct (NS _ eq_refl).
Qed.
Lemma args_kws_back (P : level -> parser pexpr) (kws : list (option word * pexpr)) rest :
  (forall k r, In k kws -> stops stopE r -> P LExpr (toks (snd k) ++ r) = Some (snd k, r)) ->
  forall n kw, length kws < n -> arguments P n kw (commas (map kw_toks kws) ++ TR :: rest) = Some ([], kws, rest).
Proof.
  intros H. induction kws as [|k kws IH]; intros n kw Hn; (destruct n as [|n]; [lia|]); [reflexivity|]. cbn [length] in Hn.
  destruct kws as [|k' kws].
  - cbn [map commas]. unfold kw_toks. rewrite <- app_assoc, arg_kw, H by (cbn; auto). cbn [obind fst snd next_arg]. destruct k; reflexivity.
  - change (commas (map kw_toks (k :: k' :: kws))) with (kw_toks k ++ TComma :: commas (map kw_toks (k' :: kws))).
    unfold kw_toks at 1. rewrite <- !app_assoc. cbn [app]. rewrite arg_kw, H by (cbn; auto). cbn [obind fst snd next_arg].
    rewrite IH; [destruct k; reflexivity|intros; apply H; [right; assumption|assumption]|lia].
Qed.
Lemma args_back (P : level -> parser pexpr) (args : list pexpr) (kws : list (option word * pexpr)) rest :
  (forall e, In e args -> proper e = true) ->
  (forall e r, In e args -> stops stopE r -> P LExpr (toks e ++ r) = Some (e, r)) ->
  (forall k r, In k kws -> stops stopE r -> P LExpr (toks (snd k) ++ r) = Some (snd k, r)) ->
  forall n, length args + length kws < n -> arguments P n false (commas (map toks args ++ map kw_toks kws) ++ TR :: rest) = Some (args, kws, rest).
Proof.
  intros Hp Ha Hk. induction args as [|e args IH]; intros n Hn.
  - cbn [map app]. apply args_kws_back; auto.
  - destruct n as [|n]; [lia|]. cbn [length] in Hn. cbn [map app].
    destruct (map toks args ++ map kw_toks kws) as [|a l] eqn:El.
    + apply app_eq_nil in El as [E1 E2]. apply map_eq_nil in E1, E2. subst. cbn [commas]. rewrite arg_pos by (try (apply Hp; left; reflexivity); discriminate).
      rewrite Ha by (cbn; auto). reflexivity.
    + change (commas (toks e :: a :: l)) with (toks e ++ TComma :: commas (a :: l)). rewrite <- app_assoc. cbn [app].
      rewrite arg_pos by (try (apply Hp; left; reflexivity); discriminate). rewrite Ha by (cbn; auto). cbn [obind fst snd next_arg].
      rewrite IH; [reflexivity|intros; apply Hp; right; assumption|intros; apply Ha; [right; assumption|assumption]|lia].
Qed.

(** Slices. *)
Definition opt_toks (o : option pexpr) : list tok := match o with None => [] | Some e => toks e end.
Lemma optional_back P o rest : (forall e, o = Some e -> proper e = true /\ forall r, stops stopE r -> P LExpr (toks e ++ r) = Some (e, r)) ->
  (exists t r, rest = t :: r /\ (t = TColon \/ t = TRB)) -> optional P (opt_toks o ++ rest) = Some (o, rest).
Proof.
  intros H (t & r & -> & Ht). destruct o as [e|].
  - destruct (H e eq_refl) as [Pr B]. cbn [opt_toks]. unfold optional. rewrite B by (destruct Ht; subst; reflexivity). destruct (starts _ Pr) as (t' & r' & E & St). rewrite E. destruct t'; try discriminate; reflexivity.
  - destruct Ht; subst; reflexivity.
Qed.

(** ** The cases *)
Lemma inner_start e X : proper e = true -> exists t r, toks e ++ X = t :: r /\ t <> TR.
Proof. intros H. destruct (starts _ H) as (t & r & E & S). rewrite E. exists t, (r ++ X). split; [reflexivity|]. intros ->. discriminate. Qed.

Lemma chain_unary o a : proper a = true -> ev (back a) -> chain (UnaryOp o a).
Proof.
  intros Pr B. apply paren_chain with (inner := unop_tok o :: toks a).
  - unfold toks. cbn [unparse]. rewrite !lexemes_app. reflexivity.
  - exists (unop_tok o), (toks a). split; [reflexivity|]. destruct o; discriminate.
  - eapply ev_mono; [apply ev_and; [exact B|apply (ev_ge 2)]|]. intros n [Ha N] rest S. cbn [app].
    assert (NP : forall r, rest <> TBin Pow :: r) by (intros r ->; discriminate).
    assert (SP : stops stopP rest) by (apply stopPB, stopBC, stopCA, stopAO, stopOE, S).
    assert (ge1 : 1 <= n) by lia. destruct n as [|k]; [lia|]. destruct o.
    + apply factor_all; [lia| |exact I|exact I|exact S]. cbn [factor unop_tok]. rewrite (back_factor Pr ge1 Ha) by (auto; lia). reflexivity.
    + apply lift_expr; [|exact I|exact S]. apply lift_or; [lia| |apply stopOE, S]. apply lift_and; [lia| |apply stopAO, stopOE, S]. cbn [inversion unop_tok].
      rewrite (back_inv Pr ge1 Ha) by (auto using stopCA, stopAO, stopOE; lia). reflexivity.
    + apply factor_all; [lia| |exact I|exact I|exact S]. cbn [factor unop_tok]. rewrite (back_factor Pr ge1 Ha) by (auto; lia). reflexivity.
    + apply factor_all; [lia| |exact I|exact I|exact S]. cbn [factor unop_tok]. rewrite (back_factor Pr ge1 Ha) by (auto; lia). reflexivity.
Qed.

Lemma chain_bin o a b : proper a = true -> proper b = true -> ev (back a) -> ev (back b) -> chain (BinOp o a b).
Proof.
  intros Pa Pb Ba Bb. apply paren_chain with (inner := toks a ++ TBin o :: toks b).
  - unfold toks. cbn [unparse]. rewrite !lexemes_app. cbn [lexemes app]. rewrite <- !app_assoc. reflexivity.
  - apply inner_start, Pa.
  - eapply ev_mono; [apply ev_and; [apply ev_and; [exact Ba|exact Bb]|apply (ev_ge 3)]|]. intros n [[Ha Hb] N] rest S. assert (ge1 : 1 <= n) by lia. rewrite <- app_assoc. cbn [app].
    assert (NP : forall r, rest <> TBin Pow :: r) by (intros r ->; discriminate).
    assert (SB : stops stopB rest) by (apply stopBC, stopCA, stopAO, stopOE, S).
    assert (Nn := not_ok a Pa (TBin o :: toks b ++ rest)). assert (Nl := lam_ok a Pa (TBin o :: toks b ++ rest)).
    assert (D : o = Pow \/ o <> Pow) by (destruct o; ((left; reflexivity) || (right; discriminate))). destruct D as [->|No].
    + apply factor_all; [lia| |exact Nn|exact Nl|exact S]. destruct n as [|k]; [lia|].
      assert (E : factor (Datatypes.S k) (parse (Datatypes.S k)) (Datatypes.S k) (toks a ++ TBin Pow :: toks b ++ rest) = do x <- primary (Datatypes.S k) (parse (Datatypes.S k)) (toks a ++ TBin Pow :: toks b ++ rest);
        match snd x with
        | TBin Pow :: r => do y <- factor (Datatypes.S k) (parse (Datatypes.S k)) k r; Some (BinOp Pow (fst x) (fst y), snd y)
        | _ => Some x
        end).
      { destruct (starts _ Pa) as (t & r & E & St). rewrite E. destruct t; try discriminate; reflexivity. }
      rewrite E, Ha by reflexivity. cbn [obind fst snd]. rewrite (back_factor Pb ge1 Hb) by (auto using stopPB; lia). reflexivity.
    + apply lift_expr; [|exact Nl|exact S]. apply lift_or; [lia| |apply stopOE, S]. apply lift_and; [lia| |apply stopAO, stopOE, S]. apply lift_inv; [lia| |exact Nn|lia].
      apply lift_cmp; [lia| |apply stopCA, stopAO, stopOE, S]. destruct (level_of No) as (l1 & ops & l2 & El & Ho & Hl). rewrite El. apply lift_binary; [lia| |exact SB].
      cbn [binary]. rewrite (back_binary Pa ge1 Ha) by (cbn; auto). cbn [obind fst snd]. destruct n as [|k]; [lia|]. cbn [left_assoc]. rewrite Ho.
      rewrite (back_binary Pb ge1 Hb) by (auto using stopPB, stop_free). cbn [obind fst snd].
      destruct k as [|k]; [lia|]. cbn [left_assoc]. destruct rest as [|[] rest]; try reflexivity. discriminate.
Qed.

Lemma chain_cmp a l : proper a = true -> ev (back a) -> l <> [] -> (forall r, In r l -> proper (snd r) = true /\ ev (back (snd r))) -> chain (Compare a l).
Proof.
  intros Pa Ba Nl Hl. apply paren_chain with (inner := toks a ++ flat_map (fun r => cmp_toks (fst r) ++ toks (snd r)) l).
  - unfold toks. cbn [unparse]. rewrite !lexemes_app, lexemes_flat. cbn [lexemes app]. rewrite <- !app_assoc. f_equal. f_equal. f_equal.
    apply flat_map_ext. intros r. rewrite !lexemes_app. reflexivity.
  - apply inner_start, Pa.
  - eapply ev_mono; [apply ev_and; [apply ev_and; [exact Ba|apply (@ev_all _ l (fun r n => back (snd r) n)); intros r Hr; apply (Hl r Hr)]|apply (ev_ge (S (S (length l))))]|].
    intros n [[Ha Hb] N] rest S. assert (ge1 : 1 <= n) by lia. rewrite <- app_assoc.
    apply lift_expr; [|apply lam_ok, Pa|exact S]. apply lift_or; [lia| |apply stopOE, S]. apply lift_and; [lia| |apply stopAO, stopOE, S]. apply lift_inv; [lia| |apply not_ok, Pa|lia].
    unfold comparison. rewrite (back_cmp_arg Pa ge1 Ha).
    + cbn [obind fst snd]. rewrite compares_back; [|lia|intros r Hr; split; [apply (Hl r Hr)|apply Hb, Hr]|apply stopCA, stopAO, stopOE, S|lia].
      cbn [obind fst snd]. destruct l; [congruence|reflexivity].
    + destruct l as [|[o e] l]; [congruence|]. destruct o; reflexivity.
Qed.

Lemma chain_bool o vs : 2 <= length vs -> (forall e, In e vs -> proper e = true /\ ev (back e)) -> chain (BoolOp o vs).
Proof.
  intros L H. destruct vs as [|a [|b vs]]; [cbn in L; lia|cbn in L; lia|]. clear L.
  apply paren_chain with (inner := toks a ++ flat_map (fun e => bool_tok o :: toks e) (b :: vs)).
  - unfold toks at 1. cbn [unparse]. rewrite !lexemes_app, inter_toks. cbn [lexemes app]. rewrite <- !app_assoc. reflexivity.
  - apply inner_start. apply H. left; reflexivity.
  - eapply ev_mono; [apply ev_and; [apply (@ev_all _ (a :: b :: vs) back); intros r Hr; apply (H r Hr)|apply (ev_ge (S (S (S (S (length vs))))))]|].
    intros n [Hb N] rest S. assert (ge1 : 1 <= n) by lia. rewrite <- app_assoc. assert (Pa : proper a = true) by (apply H; left; reflexivity).
    apply lift_expr; [|apply lam_ok, Pa|exact S].
    assert (SA := stopAO _ (stopOE _ S)). assert (SC := stopCA _ SA).
    destruct o; cbn [bool_tok].
    + apply lift_or; [lia| |apply stopOE, S]. unfold joined.
      rewrite (back_inv Pa ge1 (Hb a (or_introl eq_refl))) by (cbn; auto; lia). cbn [obind fst snd].
      rewrite (@more_back n (TKw KAnd) is_and _ stopC); [reflexivity|reflexivity|reflexivity|cbn [length]; lia| |exact SC| |cbn [length]; lia].
      * intros e r He Hr. apply back_inv; [apply H; right; exact He|lia|apply Hb; right; exact He|lia|exact Hr].
      * destruct rest as [|t r]; [exact I|]. cbn in SA |- *. unfold stopA in SA. apply andb_prop in SA. apply SA.
    + unfold disjunction, joined at 1. rewrite (back_and Pa ge1 (Hb a (or_introl eq_refl))) by reflexivity. cbn [obind fst snd].
      rewrite (@more_back n (TKw KOr) is_or _ stopA); [reflexivity|reflexivity|reflexivity|cbn [length]; lia| |exact SA| |cbn [length]; lia].
      * intros e r He Hr. apply back_and; [apply H; right; exact He|lia|apply Hb; right; exact He|exact Hr].
      * pose proof (stopOE _ S) as SO. destruct rest as [|t r]; [exact I|]. cbn in SO |- *. unfold stopO in SO. apply andb_prop in SO. apply SO.
Qed.

Lemma expression_or n P ts : no_lambda ts -> expression n P ts = do x <- disjunction n P ts;
  match snd x with
  | TKw KIf :: r => do y <- disjunction n P r; match snd y with TKw KElse :: r1 => do z <- P LExpr r1; Some (IfExp (fst x) (fst y) (fst z), snd z) | _ => None end
  | _ => Some x
  end.
Proof. intros L. unfold expression. destruct ts as [|[] ts]; try reflexivity. destruct k; try reflexivity. destruct L. Qed.
Lemma chain_if a b c : proper a = true -> proper b = true -> proper c = true -> ev (back a) -> ev (back b) -> ev (back c) -> chain (IfExp a b c).
Proof.
  intros Pa Pb Pc Ba Bb Bc. apply paren_chain with (inner := toks a ++ TKw KIf :: toks b ++ TKw KElse :: toks c).
  - unfold toks. cbn [unparse]. rewrite !lexemes_app. cbn [lexemes app]. rewrite <- !app_assoc. cbn [app]. rewrite <- !app_assoc. reflexivity.
  - apply inner_start, Pa.
  - eapply ev_mono; [apply ev_and; [apply ev_and; [exact Ba|apply ev_and; [exact Bb|apply ev_pred; exact Bc]]|apply (ev_ge 3)]|].
    intros n [[Ha [Hb Hc]] N] rest S. assert (ge1 : 1 <= n) by lia. assert (ge2 : 2 <= n) by lia. rewrite <- app_assoc. cbn [app]. rewrite <- app_assoc. cbn [app].
    rewrite expression_or by apply lam_ok, Pa. rewrite (back_or Pa ge1 Ha) by reflexivity. cbn [obind fst snd].
    rewrite (back_or Pb ge1 Hb) by reflexivity. cbn [obind fst snd].
    rewrite (parse_expr _ Pc ge2 Hc S). reflexivity.
Qed.

Lemma chain_lambda xs b : proper b = true -> ev (back b) -> chain (Lambda xs b).
Proof.
  intros Pb Bb. apply paren_chain with (inner := TKw KLambda :: commas (map (fun x => [TName x]) xs) ++ TColon :: toks b).
  - unfold toks. cbn [unparse]. rewrite !lexemes_app, comma_toks, map_map. cbn [lexemes app]. rewrite <- !app_assoc. reflexivity.
  - eexists. eexists. split; [reflexivity|discriminate].
  - eapply ev_mono; [apply ev_and; [apply ev_pred; exact Bb|apply (ev_ge (S (S (length xs))))]|].
    intros n [Hb N] rest S. assert (ge2 : 2 <= n) by lia. cbn [app]. rewrite <- app_assoc. cbn [app expression].
    rewrite params_back by lia. cbn [obind fst snd]. rewrite (parse_expr _ Pb ge2 Hb S). reflexivity.
Qed.

Lemma gens_toks gs : flat_map (fun g => lexemes ([Sp; T (TKw KFor); Sp] ++ unparse (fst (fst g)) ++ [Sp; T (TKw KIn); Sp] ++ unparse (snd (fst g)) ++
                       flat_map (fun c => [Sp; T (TKw KIf); Sp] ++ unparse c) (snd g))) gs = flat_map gen_toks gs.
Proof. apply flat_map_ext. intros [[t i] cs]. cbn [fst snd]. rewrite !lexemes_app, lexemes_flat. unfold gen_toks, toks. cbn [fst snd lexemes app]. reflexivity. Qed.

Lemma bracket_many n close c single several comp l rest :
  closes close c -> (forall e, In e l -> proper e = true /\ back e (n - 1)) -> 2 + length l <= n ->
  bracketed n (parse n) close single several comp (commas (map toks l) ++ c :: rest) = Some (match l with [a] => single a | _ => several l end, rest).
Proof.
  intros C H N. destruct C as (C1 & C2 & C3 & C4 & C5). destruct l as [|a l].
  - cbn [map commas app]. unfold bracketed. rewrite C1. reflexivity.
  - destruct (H a (or_introl eq_refl)) as [Pa Ba]. destruct (starts _ Pa) as (t & r & E & St). pose proof (C5 t St) as Ct. cbn [length] in N.
    assert (K : forall X, bracketed n (parse n) close single several comp (toks a ++ X) = do x <- parse n LExpr (toks a ++ X);
      match snd x with
      | TComma :: r1 => do y <- items n (parse n LExpr) close r1; Some (several (fst x :: fst y), snd y)
      | TKw KFor :: _ => do y <- gens n (parse n) n (snd x); match snd y with t1 :: r1 => if close t1 then Some (comp (fst x) (fst y), r1) else None | [] => None end
      | t1 :: r1 => if close t1 then Some (single (fst x), r1) else None
      | [] => None
      end). { intros X. unfold bracketed. rewrite E. cbn [app]. rewrite Ct. reflexivity. }
    destruct l as [|b l].
    + cbn [map commas]. rewrite K, parse_expr by (first [assumption | exact C2 | reflexivity | lia]). cbn [obind fst snd]. destruct c; try congruence; try (rewrite C1; reflexivity). destruct k; try congruence; rewrite C1; reflexivity.
    + change (commas (map toks (a :: b :: l))) with (toks a ++ TComma :: commas (map toks (b :: l))). rewrite <- app_assoc. cbn [app].
      rewrite K, parse_expr by (first [assumption | exact C2 | reflexivity | lia]). cbn [obind fst snd]. rewrite (@items_back (parse n LExpr) close c (b :: l)); [reflexivity|repeat split; auto| | |cbn [length] in *; lia].
      * intros e He. apply (H e). right; exact He.
      * intros e r' He Hr. destruct (H e (or_intror He)). apply parse_expr; auto. lia.
Qed.

Lemma bracket_comp n close c single several comp a gs rest :
  closes close c -> proper a = true -> back a (n - 1) -> gs <> [] -> (forall g, In g gs -> gen_ok (n - 1) g) -> 2 + length gs <= n ->
  bracketed n (parse n) close single several comp (toks a ++ flat_map gen_toks gs ++ c :: rest) = Some (comp a gs, rest).
Proof.
  intros C Pa Ba Ng H N. destruct C as (C1 & C2 & C3 & C4 & C5). destruct (starts _ Pa) as (t & r & E & St). pose proof (C5 t St) as Ct.
  assert (K : forall X, bracketed n (parse n) close single several comp (toks a ++ X) = do x <- parse n LExpr (toks a ++ X);
      match snd x with
      | TComma :: r1 => do y <- items n (parse n LExpr) close r1; Some (several (fst x :: fst y), snd y)
      | TKw KFor :: _ => do y <- gens n (parse n) n (snd x); match snd y with t1 :: r1 => if close t1 then Some (comp (fst x) (fst y), r1) else None | [] => None end
      | t1 :: r1 => if close t1 then Some (single (fst x), r1) else None
      | [] => None
      end). { intros X. unfold bracketed. rewrite E. cbn [app]. rewrite Ct. reflexivity. }
  rewrite K, parse_expr; [|exact Pa|lia|exact Ba|destruct gs; [congruence|reflexivity]]. cbn [obind fst snd].
  destruct n as [|m]; [lia|]. replace (S m - 1) with m in H by lia.
  rewrite gens_back; [|lia|exact H|exact C2|exact C4|lia].
  cbn [obind fst snd]. rewrite C1. destruct gs as [|g gs]; [congruence|]. cbn [flat_map app]. unfold gen_toks. reflexivity.
Qed.

Definition all_back (l : list pexpr) : Prop := forall e, In e l -> proper e = true /\ ev (back e).
Lemma all_back_ev l : all_back l -> ev (fun n => forall e, In e l -> proper e = true /\ back e n).
Proof.
  intros H. eapply ev_mono; [apply (@ev_all _ l back); intros e He; apply (H e He)|]. intros n Hn e He. split; [apply (H e He)|apply Hn, He].
Qed.

Lemma chain_list l : all_back l -> chain (List l).
Proof.
  intros H. apply atom_chain. eapply ev_mono; [apply ev_and; [apply ev_pred, all_back_ev, H|apply (ev_ge (2 + length l))]|].
  intros n [Hb N] rest. unfold toks. cbn [unparse]. rewrite !lexemes_app, comma_toks, map_map. cbn [lexemes app atom]. rewrite <- app_assoc. cbn [app].
  rewrite (@bracket_many n is_RB TRB _ _ _ l rest closes_RB Hb N). destruct l as [|a [|b l]]; reflexivity.
Qed.
Lemma chain_tuple l : all_back l -> chain (Tuple l).
Proof.
  intros H. apply atom_chain. eapply ev_mono; [apply ev_and; [apply ev_pred, all_back_ev, H|apply (ev_ge (2 + length l))]|].
  intros n [Hb N] rest. unfold toks. cbn [unparse]. destruct l as [|a [|b l]].
  - reflexivity.
  - rewrite !lexemes_app. cbn [lexemes app atom]. rewrite <- !app_assoc. cbn [app]. destruct (Hb a (or_introl eq_refl)) as [Pa Ba].
    destruct (starts _ Pa) as (t & r & E & St). unfold bracketed.
    change (lexemes (unparse a)) with (toks a). rewrite parse_expr by (first [assumption | reflexivity | cbn [length] in N; lia]). rewrite E. cbn [app length] in *. destruct n as [|k]; [lia|]. destruct t; try discriminate; reflexivity.
  - rewrite !lexemes_app, comma_toks, map_map. cbn [lexemes app atom]. rewrite <- app_assoc. cbn [app].
    rewrite (@bracket_many n is_R TR _ _ _ (a :: b :: l) rest closes_R Hb N). reflexivity.
Qed.
Definition gens_good (gs : list (pexpr * pexpr * list pexpr)) : Prop :=
  forall g, In g gs -> is_target (fst (fst g)) = true /\ ev (back (fst (fst g))) /\ proper (snd (fst g)) = true /\ ev (back (snd (fst g))) /\ all_back (snd g).
Lemma gens_good_ev gs : gens_good gs -> ev (fun n => forall g, In g gs -> gen_ok n g).
Proof.
  intros H. apply (@ev_all _ gs (fun g n => gen_ok n g)). intros g Hg. destruct (H g Hg) as (H1 & H2 & H3 & H4 & H5).
  eapply ev_mono; [apply ev_and; [apply ev_and; [exact H2|exact H4]|apply ev_and; [apply (all_back_ev H5)|apply (ev_ge (S (length (snd g))))]]|].
  intros n [[A B] [C D]]. unfold gen_ok. repeat split; auto; apply C; assumption.
Qed.
Lemma chain_listcomp a gs : proper a = true -> ev (back a) -> gs <> [] -> gens_good gs -> chain (ListComp a gs).
Proof.
  intros Pa Ba Ng H. apply atom_chain. eapply ev_mono; [apply ev_and; [apply ev_pred, (ev_and Ba (gens_good_ev H))|apply (ev_ge (2 + length gs))]|].
  intros n [[Hb Hg] N] rest. unfold toks. cbn [unparse]. rewrite !lexemes_app, lexemes_flat, gens_toks. cbn [lexemes app atom]. rewrite <- !app_assoc. cbn [app].
  apply (bracket_comp _ _ _ rest closes_RB Pa Hb Ng Hg N).
Qed.
Lemma chain_genexp a gs : proper a = true -> ev (back a) -> gs <> [] -> gens_good gs -> chain (GeneratorExp a gs).
Proof.
  intros Pa Ba Ng H. apply atom_chain. eapply ev_mono; [apply ev_and; [apply ev_pred, (ev_and Ba (gens_good_ev H))|apply (ev_ge (2 + length gs))]|].
  intros n [[Hb Hg] N] rest. unfold toks. cbn [unparse]. rewrite !lexemes_app, lexemes_flat, gens_toks. cbn [lexemes app atom]. rewrite <- !app_assoc. cbn [app].
  apply (bracket_comp _ _ _ rest closes_R Pa Hb Ng Hg N).
Qed.

Lemma chain_attr a x : chain a -> chain (Attribute a x).
Proof.
  intros [c H]. exists (S c). eapply ev_mono; [apply ev_and; [exact H|apply (ev_ge (S c))]|]. intros n [Ha N] rest.
  assert (E : toks (Attribute a x) = toks a ++ [TDot; TName x]) by (unfold toks; cbn [unparse]; rewrite !lexemes_app; destruct (is_int a); reflexivity).
  rewrite E, <- app_assoc, Ha. destruct (n - c) as [|k] eqn:Ek; [lia|]. cbn [app trailers]. f_equal. lia.
Qed.
Lemma lone_none n x ts : (forall e r, parse n LExpr ts = Some (e, r) -> forall r', r <> TKw KFor :: r') -> x = n -> lone x (parse n) ts = None.
Proof.
  intros H ->. unfold lone. destruct (parse n LExpr ts) as [[e r]|]; [|reflexivity]. cbn [obind fst snd]. specialize (H e r eq_refl). destruct r as [|[] r]; try reflexivity. destruct k; try reflexivity. destruct (H r eq_refl).
Qed.
Lemma lone_args n args kws rest : 3 <= n -> (forall e, In e args -> proper e = true /\ back e (n - 1)) ->
  lone n (parse n) (commas (map toks args ++ map kw_toks kws) ++ TR :: rest) = None.
Proof.
  intros N H. apply lone_none; [|reflexivity]. destruct args as [|a args].
  - cbn [map app]. destruct kws as [|[[x|] e] kws]; [destruct n as [|[|[|n]]]; [lia|lia|lia|discriminate]| |].
    + assert (Ex : exists X, commas (map kw_toks ((Some x, e) :: kws)) ++ TR :: rest = toks (Name x) ++ TAssign :: X).
      { cbn [map]. destruct (map kw_toks kws) as [|t l]; cbn [commas]; unfold kw_toks; cbn [fst snd app]; eexists; reflexivity. }
      destruct Ex as [X ->].
      assert (B : back (Name x) (n - 1)).
      { intros r Hr. unfold primary. cbn [toks app atom obind fst snd]. generalize (parse (n - 1)). intros P. destruct (n - 1) as [|k] eqn:En; [lia|]. cbn [trailers]. destruct r as [|[] r]; try reflexivity; discriminate Hr. }
      rewrite parse_expr; [intros ? ? [= <- <-]; discriminate|reflexivity|lia|exact B|reflexivity].
    + assert (Ex : exists X, commas (map kw_toks ((None, e) :: kws)) ++ TR :: rest = TBin Pow :: X).
      { cbn [map]. destruct (map kw_toks kws) as [|t l]; cbn [commas]; unfold kw_toks; cbn [fst snd app]; eexists; reflexivity. }
      destruct Ex as [X ->]. destruct n as [|[|[|n]]]; [lia|lia|lia|discriminate].
  - destruct (H a (or_introl eq_refl)) as [Pa Ba]. cbn [map app].
    assert (Ex : exists t X, commas (toks a :: map toks args ++ map kw_toks kws) ++ TR :: rest = toks a ++ t :: X /\ (t = TComma \/ t = TR)).
    { destruct (map toks args ++ map kw_toks kws) as [|b l]; cbn [commas]; [eauto|rewrite <- app_assoc; cbn [app]; eauto]. }
    destruct Ex as (t & X & -> & Ht). rewrite parse_expr; [|exact Pa|lia|exact Ba|destruct Ht; subst; reflexivity]. intros ? ? [= <- <-]. destruct Ht; subst; discriminate.
Qed.
Lemma chain_call f args kws : chain f -> all_back args -> (forall k, In k kws -> proper (snd k) = true /\ ev (back (snd k))) -> chain (Call f args kws).
Proof.
  intros [c H] Ha Hk. exists (S c).
  eapply ev_mono; [apply ev_and; [apply ev_and; [exact H|apply ev_pred, ev_and; [apply (all_back_ev Ha)|apply (@ev_all _ kws (fun k n => back (snd k) n)); intros k Hin; apply (Hk k Hin)]]|apply (ev_ge (3 + c + length args + length kws))]|].
  intros n [[Hf [Hba Hbk]] N] rest.
  assert (E : toks (Call f args kws) = toks f ++ TL :: commas (map toks args ++ map kw_toks kws) ++ [TR]).
  { unfold toks. cbn [unparse]. rewrite !lexemes_app, comma_toks, map_app, !map_map. cbn [lexemes app]. do 5 f_equal.
    apply map_ext. intros [[y|] e]; reflexivity. }
  rewrite E, <- app_assoc, Hf. destruct (n - c) as [|k] eqn:Ek; [lia|]. cbn [app trailers]. rewrite <- app_assoc. cbn [app].
  rewrite lone_args; [|lia|exact Hba]. rewrite args_back.
  - cbn [obind fst snd]. f_equal. lia.
  - intros e He. apply (Ha e He).
  - intros e r He Hr. destruct (Hba e He). apply parse_expr; auto. lia.
  - intros kk r He Hr. apply parse_expr; auto; [apply (Hk kk He)|lia].
  - lia.
Qed.

Lemma chain_sub a s : chain a -> ev (fun n => forall rest, slice (parse n) (toks s ++ TRB :: rest) = Some (s, TRB :: rest)) -> chain (Subscript a s).
Proof.
  intros [c H] Hs. exists (S c). eapply ev_mono; [apply ev_and; [apply ev_and; [exact H|exact Hs]|apply (ev_ge (S c))]|].
  intros n [[Ha Hb] N] rest. assert (E : toks (Subscript a s) = toks a ++ TLB :: toks s ++ [TRB]) by (unfold toks; cbn [unparse]; rewrite !lexemes_app; reflexivity).
  rewrite E, <- app_assoc, Ha. destruct (n - c) as [|k] eqn:Ek; [lia|]. cbn [app trailers]. rewrite <- app_assoc. cbn [app]. unfold subscript. rewrite Hb. cbn [obind fst snd]. f_equal. lia.
Qed.
Lemma slice_plain s : proper s = true -> ev (back s) -> ev (fun n => forall rest, slice (parse n) (toks s ++ TRB :: rest) = Some (s, TRB :: rest)).
Proof.
  intros Ps Bs. eapply ev_mono; [apply ev_and; [apply ev_pred, Bs|apply (ev_ge 2)]|]. intros n [Hb N] rest. unfold slice.
  change (toks s ++ TRB :: rest) with (opt_toks (Some s) ++ TRB :: rest). rewrite optional_back.
  - reflexivity.
  - intros e [= <-]. split; [exact Ps|]. intros r Hr. apply parse_expr; auto.
  - eexists. eexists. split; [reflexivity|auto].
Qed.
Lemma slice_slice lo up st : (forall e, lo = Some e \/ up = Some e \/ st = Some e -> proper e = true /\ ev (back e)) ->
  ev (fun n => forall rest, slice (parse n) (toks (Slice lo up st) ++ TRB :: rest) = Some (Slice lo up st, TRB :: rest)).
Proof.
  intros H. assert (Ho : forall o, (forall e, o = Some e -> proper e = true /\ ev (back e)) -> ev (fun n => forall rest, (exists t r, rest = t :: r /\ (t = TColon \/ t = TRB)) -> optional (parse n) (opt_toks o ++ rest) = Some (o, rest))).
  { intros o Hoo. destruct o as [e|].
    - destruct (Hoo e eq_refl) as [Pe Be]. eapply ev_mono; [apply ev_and; [apply ev_pred, Be|apply (ev_ge 2)]|]. intros n [Hb N] rest Hr. apply optional_back; [|exact Hr].
      intros e' [= <-]. split; [exact Pe|]. intros r Hr'. apply parse_expr; auto.
    - exists 0. intros n _ rest Hr. apply optional_back; [discriminate|exact Hr]. }
  eapply ev_mono; [apply ev_and; [apply (Ho lo); auto|apply ev_and; [apply (Ho up); auto|apply (Ho st); auto]]|].
  intros n (H1 & H2 & H3) rest.
  assert (E : toks (Slice lo up st) = opt_toks lo ++ TColon :: opt_toks up ++ match st with None => [] | Some e => TColon :: toks e end).
  { unfold toks. cbn [unparse]. rewrite !lexemes_app. destruct lo, up, st; cbn [lexemes app opt_toks]; reflexivity. }
  rewrite E. unfold slice. repeat (rewrite <- app_assoc; cbn [app]). rewrite H1 by (eexists; eexists; split; [reflexivity|auto]). cbn [obind fst snd].
  destruct st as [e|].
  - cbn [app]. rewrite H2 by (eexists; eexists; split; [reflexivity|auto]). cbn [obind fst snd]. change (toks e ++ TRB :: rest) with (opt_toks (Some e) ++ TRB :: rest). rewrite H3 by (eexists; eexists; split; [reflexivity|auto]). reflexivity.
  - cbn [app]. rewrite H2 by (eexists; eexists; split; [reflexivity|auto]). reflexivity.
Qed.

Theorem all_chain m : forall e, size e <= m -> proper e = true -> chain e.
Proof.
  induction m as [|m IH]; intros e Hs Hp; [destruct e; cbn in Hs; lia|].
  assert (G : forall a, size a <= m -> proper a = true -> ev (back a)) by (intros; apply chain_back, IH; assumption).
  assert (GL : forall l, list_sum (map size l) <= m -> forallb proper l = true -> all_back l).
  { intros l Hl Hpl a Ha. rewrite forallb_forall in Hpl. split; [apply Hpl, Ha|]. apply G; [|apply Hpl, Ha]. pose proof (in_sum size l a Ha). lia. }
  assert (GG : forall gs, list_sum (map (fun g => size (fst (fst g)) + size (snd (fst g)) + list_sum (map size (snd g))) gs) <= m ->
     forallb (fun g => is_target (fst (fst g)) && proper (fst (fst g)) && proper (snd (fst g)) && forallb proper (snd g)) gs = true -> gens_good gs).
  { intros gs Hg Hpg g Hin. rewrite forallb_forall in Hpg. specialize (Hpg g Hin). repeat (apply andb_prop in Hpg as [Hpg ?]).
    pose proof (in_sum (fun g => size (fst (fst g)) + size (snd (fst g)) + list_sum (map size (snd g))) gs g Hin) as Hsz. cbn beta in Hsz.
    do 4 (split; [auto; apply G; auto; lia|]). apply GL; auto; lia. }
  destruct e; cbn [size proper] in Hs, Hp.
  - apply atom_chain. exists 0. reflexivity.
  - destruct negative; [discriminate|]. apply atom_chain. exists 0. reflexivity.
  - apply chain_unary; auto. apply G; auto; lia.
  - apply andb_prop in Hp as [P1 P2]. apply chain_bin; auto; apply G; auto; lia.
  - apply andb_prop in Hp as [Hp P3]. apply andb_prop in Hp as [P1 P2]. apply chain_cmp; auto; [apply G; auto; lia|destruct rest; [discriminate|congruence]|].
    rewrite forallb_forall in P3. intros r Hr. split; [apply P3, Hr|]. apply G; [|apply P3, Hr]. pose proof (in_sum (fun r => size (snd r)) rest r Hr). cbn beta in *. lia.
  - apply andb_prop in Hp as [P1 P2]. apply chain_bool; [apply Nat.leb_le, P1|]. apply GL; auto; lia.
  - apply andb_prop in Hp as [Hp P3]. apply andb_prop in Hp as [P1 P2]. apply chain_if; auto; apply G; auto; lia.
  - apply chain_attr. apply IH; auto; lia.
  - apply andb_prop in Hp as [Hp P3]. apply andb_prop in Hp as [P1 P2]. apply chain_call; [apply IH; auto; lia|apply GL; auto; lia|].
    rewrite forallb_forall in P3. intros r Hr. split; [apply P3, Hr|]. apply G; [|apply P3, Hr]. pose proof (in_sum (fun k => size (snd k)) keywords r Hr). cbn beta in *. lia.
  - assert (D : (exists lo up st, e2 = Slice lo up st) \/ (proper e1 && proper e2 = true)) by (destruct e2; eauto). destruct D as [(lo & up & st & ->)|D].
    + apply andb_prop in Hp as [Hp P4]. apply andb_prop in Hp as [Hp P3]. apply andb_prop in Hp as [P1 P2]. cbn [size] in Hs. apply chain_sub; [apply IH; auto; lia|].
      apply slice_slice. intros e [->|[->| ->]]; (split; [assumption|apply G; auto; lia]).
    + apply andb_prop in D as [P1 P2]. apply chain_sub; [apply IH; auto; lia|]. apply slice_plain; auto. apply G; auto; lia.
  - discriminate.
  - apply chain_list. apply GL; auto; lia.
  - apply chain_tuple. apply GL; auto; lia.
  - apply chain_lambda; auto. apply G; auto; lia.
  - apply andb_prop in Hp as [Hp P3]. apply andb_prop in Hp as [P1 P2]. apply chain_listcomp; auto; [apply G; auto; lia|destruct gens; [discriminate|congruence]|apply GG; auto; lia].
  - apply andb_prop in Hp as [Hp P3]. apply andb_prop in Hp as [P1 P2]. apply chain_genexp; auto; [apply G; auto; lia|destruct gens; [discriminate|congruence]|apply GG; auto; lia].
Qed.

Theorem round_trip e : proper e = true -> reads (toks e) e.
Proof.
  intros Hp. destruct (ev_and (ev_pred (chain_back (all_chain e (le_n (size e)) Hp))) (ev_ge 2)) as [N H]. exists N. intros n Hn. destruct (H n Hn) as [B N2].
  rewrite <- (app_nil_r (toks e)). apply parse_expr; auto. exact I.
Qed.
