(** C109: printing expressions. *)
From Coq Require Import Ascii String.
From Verif Require Import Base PyText Unparse UnparseSpec UnparseProofs UnparseRound UnparseMain.
Set Implicit Arguments.
Open Scope nat_scope.

(** An expression that Python's parser can have built is printed as a text that Python reads as the same expression. *)
Theorem C109_read_back e : proper e = true -> reads_text (unparse e) e.
Proof. intros H. split; [apply text_lexes, H|apply round_trip, H]. Qed.

(** In particular what was read from some text; subscripts with several slices are missing, see below. *)
Theorem C109_round_trip_partial ts e : reads ts e -> no_multi e = true -> reads_text (unparse e) e.
Proof. intros H M. apply C109_read_back. apply (reads_proper H M). Qed.

(** Python reads a text in at most one way, so that two expressions with the same text are the same. *)
Lemma reads_one ts e e' : reads ts e -> reads ts e' -> e = e'.
Proof. intros [m H] [m' H']. specialize (H (m + m') ltac:(lia)). specialize (H' (m + m') ltac:(lia)). congruence. Qed.
Theorem C109_injective e e' : proper e = true -> proper e' = true -> lexemes (unparse e) = lexemes (unparse e') -> e = e'.
Proof. intros H H' E. apply (reads_one (ts := lexemes (unparse e))); [apply C109_read_back, H|]. rewrite E. apply C109_read_back, H'. Qed.

(** Verse also builds conjunctions of a single condition: they are read as that condition. *)
Theorem C109_single_value o v : proper v = true -> reads (lexemes (unparse (BoolOp o [v]))) v.
Proof.
  intros Pv. destruct (ev_and (ev_pred (ev_pred (chain_back (all_chain v (le_n (size v)) Pv)))) (ev_ge 4)) as [N H]. exists N. intros n Hn. destruct (H n Hn) as [B N4].
  destruct n as [|n]; [lia|]. cbn [parse]. replace (S n - 1 - 1) with (n - 1) in B by lia.
  assert (E : lexemes (unparse (BoolOp o [v])) = TL :: toks v ++ [TR]) by (cbn [unparse map interleave]; rewrite !lexemes_app; reflexivity).
  rewrite E. apply factor_all; [lia| |exact I|exact I|exact I]. destruct n as [|n]; [lia|]. cbn [factor].
  assert (A : atom (S n) (parse (S n)) (TL :: toks v ++ [TR]) = Some (v, [])).
  { cbn [atom]. rewrite <- (app_nil_r ([TR])). apply (@bracket_many (S n) is_R TR (fun e => e) Tuple GeneratorExp [v] [] closes_R); [|cbn; lia]. intros e [<-|[]]. auto. }
  unfold primary. rewrite A. reflexivity.
Qed.

(** x[1:2, 3] is printed as x[(1:2, 3)], which is not Python. *)
Module Multi.
  Definition one := TConst KInt (w "1").
  Definition two := TConst KInt (w "2").
  Definition three := TConst KInt (w "3").
  Definition text : list tok := [TName (w "x"); TLB; one; TColon; two; TComma; three; TRB].
  Definition tree : pexpr :=
    Subscript (Name (w "x")) (Tuple [Slice (Some (Const false KInt (w "1"))) (Some (Const false KInt (w "2"))) None; Const false KInt (w "3")]).
End Multi.
Theorem C109_multi_slice_refuted : exists ts e, reads ts e /\ forall e', ~ reads (lexemes (unparse e)) e'.
Proof.
  exists Multi.text, Multi.tree. split.
  - exists 10. intros n Hn. replace n with (10 + (n - 10)) by lia. generalize (n - 10). intros k. vm_compute. reflexivity.
  - intros e' [m H]. specialize (H (10 + m) ltac:(lia)). revert H. vm_compute. discriminate.
Qed.

(** A negative constant, which Python's parser does not build, is printed without parentheses: (-1)**2 becomes -(1**2).  [value] is the value of an
    expression of integers, given those of the numbers. *)
Fixpoint value (num : word -> Z) (e : pexpr) : option Z :=
  match e with
  | Const neg KInt t => Some (if neg then - num t else num t)%Z
  | UnaryOp USub a => do x <- value num a; Some (- x)%Z
  | BinOp Pow a b => do x <- value num a; do y <- value num b; Some (x ^ y)%Z
  | _ => None
  end.
Theorem C109_negative_refuted : exists e e', reads_text (unparse e) e' /\
  forall num, num (w "1") = 1%Z -> num (w "2") = 2%Z -> value num e = Some 1%Z /\ value num e' = Some (-1)%Z.
Proof.
  exists (BinOp Pow (Const true KInt (w "1")) (Const false KInt (w "2"))), (UnaryOp USub (BinOp Pow (Const false KInt (w "1")) (Const false KInt (w "2")))). split.
  - split; [reflexivity|]. exists 10. intros n Hn. replace n with (10 + (n - 10)) by lia. generalize (n - 10). intros k. vm_compute. reflexivity.
  - intros num H1 H2. cbn [value obind]. rewrite H1, H2. auto.
Qed.

(** A guard: [(ego.x - 3) ** 2 < r[0] and not any(o.mode is not M.A for o in others if o != ego)], with all the parentheses that [unparse] writes. *)
Module Example_guard.
  Definition ego_x : pexpr := Attribute (Name (w "ego")) (w "x").
  Definition near : pexpr := Compare (BinOp Pow (BinOp Sub ego_x (Const false KInt (w "3"))) (Const false KInt (w "2"))) [(Rel Lt, Subscript (Name (w "r")) (Const false KInt (w "0")))].
  Definition others : pexpr := Call (Name (w "any"))
    [GeneratorExp (Compare (Attribute (Name (w "o")) (w "mode")) [(IsNot, Attribute (Name (w "M")) (w "A"))]) [(Name (w "o"), Name (w "others"), [Compare (Name (w "o")) [(Rel NotEq, Name (w "ego"))]])]] [].
  Definition guard : pexpr := BoolOp And [near; UnaryOp Not others].
  Example ex_C109 : proper guard = true /\ reads_text (unparse guard) guard /\ 40 < length (unparse guard).
  Proof. split; [reflexivity|]. split; [apply C109_read_back; reflexivity|apply Nat.ltb_lt; vm_compute; reflexivity]. Qed.
  (** What a user writes, with fewer parentheses, is the same expression. *)
  Definition written : list tok :=
    let n s := TName (w s) in
    [TL; n "ego"%string; TDot; n "x"%string; TBin Sub; TConst KInt (w "3"); TR; TBin Pow; TConst KInt (w "2"); TRel Lt; n "r"%string; TLB; TConst KInt (w "0"); TRB; TKw KAnd;
     TKw KNot; n "any"%string; TL; n "o"%string; TDot; n "mode"%string; TKw KIs; TKw KNot; n "M"%string; TDot; n "A"%string; TKw KFor; n "o"%string; TKw KIn; n "others"%string; TKw KIf; n "o"%string; TRel NotEq; n "ego"%string; TR].
  Example ex_written : reads written guard.
  Proof. exists 20. intros n Hn. replace n with (20 + (n - 20)) by lia. generalize (n - 20). intros k. vm_compute. reflexivity. Qed.
  (** A slice with a step, a lambda, keywords, a tuple of one element, an attribute of a number. *)
  Definition odd : pexpr := Call (Lambda [w "a"; w "b"] (Tuple [Attribute (Const false KInt (w "1")) (w "real")]))
    [Subscript (Name (w "l")) (Slice None (Some (UnaryOp USub (Const false KInt (w "1")))) (Some (Const false KInt (w "2"))))] [(Some (w "k"), List []); (None, Name (w "d"))].
  Example ex_odd : proper odd = true /\ reads_text (unparse odd) odd. Proof. split; [reflexivity|apply C109_read_back; reflexivity]. Qed.
  Example ex_round : no_multi guard = true /\ reads (lexemes (unparse guard)) guard.
  Proof. split; [reflexivity|]. apply (C109_round_trip_partial ex_written eq_refl). Qed.
End Example_guard.
