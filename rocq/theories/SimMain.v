(** Proofs for SimProps.v, continued: the result of a whole simulation step. *)
From Coq Require Import Ascii String Lia.
From Verif Require Import Base BaseFacts Dict PyText Utils ResetSpec Scan ScanSpec ScanProofs TransProofs Step Round Sim SimSpec SimProofs.
Set Implicit Arguments.
Open Scope nat_scope.

Local Arguments look_spec {path cond pvar agents e_cond e_path e_val trs ms} named all_traced {i asr ts} _.
Local Arguments move_of_trans {path cond pvar agents e_cond e_path e_val maph trs ms} named all_traced {i ts} t _ _ _.
Local Arguments trans_of_move {path cond pvar agents e_cond e_path e_val maph trs ms} named all_traced {i ts a d s} _ _.
Local Arguments rows_spec {path cond pvar agents e_cond e_path e_val maph trs ms} named all_traced {m n r} _ _.
Local Arguments schild_spec {path cond agents digits trs} all_traced {nd n comb ch} _ _.

Lemma NoDup_map_finer {A B C} (g : A -> B) (h : A -> C) (l : list A) :
  (forall x y, In x l -> In y l -> h x = h y -> g x = g y) -> NoDup (map g l) -> NoDup (map h l).
Proof.
  induction l as [|x l IH]; intros H N; cbn [map] in *; [constructor|]. inversion N as [|? ? N1 N2]; subst. constructor.
  - intros Hin. apply in_map_iff in Hin as (y & Ey & Hy). apply N1. apply in_map_iff. exists y. split; [|exact Hy].
    apply H; [now right|now left|exact Ey].
  - apply IH; [|exact N2]. intros a b Ha Hb. apply H; now right.
Qed.

Lemma NoDup_flat_map {A B} (f : A -> list B) (l : list A) :
  NoDup l -> (forall x, In x l -> NoDup (f x)) -> (forall x y b, In x l -> In y l -> In b (f x) -> In b (f y) -> x = y) -> NoDup (flat_map f l).
Proof.
  induction l as [|x l IH]; intros N H1 H2; cbn [flat_map]; [constructor|]. inversion N as [|? ? N1 N2]; subst.
  assert (G : NoDup (flat_map f l)) by (apply IH; [exact N2|intros; apply H1; now right|intros a b c Ha Hb; apply H2; now right]).
  assert (Hx : NoDup (f x)) by (apply H1; now left).
  assert (D : forall b, In b (f x) -> ~ In b (flat_map f l)).
  { intros b Hb Hc. apply in_flat_map in Hc as (y & Hy & Hb'). apply N1. now rewrite (H2 x y b (or_introl eq_refl) (or_intror Hy) Hb Hb'). }
  revert Hx D. generalize (f x). intros fx. induction fx as [|b fx IHf]; intros Hx D; cbn [app]; [exact G|].
  inversion Hx as [|? ? M1 M2]; subst. constructor.
  - intros Hin. apply in_app_or in Hin as [Hin|Hin]; [easy|]. apply (D b); [now left|exact Hin].
  - apply IHf; [exact M2|]. intros c Hc. apply D. now right.
Qed.

Lemma Forall_exists_Forall2 {A B} (P : A -> B -> Prop) (l : list A) : (forall x, In x l -> exists y, P x y) -> exists m, Forall2 P l m.
Proof.
  induction l as [|x l IH]; intros H; [exists []; constructor|]. destruct (H x (or_introl eq_refl)) as [y Hy].
  destruct IH as [m Hm]; [intros z Hz; apply H; now right|]. exists (y :: m). now constructor.
Qed.

Section Main.
  Variables path cond : Type.
  Variable pvar : path -> word.
  Variable agents : list (sagent path cond).
  Variable e_cond : list mode -> list vec -> nat -> cond -> option bool.
  Variable e_path : list mode -> list vec -> nat -> path -> option bool.
  Variable e_val : list mode -> list vec -> nat -> path -> option value.
  Variable maph : option word -> option mode -> option mode -> option word.
  Variable trace_of : nat -> mode -> vec -> Q -> option strace.
  Variable digits : nat.
  Hypothesis named : forall a ag, nth_error agents a = Some ag -> NoDup (sa_disc ag) /\ NoDup (sa_cont ag).

  Section Node.
  Variable trs : list strace.
  Variable nd : snode.
  Hypothesis all_traced : length trs = length agents.
  Notation can_move := (can_move pvar agents e_path e_val maph trs (s_mode nd)).
  Notation moves_at := (moves_at pvar agents e_path e_val maph trs (s_mode nd)).
  Notation look := (look pvar agents e_cond e_path e_val trs (s_mode nd)).

  Section Comb.
  Variables (n : nat) (ts : list (strans path)) (d : dict nat (list (strans path))).
  Hypothesis El : look n = Some ([], ts).
  Hypothesis Ek : keep_allowed agents maph (s_mode nd) ts = Some d.

  Lemma comb_agents comb : In comb (product (map snd d)) -> map (@st_agent path) comb = map fst d.
  Proof.
    destruct (keep_spec _ _ _ _ Ek) as (_ & K2 & _). intros H. apply In_product in H. clear Ek.
    revert comb H. induction d as [|[a l] d' IH]; intros comb H; cbn [map snd fst] in *; inversion H as [|t ? c' ? H1 H2]; subst; [reflexivity|].
    cbn [map]. f_equal.
    - destruct (K2 a l (or_introl eq_refl)) as (_ & _ & K). now apply K.
    - apply IH; [|exact H2]. intros a' l' Hin. apply K2. now right.
  Qed.

  Lemma comb_nodup comb : In comb (product (map snd d)) -> NoDup (map (@st_agent path) comb).
  Proof. intros H. rewrite (comb_agents _ H). now destruct (keep_spec _ _ _ _ Ek). Qed.

  Lemma comb_in comb t : In comb (product (map snd d)) -> In t comb -> exists l, In (st_agent t, l) d /\ In t l.
  Proof.
    destruct (keep_spec _ _ _ _ Ek) as (_ & K2 & _). intros H Ht. apply In_product in H.
    destruct (@Forall2_In_l _ _ _ _ _ _ H Ht) as (l & Hl & Htl). apply in_map_iff in Hl as ([a l'] & E & Hin). cbn [snd] in E. subst l'.
    exists l. split; [|exact Htl]. destruct (K2 _ _ Hin) as (_ & _ & K). destruct (K _ Htl) as (_ & E & _). now rewrite E.
  Qed.

  Lemma comb_moves comb : In comb (product (map snd d)) -> moves_at n (mv_of comb).
  Proof.
    destruct (keep_spec _ _ _ _ Ek) as (K1 & K2 & K3).
    intros H a. unfold mv_of. destruct (find (fun t => st_agent t =? a) comb) as [t|] eqn:Ef; cbn [option_map].
    - apply find_some in Ef as [Ht Ea]. apply Nat.eqb_eq in Ea. subst a. destruct (comb_in _ _ H Ht) as (l & Hl & Htl).
      destruct (K2 _ _ Hl) as (_ & _ & K). destruct (K _ Htl) as (G1 & _ & G3).
      exact (move_of_trans named all_traced t El G1 G3).
    - intros d0 s Hm. destruct (trans_of_move named all_traced El Hm) as (t & T1 & T2 & T3 & T4 & T5).
      destruct (K3 t T1 T5) as (l & t' & Hl & _). assert (Ha : In a (map (@st_agent path) comb)).
      { rewrite (comb_agents _ H). apply in_map_iff. exists (st_agent t, l). split; [exact T2|exact Hl]. }
      apply in_map_iff in Ha as (t2 & E2 & Hin). apply (find_none _ _ Ef) in Hin. rewrite E2, Nat.eqb_refl in Hin. discriminate.
  Qed.

  Lemma comb_exists (D : nat -> mode) : (forall a d0 s, can_move n a d0 s -> exists s', can_move n a (D a) s') ->
    exists comb, In comb (product (map snd d)) /\ forall t, In t comb -> st_dest t = D (st_agent t).
  Proof.
    intros HD. destruct (keep_spec _ _ _ _ Ek) as (K1 & K2 & K3).
    assert (Hx : forall al, In al d -> exists t, In t (snd al) /\ st_dest t = D (fst al)).
    { intros [a l] Hin. destruct (K2 _ _ Hin) as (Kn & _ & K). destruct l as [|t0 l]; [easy|].
      destruct (K t0 (or_introl eq_refl)) as (G1 & G2 & G3). pose proof (move_of_trans named all_traced t0 El G1 G3) as Hm. rewrite G2 in Hm.
      destruct (HD _ _ _ Hm) as (s' & Hm'). destruct (trans_of_move named all_traced El Hm') as (t1 & T1 & T2 & T3 & T4 & T5).
      destruct (K3 t1 T1 T5) as (l' & t' & Hl & Ht & Ed). rewrite T2 in Hl. exists t'. cbn [fst snd]. split; [|congruence].
      assert (E : t0 :: l = l'). { clear -K1 Hin Hl. induction d as [|[k v] d' IH]; [easy|]. cbn [map fst] in K1. inversion K1 as [|? ? M1 M2]; subst.
        destruct Hin as [E|Hin], Hl as [E'|Hl].
        - congruence.
        - injection E as <- <-. exfalso. apply M1. apply in_map_iff. exists (k, l'). auto.
        - injection E' as <- <-. exfalso. apply M1. apply in_map_iff. exists (k, t0 :: l). auto.
        - now apply IH. }
      now rewrite E. }
    destruct (Forall_exists_Forall2 _ _ Hx) as (comb & HF). exists comb. assert (Hp : In comb (product (map snd d))).
    { apply In_product. clear -HF. induction HF as [|al t d0 c [H1 H2] HF IH]; cbn [map]; constructor; assumption. }
    split; [exact Hp|]. intros t Ht. destruct (@Forall2_In_r _ _ _ _ _ _ HF Ht) as ([a l] & Hin & H1 & H2). cbn [fst snd] in *.
    destruct (K2 _ _ Hin) as (_ & _ & K). destruct (K _ H1) as (_ & -> & _). exact H2.
  Qed.

  Lemma product_nodup {A B} (f : A -> B) (ls : list (list A)) : (forall l, In l ls -> NoDup (map f l)) -> NoDup (map (map f) (product ls)).
  Proof.
    induction ls as [|l ls IH]; intros H; cbn [product map]; [constructor; [intros []|constructor]|].
    assert (G : NoDup (map (map f) (product ls))) by (apply IH; intros; apply H; now right).
    assert (Hl : NoDup (map f l)) by (apply H; now left).
    assert (E : map (map f) (flat_map (fun x => map (cons x) (product ls)) l) = flat_map (fun b => map (cons b) (map (map f) (product ls))) (map f l)).
    { clear. induction l as [|x l IH]; cbn [flat_map map]; [reflexivity|]. rewrite map_app, IH. f_equal. rewrite !map_map. reflexivity. }
    rewrite E. apply NoDup_flat_map; [exact Hl| |].
    - intros b _. apply FinFun.Injective_map_NoDup; [|exact G]. intros u v [= ->]. reflexivity.
    - intros x y b _ _ Hx Hy. apply in_map_iff in Hx as (u & <- & _). apply in_map_iff in Hy as (v & E' & _). now injection E'.
  Qed.

  Lemma comb_modes comb1 comb2 : In comb1 (product (map snd d)) -> In comb2 (product (map snd d)) ->
    fold_left (fun ms t => set_nth (st_agent t) (st_dest t) ms) comb1 (s_mode nd) = fold_left (fun ms t => set_nth (st_agent t) (st_dest t) ms) comb2 (s_mode nd) ->
    map (@st_dest path) comb1 = map (@st_dest path) comb2.
  Proof.
    intros H1 H2 E. destruct (keep_spec _ _ _ _ Ek) as (K1 & K2 & K3).
    destruct (fold_modes comb1 (s_mode nd) (comb_nodup _ H1)) as [_ F1]. destruct (fold_modes comb2 (s_mode nd) (comb_nodup _ H2)) as [_ F2]. rewrite E in F1.
    assert (Ea : map (@st_agent path) comb1 = map (@st_agent path) comb2) by now rewrite (comb_agents _ H1), (comb_agents _ H2).
    assert (G : forall c t, In c (product (map snd d)) -> In t c -> find (fun t0 => st_agent t0 =? st_agent t) c = Some t).
    { intros c t Hc Ht. pose proof (comb_nodup _ Hc) as N. clear -N Ht. induction c as [|x c IH]; [easy|]. cbn [find map] in *. inversion N as [|? ? N1 N2]; subst.
      destruct (st_agent x =? st_agent t) eqn:Ex.
      - destruct Ht as [->|Ht]; [reflexivity|]. apply Nat.eqb_eq in Ex. exfalso. apply N1. rewrite Ex. now apply in_map.
      - destruct Ht as [->|Ht]; [now rewrite Nat.eqb_refl in Ex|]. now apply IH. }
    assert (Hd : forall t1 t2, In t1 comb1 -> In t2 comb2 -> st_agent t1 = st_agent t2 -> st_dest t1 = st_dest t2).
    { intros t1 t2 I1 I2 E12. pose proof (F1 (st_agent t1)) as A1. pose proof (F2 (st_agent t1)) as A2.
      rewrite (G _ _ H1 I1) in A1. rewrite E12 in A2. rewrite (G _ _ H2 I2), <- E12 in A2. rewrite A1 in A2.
      destruct (comb_in _ _ H1 I1) as (l & L1 & L2). destruct (K2 _ _ L1) as (_ & _ & K). destruct (K _ L2) as (_ & _ & Hall).
      apply allowed_iff in Hall as (ag & m & _ & Em & _). assert (Hlt : st_agent t1 < length (s_mode nd)) by (apply nth_error_Some; congruence).
      apply Nat.ltb_lt in Hlt. rewrite Hlt in A2. now injection A2. }
    clear -Ea Hd. revert comb2 Ea Hd. induction comb1 as [|t1 c1 IH]; intros [|t2 c2] Ea Hd; cbn [map] in *; try discriminate; [reflexivity|].
    injection Ea as E1 E2. f_equal; [apply Hd; [now left|now left|exact E1]|]. apply IH; [exact E2|]. intros u v Hu Hv. apply Hd; now right.
  Qed.

  Lemma children_spec cs : mapM (schild digits nd (map (skipn n) trs)) (product (map snd d)) = Some cs ->
    (forall ch, In ch cs -> exists mv, moves_at n mv /\ child_for trs digits nd n mv ch) /\
    (forall D : nat -> mode, (forall a d0 s, can_move n a d0 s -> exists s', can_move n a (D a) s') ->
       exists ch mv, In ch cs /\ moves_at n mv /\ child_for trs digits nd n mv ch /\ forall a d0 s, mv a = Some (d0, s) -> d0 = D a) /\
    NoDup (map s_mode cs).
  Proof.
    intros E. pose proof E as E'. rewrite mapM_Forall2 in E. split; [|split].
    - intros ch Hch. destruct (@Forall2_In_r _ _ _ _ _ _ E Hch) as (comb & Hc & Es). exists (mv_of comb). split; [now apply comb_moves|].
      apply (schild_spec all_traced); [now apply comb_nodup|exact Es].
    - intros D HD. destruct (comb_exists D HD) as (comb & Hc & Hd). destruct (@Forall2_In_l _ _ _ _ _ _ E Hc) as (ch & Hch & Es).
      exists ch, (mv_of comb). split; [exact Hch|]. split; [now apply comb_moves|]. split; [apply (schild_spec all_traced); [now apply comb_nodup|exact Es]|].
      intros a d0 s Hmv. unfold mv_of in Hmv. destruct (find (fun t => st_agent t =? a) comb) as [t|] eqn:Ef; [|discriminate]. cbn [option_map] in Hmv.
      injection Hmv as <- <-. apply find_some in Ef as [Ht Ea]. apply Nat.eqb_eq in Ea. subst a. now apply Hd.
    - assert (Em : map s_mode cs = map (fun comb => fold_left (fun ms t => set_nth (st_agent t) (st_dest t) ms) comb (s_mode nd)) (product (map snd d))).
      { clear -E. induction E as [|comb ch cl cs0 H1 H2 IH]; cbn [map]; [reflexivity|]. f_equal; [|exact IH]. unfold schild in H1.
        destruct (nth_error (map (skipn n) trs) 0) as [t0|]; [|discriminate]. cbn [obind] in H1. destruct (nth_error t0 0) as [row0|]; [|discriminate]. cbn [obind] in H1.
        destruct (nth_error row0 0) as [time|]; [|discriminate]. cbn [obind] in H1. destruct (mapM _ _) as [inits|]; [|discriminate]. cbn [obind] in H1.
        injection H1 as <-. reflexivity. }
      rewrite Em. apply (NoDup_map_finer (map (@st_dest path))).
      + intros x y Hx Hy. now apply comb_modes.
      + apply product_nodup. intros l Hl. destruct (keep_spec _ _ _ _ Ek) as (K1 & K2 & K3). apply in_map_iff in Hl as ([a l'] & <- & Hin).
        cbn [snd]. now destruct (K2 _ _ Hin) as (_ & K & _).
  Qed.

  Lemma nobody_moves : d = [] <-> forall a d0 s, ~ can_move n a d0 s.
  Proof.
    destruct (keep_spec _ _ _ _ Ek) as (K1 & K2 & K3). split.
    - intros -> a d0 s Hm. destruct (trans_of_move named all_traced El Hm) as (t & T1 & T2 & T3 & T4 & T5). destruct (K3 t T1 T5) as (l & t' & [] & _).
    - intros H. destruct d as [|[a l] d']; [reflexivity|]. exfalso. destruct (K2 a l (or_introl eq_refl)) as (Kn & _ & K). destruct l as [|t l]; [easy|].
      destruct (K t (or_introl eq_refl)) as (G1 & G2 & G3). exact (H _ _ _ (move_of_trans named all_traced t El G1 G3)).
  Qed.
  End Comb.
  End Node.

  Lemma sfill_spec nd remain trs : sfill agents trace_of nd remain = Some trs -> full_traces agents trace_of nd remain trs.
  Proof.
    intros E. unfold sfill in E. split; [rewrite (mapM_length _ _ E); apply seq_length|]. rewrite mapM_Forall2 in E.
    intros a La. assert (Ea : nth_error (seq 0 (length agents)) a = Some a) by (rewrite (nth_error_nth' _ 0) by (rewrite seq_length; exact La); now rewrite seq_nth).
    destruct (@Forall2_nth_l _ _ _ _ _ a _ E Ea) as (tr & Etr & H). destruct (nth_error (s_trace nd) a) as [[t|]|]; [| |discriminate]; cbn [obind] in H.
    - left. injection H as <-. eauto.
    - right. destruct (nth_error (s_mode nd) a) as [m|]; [|discriminate]. cbn [obind] in H. destruct (nth_error (s_init nd) a) as [i|]; [|discriminate]. cbn [obind] in H.
      destruct (trace_of a m i remain) as [t|] eqn:Et; [|discriminate]. cbn [obind] in H. injection H as <-. exists m, i, t. auto.
  Qed.

  (** The result of a step, by what happens first. *)
  Theorem simulate_one_spec unsafe nd remain r :
    simulate_one pvar agents e_cond e_path e_val maph trace_of digits unsafe nd remain = Some r ->
    exists trs tr0, full_traces agents trace_of nd remain trs /\ nth_error trs 0 = Some tr0 /\
    let ms := s_mode nd in
    let quiet := quiet agents e_cond e_path trs ms in
    let fails := fails agents e_cond trs ms in
    let can_move := can_move pvar agents e_path e_val maph trs ms in
    (** nothing happens *)
    (quiet (length tr0) /\ r = mk_sresult [] trs None) \/
    (** the first event is at row [n] *)
    exists n, n < length tr0 /\ quiet n /\
      ((exists a x, looked_at agents a /\ fails n a x) /\
       (exists asr, reports agents e_cond trs ms n asr /\ r = mk_sresult [] (if unsafe then trs else map (firstn n) trs) (Some asr)) \/
       (forall a x, looked_at agents a -> ~ fails n a x) /\ (exists a p, enabled agents e_path trs ms n a p) /\
       ((forall a d s, ~ can_move n a d s) /\ r = mk_sresult [] trs None \/
        (exists a d s, can_move n a d s) /\ sr_trace r = map (firstn (n + 1)) trs /\ sr_asserts r = None /\
        (forall ch, In ch (sr_child r) -> exists mv, moves_at pvar agents e_path e_val maph trs ms n mv /\ child_for trs digits nd n mv ch) /\
        (forall D : nat -> mode, (forall a d s, can_move n a d s -> exists s', can_move n a (D a) s') ->
           exists ch mv, In ch (sr_child r) /\ moves_at pvar agents e_path e_val maph trs ms n mv /\ child_for trs digits nd n mv ch /\
             forall a d s, mv a = Some (d, s) -> d = D a) /\
        NoDup (map s_mode (sr_child r)))).
  Proof.
    intros E. unfold simulate_one in E. destruct (sfill agents trace_of nd remain) as [trs|] eqn:Ef; [|discriminate]. cbn [obind] in E.
    pose proof (sfill_spec _ _ Ef) as Hfull. assert (Lt : length trs = length agents) by apply Hfull.
    unfold get_transition_simulate in E. destruct (nth_error trs 0) as [tr0|] eqn:E0; [|discriminate]. cbn [obind] in E.
    exists trs, tr0. split; [exact Hfull|]. split; [exact E0|]. cbv zeta.
    destruct (rows _ _ _ _ _ _ _ _ _) as [out|] eqn:Er; [|discriminate]. cbn [obind] in E.
    assert (Hq0 : quiet agents e_cond e_path trs (s_mode nd) 0) by (intros i Hi; lia).
    destruct (rows_spec named Lt Hq0 Er) as [(asr & ts & i & -> & Hi & Hq & El & Hne)|[(ts & d & i & -> & Hi & Hq & El & Hne & Ek)|(i & -> & Hq)]].
    - right. exists i. split; [lia|]. split; [exact Hq|]. left. injection E as <-. destruct (look_spec named Lt El) as (L1 & L2 & _).
      split.
      + destruct asr as [|[a ls] asr]; [easy|]. destruct (L1 a ls (or_introl eq_refl)) as (Hl & Hls & Hx). destruct ls as [|l ls]; [easy|].
        destruct (proj1 (Hx l) (or_introl eq_refl)) as (x & Hf & _). exists a, x. auto.
      + exists asr. split; [split; [exact L1|exact L2]|reflexivity].
    - right. exists i. split; [lia|]. split; [exact Hq|]. right. destruct (look_spec named Lt El) as (L1 & L2 & L3 & L4 & L5).
      split; [intros a x Hl Hx; destruct (L2 a x Hl Hx) as (ls & [])|]. split.
      + destruct ts as [|t ts]; [easy|]. destruct (L3 t (or_introl eq_refl)) as (_ & ag & js & m & s & c & _ & _ & _ & _ & (P1 & _ & P3 & _) & _).
        destruct c as [|p c]; [easy|]. exists (st_agent t), p. apply P3. now left.
      + destruct d as [|al d'] eqn:Ed.
        * left. split; [now apply (@nobody_moves trs nd Lt _ _ _ El Ek)|]. now injection E as <-.
        * right. rewrite <- Ed in Ek. cbv beta iota in E. rewrite <- Ed in E.
          destruct (mapM _ _) as [cs|] eqn:Ec; [|discriminate]. cbn [obind] in E. injection E as <-. cbn [sr_trace sr_asserts sr_child].
          destruct (@children_spec trs nd Lt _ _ _ El Ek _ Ec) as (C1 & C2 & C3).
          split.
          { rewrite Ed in Ek. destruct (keep_spec _ _ _ _ Ek) as (K1 & K2 & K3). destruct al as [a l]. destruct (K2 a l (or_introl eq_refl)) as (Kn & _ & K).
            destruct l as [|t l]; [easy|]. destruct (K t (or_introl eq_refl)) as (G1 & _ & G3). exists (st_agent t), (st_dest t), (st_init t).
            exact (move_of_trans named Lt t El G1 G3). }
          auto.
    - left. injection E as <-. auto.
  Qed.
End Main.
