From Coq Require Import Ascii String Qabs DecimalString DecimalNat.
From Verif Require Import Base BaseFacts Dict PyText ResetProofs Guard GuardProofs Tree DumpProofs StarDiam StarDiamSpec StarDiamProofs Spread SpreadSpec SpreadProofs.
From Coq Require Import Lqa Lia.
Set Implicit Arguments.
Open Scope nat_scope.

(** * One diameter *)
Lemma fold_plus (l : list Q) : forall a, (fold_left Qplus l a == a + fold_left Qplus l 0)%Q.
Proof. induction l as [|x l IH]; intros a; cbn; [lra|]. rewrite (IH (a + x)%Q), (IH (0 + x)%Q). lra. Qed.
Lemma manhattan_l1 a : forall b, (manhattan a b == l1 a b)%Q.
Proof. unfold manhattan. induction a as [|x a IH]; intros [|y b]; cbn [zipw fold_left l1]; try reflexivity. rewrite fold_plus, IH. lra. Qed.

Section Columns.
  Variables (f : Q -> Q -> Q) (le : Q -> Q -> Prop).
  Hypothesis le_refl : forall a, le a a.
  Hypothesis le_trans : forall a b c, le a b -> le b c -> le a c.
  Hypothesis f_l : forall a b, le (f a b) a.
  Hypothesis f_r : forall a b, le (f a b) b.
  Hypothesis f_or : forall a b, f a b = a \/ f a b = b.
  Lemma zipw_nth a : forall b j, length a = length b -> j < length a -> nth j (zipw f a b) 0%Q = f (nth j a 0%Q) (nth j b 0%Q).
  Proof. induction a as [|x a IH]; intros [|y b] [|j] L H; cbn in *; try lia; [reflexivity|]. apply IH; lia. Qed.
  Lemma columns_spec m rest : forall first, length first = m -> Forall (fun s => length s = m) rest ->
    length (columns f first rest) = m /\
    forall j, j < m -> (exists x, In x (first :: rest) /\ nth j (columns f first rest) 0%Q = nth j x 0%Q) /\
      forall x, In x (first :: rest) -> le (nth j (columns f first rest) 0%Q) (nth j x 0%Q).
  Proof.
    unfold columns. induction rest as [|r rest IH]; intros first L F; cbn [fold_left].
    - split; [exact L|]. intros j Hj. split; [exists first; cbn; auto|]. intros x [<-|[]]. apply le_refl.
    - inversion F as [|? ? Lr Fr]; subst. destruct (IH (zipw f first r)) as [L' N]; [rewrite zipw_length; lia|exact Fr|]. split; [exact L'|]. intros j Hj. destruct (N j Hj) as [[x [Hx Ex]] B].
      assert (Z := @zipw_nth first r j (eq_sym Lr) Hj). split.
      + destruct Hx as [<-|Hx]; [|exists x; cbn; auto]. rewrite Ex, Z. destruct (f_or (nth j first 0%Q) (nth j r 0%Q)) as [-> | ->]; [exists first|exists r]; cbn; auto.
      + intros y Hy. assert (B0 := B _ (or_introl eq_refl)). rewrite Z in B0. destruct Hy as [<-|[<-|Hy]]; [eapply le_trans; eauto|eapply le_trans; eauto|apply B; right; exact Hy].
  Qed.
End Columns.
Lemma Qmin_or a b : Qmin a b = a \/ Qmin a b = b. Proof. unfold Qmin, GenericMinMax.gmin. destruct (a ?= b)%Q; auto. Qed.
Lemma Qmax_or a b : Qmax a b = a \/ Qmax a b = b. Proof. unfold Qmax, GenericMinMax.gmax. destruct (a ?= b)%Q; auto. Qed.

Lemma max_len (l : list vec) : forall m0, let m := fold_left (fun m s => Nat.max m (length s)) l m0 in
  (forall s, In s l -> length s <= m) /\ m0 <= m /\ (m = m0 \/ exists s, In s l /\ length s = m).
Proof.
  induction l as [|s l IH]; intros m0; cbn [fold_left]; [repeat split; [intros s []|lia|auto]|]. destruct (IH (Nat.max m0 (length s))) as (A & B & D). cbn zeta in *.
  split; [intros x [<-|Hx]; [lia|apply A, Hx]|]. split; [lia|]. destruct D as [D|[x [Hx D]]]; [|right; exists x; cbn; auto].
  destruct (Nat.max_spec m0 (length s)) as [[K E]|[K E]]; rewrite E in D at 2; [right; exists s; cbn; auto|auto].
Qed.
Lemma time_diameter_spec states : states <> [] -> exists d, time_diameter states = Some [d] /\ spread (fun x => In x states) d.
Proof.
  intros N. unfold time_diameter. destruct states as [|s0 states']; [congruence|]. set (states := s0 :: states') in *. clear N.
  destruct (max_len states 0) as (A & B & D). cbn zeta in *. set (m := fold_left _ states 0) in *.
  assert (E : exists s, In s states /\ length s = m).
  { destruct D as [D|D]; [|exact D]. exists s0. split; [left; reflexivity|]. assert (K := A s0 (or_introl eq_refl)). lia. }
  destruct (filter (fun s => length s =? m) states) as [|f rest] eqn:F.
  - destruct E as [s [Hs Ls]]. exfalso. assert (K : In s (filter (fun s => length s =? m) states)) by (apply filter_In; split; [exact Hs|apply Nat.eqb_eq, Ls]). rewrite F in K. destruct K.
  - eexists. split; [reflexivity|]. assert (M : forall x, In x (f :: rest) <-> In x states /\ length x = m) by (intros x; rewrite <- F, filter_In, Nat.eqb_eq; reflexivity).
    assert (Lf : length f = m) by (apply M; left; reflexivity). assert (Fr : Forall (fun s => length s = m) rest) by (apply Forall_forall; intros x Hx; apply M; right; exact Hx).
    destruct (@columns_spec Qmin Qle Qle_refl Qle_trans Q.le_min_l Q.le_min_r Qmin_or m rest f Lf Fr) as [L1 N1].
    destruct (@columns_spec Qmax (fun a b => b <= a)%Q Qle_refl (fun a b c H1 H2 => Qle_trans _ _ _ H2 H1) Q.le_max_l Q.le_max_r Qmax_or m rest f Lf Fr) as [L2 N2].
    exists m, (columns Qmin f rest), (columns Qmax f rest). split; [exact L1|]. split; [exact L2|]. split; [exact E|]. split; [exact A|]. split; [|apply manhattan_l1].
    intros j Hj. destruct (N1 j Hj) as [[x [Hx Ex]] B1]. destruct (N2 j Hj) as [[y [Hy Ey]] B2]. split; [|split].
    + apply M in Hx. exists x. split; [tauto|]. split; [tauto|]. rewrite Ex. reflexivity.
    + apply M in Hy. exists y. split; [tauto|]. split; [tauto|]. rewrite Ey. reflexivity.
    + intros z Hz Lz. assert (K : In z (f :: rest)) by (apply M; auto). split; [apply B1, K|apply B2, K].
Qed.
Lemma spread_iff (P P' : vec -> Prop) d : (forall x, P x <-> P' x) -> spread P d -> spread P' d.
Proof.
  intros E (m & lo & hi & L1 & L2 & [x [Hx Lx]] & B & N & K). exists m, lo, hi. split; [exact L1|]. split; [exact L2|]. split; [exists x; split; [apply E, Hx|exact Lx]|].
  split; [intros y Hy; apply B, E, Hy|]. split; [|exact K]. intros j Hj. destruct (N j Hj) as ([y [Hy Ly]] & [z [Hz Lz]] & A). split; [|split].
  - exists y. split; [apply E, Hy|exact Ly].
  - exists z. split; [apply E, Hz|exact Lz].
  - intros u Hu. apply A, E, Hu.
Qed.
Lemma l1_mono lo hi : forall x y, length lo = length hi -> length x = length lo -> length y = length lo ->
  (forall j, j < length lo -> (nth j lo 0 <= nth j x 0 <= nth j hi 0)%Q /\ (nth j lo 0 <= nth j y 0 <= nth j hi 0)%Q) -> (l1 x y <= l1 lo hi)%Q.
Proof.
  revert hi. induction lo as [|a lo IH]; intros [|b hi] [|u x] [|v y] L1 L2 L3 H; cbn [l1 length] in *; try discriminate.
  assert (H0 := H 0 ltac:(lia)). cbn [nth] in H0. assert (HI : (l1 x y <= l1 lo hi)%Q) by (apply IH; try lia; intros j Hj; exact (H (S j) ltac:(lia))).
  assert (K : (Qabs (u - v) <= Qabs (a - b))%Q); [|lra]. rewrite (Qabs_neg (a - b)) by lra. apply Qabs_case; lra.
Qed.
Lemma spread_pairs P d x y : spread P d -> P x -> P y -> (forall z, P z -> length z <= length x) -> length y = length x -> (l1 x y <= d)%Q.
Proof.
  intros (m & lo & hi & L1 & L2 & [z [Hz Lz]] & B & N & K) Hx Hy M L. assert (Lx : length x = m) by (specialize (M z Hz); specialize (B x Hx); lia). rewrite K.
  apply l1_mono; try lia. intros j Hj. destruct (N j ltac:(lia)) as (_ & _ & A). split; apply A; auto; lia.
Qed.

Lemma mapM_In_inv {A B} (f : A -> option B) l r : mapM f l = Some r -> (forall a, In a l -> exists b, f a = Some b /\ In b r) /\ forall b, In b r -> exists a, In a l /\ f a = Some b.
Proof.
  revert r. induction l as [|a l IH]; intros r H; cbn in H; [injection H as <-; split; intros ? []|]. destruct (f a) as [b|] eqn:E; [|discriminate]. destruct (mapM f l) as [r'|] eqn:E2; [|discriminate]. injection H as <-.
  destruct (IH r' eq_refl) as [P Q]. split.
  - intros x [<-|Hx]; [exists b; cbn; auto|]. destruct (P x Hx) as [y [Hy1 Hy2]]. exists y. cbn. auto.
  - intros y [<-|Hy]; [exists a; cbn; auto|]. destruct (Q y Hy) as [x [Hx1 Hx2]]. exists x. cbn. auto.
Qed.

Section Hash.
  Variable hash : word -> Z.
  Lemma diameters_some sims : Forall all_ok sims -> exists ds, sim_traces_to_diameters hash sims = Some ds.
  Proof.
    intros F. destruct (@sim_loop_some hash sims [] F) as [d E]. unfold sim_traces_to_diameters. change (sim_traces_to_dict_composed hash sims = Some d) in E. rewrite E. cbn [obind].
    destruct (dict_spec _ _ E) as [W _].
    assert (S : exists ds, mapM time_diameter (flat_map (fun km => map snd (snd km)) d) = Some ds).
    { assert (N : forall l, In l (flat_map (fun km => map snd (snd km)) d) -> l <> []).
      { intros l Hl. apply in_flat_map in Hl. destruct Hl as [[k m] [Hm Hl]]. apply in_map_iff in Hl. destruct Hl as [[t l'] [<- Hl]]. exact (proj2 (proj2 W _ _ Hm) _ _ Hl). }
      revert N. generalize (flat_map (fun km : Z * dict Q (list vec) => map snd (snd km)) d). clear. intros ls N. induction ls as [|l ls IH]; [eexists; reflexivity|]. cbn [mapM].
      destruct (@time_diameter_spec l) as [x [-> _]]; [apply N; left; reflexivity|]. destruct IH as [ds ->]; [intros l' H; apply N; right; exact H|]. eexists. reflexivity. }
    destruct S as [ds ->]. eexists. reflexivity.
  Qed.
  Lemma look_iff d k tau l : wf d -> (l <> [] /\ look d k tau = l) <-> exists m t, In (k, m) d /\ In (t, l) m /\ (t == tau)%Q.
  Proof.
    intros W. unfold look. split.
    - intros [N E]. destruct (dget Z.eqb k d) as [m|] eqn:G; [|congruence]. destruct (dget Qeq_bool tau m) as [l'|] eqn:H; [|congruence]. subst l'.
      destruct (get_in _ _ _ G) as [k' [Hk Ek]]. apply Z.eqb_eq in Ek. subst k'. destruct (get_in _ _ _ H) as [t [Ht Et]]. exists m, t. split; [exact Hk|]. split; [exact Ht|]. apply Qeq_bool_iff in Et. lra.
    - intros (m & t & Hm & Ht & E). destruct (proj2 W _ _ Hm) as [D N]. split; [exact (N _ _ Ht)|]. rewrite (in_get Z.eqb Z.eqb_refl Z.eqb_sym _ _ _ (proj1 W) Hm).
      apply Qeq_bool_iff in E. rewrite qeqb_sym in E. rewrite (get_eq m _ _ E), (in_get Qeq_bool qeqb_refl qeqb_sym _ _ _ D Ht). reflexivity.
  Qed.
  Lemma diameters_spec sims ds : sim_traces_to_diameters hash sims = Some ds ->
    (forall x, In x ds -> exists k tau, (exists y, key_class hash sims k tau y) /\ spread (key_class hash sims k tau) x) /\
    (forall k tau y, key_class hash sims k tau y -> exists x, In x ds /\ spread (key_class hash sims k tau) x).
  Proof.
    intros H. unfold sim_traces_to_diameters in H. destruct (sim_traces_to_dict_composed hash sims) as [d|] eqn:E; cbn [obind] in H; [|discriminate].
    destruct (mapM time_diameter _) as [dss|] eqn:M in H; cbn [obind] in H; [|discriminate]. injection H as <-. destruct (dict_spec _ _ E) as [W L]. destruct (mapM_In_inv _ _ M) as [A B]. split.
    - intros x Hx. apply in_concat in Hx. destruct Hx as [xs [Hxs Hx]]. destruct (B _ Hxs) as [l [Hl El]]. apply in_flat_map in Hl. destruct Hl as [[k m] [Hm Hl]]. apply in_map_iff in Hl. destruct Hl as [[t l'] [K Hl]]. cbn in K. subst l'.
      destruct (proj2 (@look_iff d k t l W)) as [N Lk]; [exists m, t; split; [exact Hm|split; [exact Hl|reflexivity]]|]. destruct (time_diameter_spec N) as [z [Ez Sz]]. rewrite Ez in El. injection El as <-. destruct Hx as [<-|[]].
      assert (I : forall y, In y l <-> key_class hash sims k t y) by (intros y; rewrite <- L, Lk; reflexivity).
      exists k, t. split; [destruct l as [|y l]; [congruence|]; exists y; apply I; left; reflexivity|]. exact (spread_iff _ I Sz).
    - intros k tau y Hy. assert (Hy' := proj2 (L k tau y) Hy). destruct (look d k tau) as [|l0 l'] eqn:Lk; [destruct Hy'|]. set (l := l0 :: l') in *.
      assert (N : l <> []) by discriminate. destruct (proj1 (@look_iff d k tau l W) (conj N Lk)) as (m & t & Hm & Ht & Et).
      destruct (A l) as [xs [Ex Hxs]]; [apply in_flat_map; exists (k, m); split; [exact Hm|]; apply in_map_iff; exists (t, l); auto|]. destruct (time_diameter_spec N) as [z [Ez Sz]]. rewrite Ez in Ex. injection Ex as <-.
      exists z. split; [apply in_concat; exists [z]; cbn; auto|]. apply (@spread_iff (fun x => In x l)); [|exact Sz]. intros u. rewrite <- L, Lk. reflexivity.
  Qed.

  (** * Keys *)
  Hypothesis inj : forall a b, hash a = hash b -> a = b.
  Notation num := (w "0123456789-").
  Lemma dec_chars n : Forall (fun c => In c num) (dec n).
  Proof. unfold dec. induction (Nat.to_uint n); cbn [NilEmpty.string_of_uint w String.list_ascii_of_string]; [constructor|constructor; [cbn; auto 20|assumption]..]. Qed.
  Lemma dec_nonempty n : dec n <> [].
  Proof. unfold dec. destruct (Nat.to_uint n) eqn:E; cbn; try discriminate. exfalso. assert (K := DecimalNat.Unsigned.of_to n). rewrite E in K. cbn in K. subst n. discriminate. Qed.
  Lemma decz_chars z : Forall (fun c => In c num) (decz z) .
  Proof. destruct z; cbn [decz]; try apply dec_chars. constructor; [cbn; auto 20|apply dec_chars]. Qed.
  Lemma split_num a : forall b c c', Forall (fun c => In c num) a -> Forall (fun c => In c num) b -> plain c -> plain c' -> a ++ c = b ++ c' -> a = b /\ c = c'.
  Proof.
    induction a as [|x a IH]; intros [|y b] c c' Fa Fb P P' E; cbn in E.
    - auto.
    - subst c. inversion Fb; subst. destruct P. assumption.
    - subst c'. inversion Fa; subst. destruct P'. assumption.
    - injection E as <- E. inversion Fa; inversion Fb; subst. destruct (IH b c c') as [-> ->]; auto.
  Qed.
  Lemma str_split o o' c c' : plain c -> plain c' -> str_hist o ++ c = str_hist o' ++ c' -> (o = None <-> o' = None) -> o = o' /\ c = c'.
  Proof.
    intros P P' E N. destruct o as [z|], o' as [z'|].
    - cbn [str_hist] in E. apply split_num in E; auto using decz_chars. destruct E as [E ->]. apply decz_inj in E. subst. auto.
    - destruct N as [_ N]. discriminate N. reflexivity.
    - destruct N as [N _]. discriminate N. reflexivity.
    - split; [reflexivity|]. apply app_inv_head in E. exact E.
  Qed.
  Lemma str_none z c c' : plain c -> str_hist (Some z) ++ c <> str_hist None ++ c'.
  Proof.
    intros P E. cbn [str_hist] in E. assert (F := decz_chars z). destruct (decz z) as [|a l] eqn:D.
    - assert (K : decz z <> []) by (destruct z; cbn [decz]; try discriminate; apply dec_nonempty). congruence.
    - cbn in E. injection E as -> _. inversion F as [|? ? H _]. cbn in H. repeat (destruct H as [H|H]; [discriminate|]). exact H.
  Qed.
  Lemma keys_none h : keys hash h = None <-> h = [].
  Proof. split; [|intros ->; reflexivity]. destruct h using rev_ind; [reflexivity|]. rewrite keys_app. discriminate. Qed.
  Lemma keys_inj h : forall h', Forall (fun ms => plain (written ms)) h -> Forall (fun ms => plain (written ms)) h' ->
    keys hash h = keys hash h' -> map written h = map written h'.
  Proof.
    induction h as [|ms h IH] using rev_ind; intros h' F F' E.
    - symmetry in E. cbn in E. apply keys_none in E. subst. reflexivity.
    - destruct h' as [|ms' h' _] using rev_ind; [rewrite keys_app in E; discriminate|]. rewrite !keys_app in E. injection E as E. apply inj in E.
      apply Forall_app in F. destruct F as [F Fm]. apply Forall_app in F'. destruct F' as [F' Fm']. inversion Fm; inversion Fm'; subst.
      destruct (keys hash h) as [z|] eqn:K, (keys hash h') as [z'|] eqn:K'.
      + apply str_split in E; auto; [|split; discriminate]. destruct E as [E1 E2]. rewrite !map_app. cbn. rewrite E2, (IH h' F F'); [reflexivity|]. congruence.
      + apply str_none in E; [destruct E|assumption].
      + symmetry in E. apply str_none in E; [destruct E|assumption].
      + apply keys_none in K. apply keys_none in K'. subst. apply str_split in E; auto; [|tauto]. destruct E as [_ E]. cbn. rewrite E. reflexivity.
  Qed.
  Lemma keys_written h h' : map written h = map written h' -> keys hash h = keys hash h'.
  Proof.
    unfold keys. generalize (@None Z). revert h'. induction h as [|a h IH]; intros [|b h'] o E; try discriminate; [reflexivity|]. cbn in E. injection E as E1 E2. cbn [fold_left]. rewrite E1. apply IH, E2.
  Qed.
End Hash.
