(** Proofs about a verification step. *)
From Coq Require Import Ascii String.
From Verif Require Import Base BaseFacts Dict PyText Boxes BoxesSpec BoxesProofs OverlaySpec Overlay Scan ScanSpec ScanProofs TransProofs ScanMain Round Step StepSpec.
From Coq Require Import Permutation Sorted.
Set Implicit Arguments.
Open Scope nat_scope.

Section Proofs.
  Variables path cond : Type.
  Variable pvar : path -> word.
  Variable agents : list (dlogic path cond).
  Variable tube_of : nat -> mode -> list box -> Q -> option tube.
  Variable g_disc : list mode -> list box -> nat -> path -> bool.
  Variable g_hyb : list mode -> list box -> nat -> path -> bool.
  Variable g_cont : list mode -> list box -> nat -> path -> bool * bool.
  Variable g_certain : list mode -> list box -> nat -> cond -> bool.
  Variable g_reset : list mode -> list box -> nat -> list path -> option (list mode * box).
  Variable maph : option word -> option mode -> option mode -> option word.
  Variable digits : nat.

  Notation fill := (fill agents tube_of).
  Notation search := (search pvar agents g_disc g_hyb g_cont g_certain g_reset maph).
  Notation step := (step pvar agents tube_of g_disc g_hyb g_cont g_certain g_reset maph digits).
  Notation child_of := (@child_of path digits).

  Lemma fold_min_le {A} (ls : list (list A)) : forall m, fold_left (fun m x => Nat.min m (length x)) ls m <= m /\
    forall x, In x ls -> fold_left (fun m x => Nat.min m (length x)) ls m <= length x.
  Proof.
    induction ls as [|l ls IH]; intros m; simpl; [split; [lia|intros ? []]|].
    destruct (IH (Nat.min m (length l))) as [H1 H2]. split; [lia|]. intros x [<-|Hx]; [lia|auto].
  Qed.

  Lemma min_len_le {A} (ls : list (list A)) l x : min_len ls = Some l -> In x ls -> l <= length x.
  Proof.
    unfold min_len. destruct ls as [|y ls]; [discriminate|]. intros [= <-]. destruct (fold_min_le ls (length y)) as [H1 H2].
    intros [<-|Hx]; auto.
  Qed.

  Lemma fill_length nd r trs : fill nd r = Some trs -> length trs = length agents.
  Proof. unfold Step.fill. intros H. apply mapM_length in H. rewrite seq_length in H. exact H. Qed.

  Lemma firstn_skipn_two {A} (l : list A) i : 2 * i + 1 < length l ->
    exists a b, firstn 2 (skipn (2 * i) l) = [a; b] /\ nth_error l (2 * i) = Some a /\ nth_error l (2 * i + 1) = Some b.
  Proof.
    intros H. pose proof (nth_error_skipn l (2 * i) 0) as N0. pose proof (nth_error_skipn l (2 * i) 1) as N1.
    rewrite Nat.add_0_r in N0. destruct (nth_error l (2 * i)) as [a|] eqn:E0; [|apply nth_error_None in E0; lia].
    destruct (nth_error l (2 * i + 1)) as [b|] eqn:E1; [|apply nth_error_None in E1; lia].
    exists a, b. destruct (skipn (2 * i) l) as [|x [|y m]]; simpl in N0, N1; try discriminate. injection N0 as ->. injection N1 as ->. auto.
  Qed.

  Lemma combine_rect_two lo hi d : length lo = d -> length hi = d -> combine_rect [lo; hi] = Some (lo, hi).
  Proof.
    intros H1 H2. unfold combine_rect. rewrite (@same_len_ok _ d); [reflexivity|]. intros r [<-|[<-|[]]]; assumption.
  Qed.

  Lemma box_at_covers trs i bs s : rectangular trs -> (forall tr, In tr trs -> 2 * i + 1 < length tr) -> box_at trs i = Some bs ->
    (state_at trs i s <-> in_joint bs s).
  Proof.
    unfold box_at. intros HR HL H. apply mapM_Forall2 in H. revert s HR HL. induction H as [|tr b trs bs H HF IH]; intros s HR HL.
    - split; intros X; inversion X; constructor.
    - destruct (firstn_skipn_two tr i) as (lo & hi & E & E1 & E2); [apply HL; simpl; auto|]. rewrite E in H.
      destruct (HR tr) as (d & Hd); [simpl; auto|].
      rewrite (@combine_rect_two lo hi (S d)) in H; [|apply Hd; eapply nth_error_In; eauto|apply Hd; eapply nth_error_In; eauto].
      cbn [obind fst snd] in H. injection H as <-.
      split; intros X; inversion X as [|? x ? s' X1 X2]; subst; constructor.
      + destruct X1 as (lo' & hi' & F1 & F2 & HB). rewrite E1 in F1. rewrite E2 in F2. injection F1 as <-. injection F2 as <-. exact HB.
      + apply (proj1 (IH s' (fun t Ht => HR t (or_intror Ht)) (fun t Ht => HL t (or_intror Ht)))). exact X2.
      + exists lo, hi. auto.
      + apply (proj2 (IH s' (fun t Ht => HR t (or_intror Ht)) (fun t Ht => HL t (or_intror Ht)))). exact X2.
  Qed.

  Lemma box_at_some trs i : rectangular trs -> (forall tr, In tr trs -> 2 * i + 1 < length tr) -> exists bs, box_at trs i = Some bs.
  Proof.
    unfold box_at. induction trs as [|tr trs IH]; intros HR HL; [eexists; reflexivity|].
    destruct (firstn_skipn_two tr i) as (lo & hi & E & E1 & E2); [apply HL; simpl; auto|].
    destruct (HR tr) as (d & Hd); [simpl; auto|].
    destruct IH as (bs & Eb); [intros t Ht; apply HR; simpl; auto|intros t Ht; apply HL; simpl; auto|].
    eexists. cbn [mapM]. rewrite E, (@combine_rect_two lo hi (S d)); [|apply Hd; eapply nth_error_In; eauto|apply Hd; eapply nth_error_In; eauto].
    cbn [obind]. rewrite Eb. reflexivity.
  Qed.

  (** The joint boxes of the search, and the search in terms of them. *)
  Definition boxes_of (trs : list tube) (l : nat) (bs : list (list box)) : Prop := mapM (box_at trs) (seq 0 (l / 2)) = Some bs.

  Lemma boxes_of_nth trs l bs i : boxes_of trs l bs -> i < l / 2 -> box_at trs i = Some (nth i bs []).
  Proof.
    unfold boxes_of. intros H Hi. pose proof (mapM_length _ _ H) as HL. rewrite seq_length in HL.
    apply mapM_Forall2 in H. destruct (Forall2_nth_l i H (a := i)) as (b & E & F).
    - rewrite nth_error_nth' with (d := 0) by (rewrite seq_length; exact Hi). rewrite seq_nth by exact Hi. reflexivity.
    - rewrite F. f_equal. symmetry. apply nth_error_nth. exact E.
  Qed.

  Lemma min_len_some {A} (ls : list (list A)) : ls <> [] -> exists l, min_len ls = Some l.
  Proof. destruct ls; [congruence|]. intros _. eexists. reflexivity. Qed.

  Lemma boxes_of_some trs l : rectangular trs -> min_len trs = Some l -> exists bs, boxes_of trs l bs.
  Proof.
    intros HR Hl. unfold boxes_of.
    assert (H : forall i, In i (seq 0 (l / 2)) -> exists b, box_at trs i = Some b).
    { intros i Hi. apply in_seq in Hi. apply box_at_some; [exact HR|]. intros tr Ht. pose proof (min_len_le _ _ Hl Ht).
      pose proof (Nat.mul_div_le l 2). lia. }
    induction (seq 0 (l / 2)) as [|i is IH]; [eexists; reflexivity|]. destruct (H i) as (b & Eb); [simpl; auto|].
    destruct IH as (bs & Ebs); [intros; apply H; simpl; auto|]. exists (b :: bs). cbn [mapM]. rewrite Eb. cbn [obind]. rewrite Ebs. reflexivity.
  Qed.

  (** The search is the scan of Scan.v with the oracles read off the joint boxes. *)
  Definition gd (modes : list mode) (bs : list (list box)) := g_disc modes (nth 0 bs []).
  Definition gh (modes : list mode) (bs : list (list box)) := fun (a : nat) (p : path) (i : nat) => g_hyb modes (nth i bs []) a p.
  Definition gc (modes : list mode) (bs : list (list box)) := fun (a : nat) (p : path) (i : nat) => g_cont modes (nth i bs []) a p.
  Definition ge (modes : list mode) (bs : list (list box)) := fun (a : nat) (c : cond) (i : nat) => g_certain modes (nth i bs []) a c.
  Definition gr (modes : list mode) (bs : list (list box)) := fun (a i : nat) (ps : list path) => g_reset modes (nth i bs []) a ps.

  Lemma search_eq trs modes l bs : min_len trs = Some l -> boxes_of trs l bs ->
    search trs modes = get_transitions pvar agents (gd modes bs) (gh modes bs) (gc modes bs) (ge modes bs) (gr modes bs) maph modes None (l / 2).
  Proof. intros H1 H2. unfold Step.search. rewrite H1. cbn [obind]. unfold boxes_of in H2. rewrite H2. reflexivity. Qed.

  Lemma search_inv trs modes res : search trs modes = Some res -> exists l bs, min_len trs = Some l /\ boxes_of trs l bs /\
    get_transitions pvar agents (gd modes bs) (gh modes bs) (gc modes bs) (ge modes bs) (gr modes bs) maph modes None (l / 2) = Some res.
  Proof.
    unfold Step.search. destruct (min_len trs) as [l|] eqn:El; [|discriminate]. cbn [obind].
    destruct (mapM (box_at trs) (seq 0 (l / 2))) as [bs|] eqn:Eb; [|discriminate]. cbn [obind]. intros H.
    exists l, bs. auto.
  Qed.

  (** Facts about the transitions a search returns. *)
  Lemma search_shape trs modes ts : search trs modes = Some (inr ts) -> forall t, In t ts ->
    t_agent t < length agents /\ (exists d, t_dest t = Some d) /\ t_idx t <> [] /\ length (t_inits t) = length (t_idx t) /\
    StronglySorted le (t_idx t) /\ forall i tr, In i (t_idx t) -> In tr trs -> 2 * i + 1 < length tr.
  Proof.
    intros H t Ht. destruct (search_inv _ _ H) as (l & bs & El & Eb & EG).
    destruct (gt_transitions _ _ _ _ _ _ _ _ _ _ EG) as (n & g & Hn & Hv & He & Hc & HT).
    edestruct transitions_shape as (_ & HL & Hne & HS); [exact Hc|exact HT|exact Ht|].
    assert (HE : forall k i, nth_error (t_idx t) k = Some i -> i < n /\ t_agent t < length agents /\ exists d, t_dest t = Some d).
    { intros k i Hi. destruct (nth_error (t_inits t) k) as [r|] eqn:Er.
      2: { apply nth_error_None in Er. assert (k < length (t_idx t)) by (apply nth_error_Some; congruence). lia. }
      edestruct transitions_sound as (A & c & d & Ed & (_ & _ & ds & lg & _ & _ & El' & _)); [exact Hc|exact HT|exact Ht|exists k; eauto|].
      split; [exact A|]. split; [apply nth_error_Some; congruence|eauto]. }
    destruct (t_idx t) as [|i0 idx] eqn:Ei; [congruence|]. destruct (HE 0 i0 eq_refl) as (_ & A & B).
    split; [exact A|]. split; [exact B|]. split; [discriminate|]. split; [exact HL|]. split; [exact HS|].
    intros i tr Hi Htr. apply In_nth_error in Hi. destruct Hi as (k & Hk). destruct (HE k i Hk) as (C & _).
    pose proof (min_len_le _ _ El Htr). pose proof (Nat.mul_div_le l 2). lia.
  Qed.

  (** ** Children *)
  Lemma nth_error_combine {A B} (l : list A) (m : list B) k a b : nth_error l k = Some a -> nth_error m k = Some b ->
    nth_error (combine l m) k = Some (a, b).
  Proof. revert m k; induction l as [|x l IH]; intros [|y m] [|k]; simpl; try discriminate; [intros [= <-] [= <-]; reflexivity|apply IH]. Qed.

  Lemma nth_error_seq s n k : k < n -> nth_error (seq s n) k = Some (s + k).
  Proof. intros H. rewrite nth_error_nth' with (d := 0) by (rewrite seq_length; exact H). rewrite seq_nth by exact H. reflexivity. Qed.

  Lemma set_nth_same {A} (l : list A) i v : i < length l -> nth_error (set_nth i v l) i = Some v.
  Proof. revert i; induction l as [|a l IH]; intros [|i] H; simpl in *; try lia; [reflexivity|apply IH; lia]. Qed.
  Lemma set_nth_other {A} (l : list A) i j v : j <> i -> nth_error (set_nth i v l) j = nth_error l j.
  Proof. revert i j; induction l as [|a l IH]; intros [|i] [|j] H; simpl; try reflexivity; try congruence. apply IH. congruence. Qed.
  Lemma set_nth_len {A} (l : list A) i v : length (set_nth i v l) = length l.
  Proof. revert i; induction l as [|a l IH]; intros [|i]; simpl; auto. Qed.

  Lemma mapM_seq_nth {B} (f : nat -> option B) n r k : mapM f (seq 0 n) = Some r -> k < n -> exists b, nth_error r k = Some b /\ f k = Some b.
  Proof.
    intros H Hk. apply mapM_Forall2 in H. destruct (Forall2_nth_l k H (a := k)) as (b & E & F); [apply nth_error_seq; exact Hk|eauto].
  Qed.

  Lemma child_spec nd trs t i0 : length (n_mode nd) = length trs -> t_agent t < length trs ->
    (exists d, t_dest t = Some d) -> nth_error (t_idx t) 0 = Some i0 -> rectangular trs ->
    (forall tr, In tr trs -> 2 * i0 + 1 < length tr) ->
    exists c, child_of nd trs t = Some (Some c) /\ is_child digits nd trs t c.
  Proof.
    intros Hm Ha (d & Ed) Ei HR HL.
    set (cut := map (skipn (i0 * 2)) trs).
    assert (Hcut : forall a tr, nth_error trs a = Some tr -> nth_error cut a = Some (skipn (2 * i0) tr)).
    { intros a tr E. unfold cut. rewrite nth_error_map, E. simpl. f_equal. f_equal. lia. }
    assert (Hrow : forall a, a < length trs -> exists tr lo hi x lo', nth_error trs a = Some tr /\ nth_error tr (2 * i0) = Some lo /\ nth_error tr (2 * i0 + 1) = Some hi /\ lo = x :: lo').
    { intros a H. destruct (nth_error trs a) as [tr|] eqn:E; [|apply nth_error_None in E; lia].
      pose proof (nth_error_In _ _ E) as Hin. specialize (HL tr Hin).
      destruct (nth_error tr (2 * i0)) as [lo|] eqn:E1; [|apply nth_error_None in E1; lia].
      destruct (nth_error tr (2 * i0 + 1)) as [hi|] eqn:E2; [|apply nth_error_None in E2; lia].
      destruct (HR tr Hin) as (dd & Hd). pose proof (Hd lo (nth_error_In _ _ E1)) as Hlen. destruct lo as [|x lo']; [discriminate|].
      exists tr, (x :: lo'), hi, x, lo'. auto. }
    set (f := fun a : nat => if a =? t_agent t then Some (t_inits t)
        else do c <- nth_error cut a; do lo <- nth_error c 0; do hi <- nth_error c 1; Some [(tl lo, tl hi)]).
    assert (Hf : exists inits, mapM f (seq 0 (length trs)) = Some inits).
    { assert (H : forall a, In a (seq 0 (length trs)) -> exists b, f a = Some b).
      { intros a H. apply in_seq in H. unfold f. destruct (a =? t_agent t); [eauto|].
        destruct (Hrow a) as (tr & lo & hi & x & lo' & E & E1 & E2 & _); [lia|]. rewrite (Hcut _ _ E). cbn [obind].
        rewrite !nth_error_skipn, Nat.add_0_r, E1, E2. cbn [obind]. eauto. }
      induction (seq 0 (length trs)) as [|a l IH]; [eexists; reflexivity|]. destruct (H a) as (b & Eb); [simpl; auto|].
      destruct IH as (bs & Ebs); [intros; apply H; simpl; auto|]. exists (b :: bs). cbn [mapM]. rewrite Eb. cbn [obind]. rewrite Ebs. reflexivity. }
    destruct Hf as (inits & Ef).
    destruct (Hrow 0) as (tr0 & lo0 & hi0 & time & lo0' & E0 & E01 & _ & ->); [lia|].
    unfold Step.child_of. rewrite Ei. cbn [obind]. rewrite Ed. fold cut. rewrite (Hcut _ _ E0). cbn [obind].
    rewrite nth_error_skipn, Nat.add_0_r, E01. cbn [obind]. change (nth_error (time :: lo0') 0) with (Some time). cbn [obind]. fold f. rewrite Ef. cbn [obind].
    eexists. split; [reflexivity|].
    exists d, i0. split; [exact Ed|]. split; [exact Ei|]. cbn [n_start n_height n_mode n_trace n_init].
    split; [exists tr0, (time :: lo0'), time; auto|]. split; [reflexivity|].
    split; [apply set_nth_same; lia|]. split; [intros a Hne; apply set_nth_other; exact Hne|].
    assert (Lc : length cut = length trs) by apply map_length.
    split; [rewrite map_length, combine_length, seq_length, Lc; lia|].
    split; [apply mapM_length in Ef; rewrite seq_length in Ef; exact Ef|]. split; [apply set_nth_len|].
    assert (HT : forall a tr, nth_error trs a = Some tr -> nth_error (map (fun p : nat * list vec => if fst p =? t_agent t then None else Some (snd p)) (combine (seq 0 (length trs)) cut)) a
                 = Some (if a =? t_agent t then None else Some (skipn (2 * i0) tr))).
    { intros a tr E. assert (a < length trs) by (apply nth_error_Some; congruence).
      rewrite nth_error_map, (nth_error_combine _ _ _ (nth_error_seq 0 H) (Hcut _ _ E)). reflexivity. }
    split.
    { destruct (Hrow (t_agent t) Ha) as (tr & _ & _ & _ & _ & E & _). rewrite (HT _ _ E), Nat.eqb_refl. reflexivity. }
    split.
    { destruct (mapM_seq_nth _ Ef Ha) as (b & E & F). unfold f in F. rewrite Nat.eqb_refl in F. congruence. }
    intros a tr Hne E. assert (Hlt : a < length trs) by (apply nth_error_Some; congruence).
    destruct (Hrow a Hlt) as (tr' & lo & hi & x & lo' & E' & E1 & E2 & Hlo). rewrite E in E'. injection E' as <-.
    exists (skipn (2 * i0) tr), lo, hi. rewrite (HT _ _ E). destruct (Nat.eqb_spec a (t_agent t)) as [|_]; [congruence|].
    split; [reflexivity|]. split; [intros k; apply nth_error_skipn|]. split; [exact E1|]. split; [exact E2|].
    destruct (mapM_seq_nth _ Ef Hlt) as (b & Eb & F). unfold f in F. destruct (Nat.eqb_spec a (t_agent t)) as [|_]; [congruence|].
    rewrite (Hcut _ _ E) in F. cbn [obind] in F. rewrite !nth_error_skipn, Nat.add_0_r, E1, E2 in F. cbn [obind] in F. congruence.
  Qed.

  Lemma children_spec nd trs modes ts : length (n_mode nd) = length trs -> length trs = length agents -> rectangular trs ->
    search trs modes = Some (inr ts) ->
    exists cs, mapM (child_of nd trs) ts = Some (map Some cs) /\ Forall2 (is_child digits nd trs) ts cs.
  Proof.
    intros Hm Ha HR HS. pose proof (search_shape _ _ HS) as H. clear HS. induction ts as [|t ts IH].
    - exists []. split; [reflexivity|constructor].
    - destruct IH as (cs & E & F); [intros; apply H; simpl; auto|].
      destruct (H t) as (A & B & C & _ & _ & D); [simpl; auto|].
      destruct (t_idx t) as [|i0 idx] eqn:Ei; [congruence|].
      destruct (@child_spec nd trs t i0) as (c & Ec & Hc); [exact Hm|lia|exact B|rewrite Ei; reflexivity|exact HR|intros tr Htr; apply D; simpl; auto|].
      exists (c :: cs). split; [cbn [mapM]; rewrite Ec; cbn [obind]; rewrite E; reflexivity|]. constructor; assumption.
  Qed.

  Lemma somes_map {A} (l : list A) : somes (map Some l) = l.
  Proof. induction l; simpl; congruence. Qed.

  (** ** Where the trace is cut *)
  Lemma sorted_last l d : StronglySorted le l -> forall x, In x l -> x <= last l d.
  Proof.
    induction l as [|a l IH]; intros HS x Hx; [destruct Hx|]. inversion HS as [|? ? H1 H2]; subst.
    destruct l as [|b l]; [destruct Hx as [<-|[]]; simpl; lia|]. change (last (a :: b :: l) d) with (last (b :: l) d).
    destruct Hx as [<-|Hx]; [|apply IH; assumption]. rewrite Forall_forall in H2. specialize (H2 b (or_introl eq_refl)).
    specialize (IH H1 b (or_introl eq_refl)). lia.
  Qed.
  Lemma last_In {A} (l : list A) d : l <> [] -> In (last l d) l.
  Proof. induction l as [|a [|b l] IH]; intros H; [congruence|simpl; auto|]. right. apply IH. discriminate. Qed.

  Lemma max_end_spec (ts : list (transition path box)) : (forall t, In t ts -> t_idx t <> [] /\ StronglySorted le (t_idx t)) ->
    (forall t i, In t ts -> In i (t_idx t) -> i <= max_end ts) /\ (ts <> [] -> exists t, In t ts /\ In (max_end ts) (t_idx t)).
  Proof.
    unfold max_end. set (f := fun (m : nat) (t : transition path box) => let e := last (t_idx t) 0 in if m <? e then e else m).
    assert (G : forall ts m, (forall t, In t ts -> t_idx t <> [] /\ StronglySorted le (t_idx t)) ->
      m <= fold_left f ts m /\ (forall t i, In t ts -> In i (t_idx t) -> i <= fold_left f ts m) /\
      (fold_left f ts m = m \/ exists t, In t ts /\ In (fold_left f ts m) (t_idx t))).
    { clear ts. induction ts as [|t ts IH]; intros m H; [simpl; split; [lia|]; split; [intros ? ? []|auto]|].
      cbn [fold_left]. destruct (IH (f m t)) as (A & B & C); [intros; apply H; simpl; auto|].
      destruct (H t) as [Hne HS]; [simpl; auto|].
      assert (Hf : m <= f m t /\ last (t_idx t) 0 <= f m t /\ (f m t = m \/ f m t = last (t_idx t) 0)).
      { unfold f. destruct (Nat.ltb_spec m (last (t_idx t) 0)); lia. }
      split; [lia|]. split.
      - intros t' i [<-|Ht] Hi; [pose proof (sorted_last 0 HS _ Hi); lia|apply (B t'); assumption].
      - destruct C as [C|(t' & Ht & Hi)]; [|right; exists t'; simpl; auto].
        destruct Hf as (_ & _ & [Hf|Hf]); [left; congruence|]. right. exists t. split; [simpl; auto|]. rewrite C, Hf. apply last_In. exact Hne. }
    intros H. destruct (G ts 0 H) as (A & B & C). split; [exact B|]. intros Hne.
    destruct C as [C|C]; [|exact C]. destruct ts as [|t ts]; [congruence|]. exists t. split; [simpl; auto|].
    destruct (H t) as [Hn HS]; [simpl; auto|]. destruct (t_idx t) as [|i idx] eqn:Ei; [congruence|].
    assert (i <= fold_left f (t :: ts) 0) by (apply (B t); [simpl; auto|rewrite Ei; simpl; auto]).
    rewrite C in *. assert (i = 0) by lia. subst. simpl. auto.
  Qed.

  Lemma cut_prefix {A} n (trs : list (list A)) : (forall tr, In tr trs -> n <= length tr) -> Forall2 (prefix_of n) trs (map (firstn n) trs).
  Proof.
    induction trs as [|tr trs IH]; intros H; simpl; constructor.
    - split; [rewrite firstn_length; specialize (H tr (or_introl eq_refl)); lia|]. intros k Hk. apply nth_error_firstn. exact Hk.
    - apply IH. intros; apply H; simpl; auto.
  Qed.
End Proofs.
