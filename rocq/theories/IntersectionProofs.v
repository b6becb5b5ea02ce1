(** Lemmas for crossings: names. *)
From Coq Require Import Ascii String Reals Lra Psatz DecimalString DecimalNat DecimalFacts.
From Verif Require Import Base BaseFacts PyText Dict ScanProofs LaneMap3d LaneMap3dProofs Angle AngleSpec AngleProofs Lane LaneSpec LaneProofs Intersection IntersectionSpec.
Set Implicit Arguments.
Open Scope nat_scope.

Definition digits (s : word) : Prop := Forall (fun c => is_digit c = true) s.
Definition letters (s : word) : Prop := Forall (fun c => is_digit c = false) s.

Lemma to_uint_not_nil n : Nat.to_uint n <> Decimal.Nil.
Proof. intros E. pose proof (Unsigned.of_to n) as H. rewrite E in H. cbn in H. subst n. cbn in E. discriminate. Qed.
Lemma int_str i : int (str i) = Some i.
Proof.
  unfold int, str, w. rewrite String.string_of_list_ascii_of_string, NilZero.usu by apply to_uint_not_nil. cbn [option_map]. f_equal. apply Unsigned.of_to.
Qed.
Lemma str_inj i j : str i = str j -> i = j.
Proof. intros H. apply (f_equal int) in H. rewrite !int_str in H. congruence. Qed.
Lemma digits_empty d : digits (w (NilEmpty.string_of_uint d)).
Proof. induction d; cbn; constructor; auto. Qed.
Lemma str_digits i : digits (str i).
Proof. unfold str. destruct (Nat.to_uint i) eqn:E; [exfalso; exact (@to_uint_not_nil i E)|..]; apply digits_empty || (unfold NilZero.string_of_uint; apply digits_empty). Qed.
Lemma str_nonempty i : str i <> [].
Proof. intros E. pose proof (int_str i) as H. rewrite E in H. discriminate. Qed.

Lemma split_digits p q p' q' : letters p -> letters p' -> digits q -> digits q' -> q <> [] -> q' <> [] -> p ++ q = p' ++ q' -> p = p' /\ q = q'.
Proof.
  intros Lp. revert p'. induction Lp as [|c p Hc Lp IH]; intros p' Lp' Dq Dq' N N' E.
  - destruct Lp' as [|c' p' Hc' Lp']; [auto|]. destruct q; [congruence|]. cbn in E. injection E as -> E. inversion Dq. congruence.
  - destruct Lp' as [|c' p' Hc' Lp'].
    + destruct q'; [congruence|]. cbn in E. injection E as -> E. inversion Dq'. congruence.
    + cbn in E. injection E as -> E. destruct (IH p' Lp' Dq Dq' N N' E) as [-> ->]. auto.
Qed.
Lemma name_inj p p' i i' : letters p -> letters p' -> p ++ str i = p' ++ str i' -> p = p' /\ i = i'.
Proof.
  intros L L' E. destruct (split_digits L L' (str_digits i) (str_digits i') (@str_nonempty i) (@str_nonempty i') E) as [-> E']. split; [reflexivity|]. apply str_inj. exact E'.
Qed.

(** ** Splitting at underscores *)
Definition no_us (s : word) : Prop := Forall (fun c => Ascii.eqb c "_" = false) s.
Lemma digits_no_us s : digits s -> no_us s.
Proof. intros H. unfold no_us. eapply Forall_impl; [|exact H]. intros c Hc. apply digit_not_us. exact Hc. Qed.
Lemma split_none s : no_us s -> split "_" s = [s].
Proof. induction 1 as [|c s Hc Hs IH]; [reflexivity|]. cbn [split]. rewrite Hc, IH. reflexivity. Qed.
Lemma split_app s t : no_us s -> split "_" (s ++ w "_" ++ t) = s :: split "_" t.
Proof. induction 1 as [|c s Hc Hs IH]; [reflexivity|]. cbn [app split]. rewrite Hc. cbn [app] in IH. rewrite IH. reflexivity. Qed.
Lemma split_max_app n s t : no_us s -> split_max "_" (S n) (s ++ w "_" ++ t) = s :: split_max "_" n t.
Proof. induction 1 as [|c s Hc Hs IH]; [reflexivity|]. cbn [app split_max]. rewrite Hc. cbn [app] in IH. rewrite IH. reflexivity. Qed.
Lemma split_max_0 s : split_max "_" 0 s = [s].
Proof. destruct s; reflexivity. Qed.

Lemma prefix_iff p s : prefix_of p s = true <-> exists r, s = p ++ r.
Proof.
  revert s. induction p as [|a p IH]; intros s; cbn [prefix_of].
  - split; [intros _; exists s; reflexivity|reflexivity].
  - destruct s as [|b s]; [split; [discriminate|intros (r & E); discriminate]|]. rewrite andb_true_iff, Ascii.eqb_eq, IH. split.
    + intros [-> (r & ->)]. exists r. reflexivity.
    + intros (r & E). cbn in E. injection E as -> ->. split; [reflexivity|exists r; reflexivity].
Qed.
Lemma occurs_iff p s : occurs p s = true <-> exists a b, s = a ++ p ++ b.
Proof.
  induction s as [|c s IH].
  - cbn [occurs]. rewrite orb_true_iff, prefix_iff. split.
    + intros [(r & E)|E]; [exists [], r; exact E|discriminate].
    + intros (a & b & E). left. destruct a; [exists b; exact E|discriminate].
  - cbn [occurs]. rewrite orb_true_iff, prefix_iff, IH. split.
    + intros [(r & E)|(a & b & E)]; [exists [], r; exact E|exists (c :: a), b; cbn; congruence].
    + intros (a & b & E). destruct a as [|a0 a]; [left; exists b; exact E|]. right. cbn in E. injection E as -> E. exists a, b. exact E.
Qed.
Lemma switching_iff m : prefix_of (w "Switch") m = true <-> switching m.
Proof. apply prefix_iff. Qed.
Lemma mentions_iff x m : occurs x m = true <-> mentions x m.
Proof. apply occurs_iff. Qed.

(** ** The names of lanes *)
Lemma route_no_us a b : no_us (letter a ++ letter b).
Proof. destruct a, b; repeat constructor. Qed.
Lemma lane_split a b i : split "_" (lane_name a b i) = [letter a ++ letter b; str i].
Proof. unfold lane_name. rewrite app_assoc. rewrite split_app by apply route_no_us. rewrite split_none by (apply digits_no_us, str_digits). reflexivity. Qed.
Lemma change_split a b i j : split_max "_" 2 (change_name a b i j) = [letter a ++ letter b; str i; str j].
Proof.
  unfold change_name, lane_name. rewrite <- !app_assoc. rewrite app_assoc. rewrite split_max_app by apply route_no_us.
  rewrite split_max_app by (apply digits_no_us, str_digits). rewrite split_max_0. reflexivity.
Qed.
Lemma letter_inj a b : letter a = letter b -> a = b.
Proof. destruct a, b; intros E; try reflexivity; discriminate. Qed.
Lemma lane_name_inj a b i a' b' i' : lane_name a b i = lane_name a' b' i' -> a = a' /\ b = b' /\ i = i'.
Proof.
  unfold lane_name. rewrite !app_assoc. intros E.
  assert (L : forall x y, letters ((letter x ++ letter y) ++ w "_")) by (intros x y; destruct x, y; repeat constructor).
  destruct (@name_inj _ _ _ _ (L a b) (L a' b') E) as [E1 E2]. split; [|split; [|exact E2]]; destruct a, a', b, b'; try reflexivity; discriminate.
Qed.

Lemma h_start lanes a b i mode dest : ~ switching mode ->
  h lanes (lane_name a b i) mode dest =
  if prefix_of (w "Switch") dest then
    if occurs (w "Left") dest && (0 <? i) then Some (Some (change_name a b i (i - 1)))
    else if occurs (w "Right") dest && (i <? lanes - 1) then Some (Some (change_name a b i (i + 1))) else Some None
  else Some (Some (lane_name a b i)).
Proof.
  intros N. unfold h. destruct (prefix_of (w "Switch") mode) eqn:E; [exfalso; apply N; apply switching_iff; exact E|].
  destruct (prefix_of (w "Switch") dest); [|reflexivity]. rewrite lane_split, int_str. cbn [obind]. unfold change_name, lane_name. rewrite <- !app_assoc. reflexivity.
Qed.
Lemma h_finish lanes a b i j mode dest : switching mode ->
  h lanes (change_name a b i j) mode dest = if prefix_of (w "Switch") dest then Some None else Some (Some (lane_name a b j)).
Proof.
  intros N. unfold h. apply switching_iff in N. rewrite N. destruct (prefix_of (w "Switch") dest); [reflexivity|].
  rewrite change_split, int_str. cbn [obind]. unfold lane_name. rewrite <- app_assoc. reflexivity.
Qed.

(** ** Physical lanes *)
Lemma virt_not a b s : virt_lane (letter a ++ letter b ++ w "_" ++ s) = false.
Proof. destruct a, b; reflexivity. Qed.
Lemma upper_route a b : Forall (fun c => is_upper c = true) (letter a ++ letter b).
Proof. destruct a, b; repeat constructor. Qed.
Lemma route_nonempty a b : letter a ++ letter b <> [].
Proof. destruct a, b; discriminate. Qed.
Lemma phys_lane a b i : get_phys_lane (lane_name a b i) = lane_name a b i.
Proof.
  unfold get_phys_lane, lane_name. rewrite virt_not.
  assert (E : intersect_virt_lane (letter a ++ letter b ++ w "_" ++ str i) = false).
  { unfold intersect_virt_lane. rewrite app_assoc, plus_all by (apply route_nonempty || apply upper_route || reflexivity).
    cbn [obind]. change (lit "_" (w "_" ++ str i)) with (Some (str i)). cbn [obind].
    rewrite <- (app_nil_r (str i)), plus_all by (apply str_nonempty || apply str_digits || exact I). reflexivity. }
  rewrite E. reflexivity.
Qed.
Lemma phys_change a b i j : get_phys_lane (change_name a b i j) = lane_name a b i.
Proof.
  unfold get_phys_lane, change_name, lane_name. rewrite <- !app_assoc, virt_not.
  assert (E : intersect_virt_lane (letter a ++ letter b ++ w "_" ++ str i ++ w "_" ++ str j) = true).
  { unfold intersect_virt_lane. rewrite app_assoc, plus_all by (apply route_nonempty || apply upper_route || reflexivity).
    cbn [obind]. change (lit "_" (w "_" ++ str i ++ w "_" ++ str j)) with (Some (str i ++ w "_" ++ str j)). cbn [obind].
    rewrite plus_all by (apply str_nonempty || apply str_digits || reflexivity). cbn [obind].
    change (lit "_" (w "_" ++ str j)) with (Some (str j)). cbn [obind].
    rewrite <- (app_nil_r (str j)), plus_all by (apply str_nonempty || apply str_digits || exact I). reflexivity. }
  rewrite E. unfold rsplit_head.
  replace (letter a ++ letter b ++ w "_" ++ str i ++ w "_" ++ str j) with ((letter a ++ letter b ++ w "_" ++ str i) ++ "_"%char :: str j) by (rewrite <- !app_assoc; reflexivity).
  rewrite before_last_split by apply str_digits. reflexivity.
Qed.

(** ** Histories *)
Section History.
  Variables (lanes : nat).
  (** Where a car can be: on a lane in a mode that does not switch, or between two lanes in one that does. *)
  Definition on_road (a b : arm) (st : word * word) : Prop :=
    ~ switching (fst st) /\ (exists i, i < lanes /\ snd st = lane_name a b i) \/
    switching (fst st) /\ (exists i j, i < lanes /\ j < lanes /\ (i = S j \/ j = S i) /\ snd st = change_name a b i j).
  Lemma switching_dec m : {switching m} + {~ switching m}.
  Proof.
    destruct (prefix_of (w "Switch") m) eqn:E; [left; apply switching_iff; exact E|right]. intros H. apply switching_iff in H. congruence.
  Qed.
  Lemma drive_on_road a b requests : forall mode lane, on_road a b (mode, lane) ->
    exists st, drive lanes mode lane requests = Some st /\ on_road a b st.
  Proof.
    induction requests as [|m rest IH]; intros mode lane H; [exists (mode, lane); split; [reflexivity|exact H]|].
    cbn [drive]. destruct H as [[N (i & Hi & E)]|[S (i & j & Hi & Hj & Hij & E)]]; cbn [fst snd] in *; subst lane.
    - rewrite h_start by exact N. destruct (prefix_of (w "Switch") m) eqn:Em.
      + apply switching_iff in Em. destruct (occurs (w "Left") m && (0 <? i)) eqn:E1.
        * apply andb_true_iff in E1. destruct E1 as [_ E1]. apply Nat.ltb_lt in E1. apply IH. right. split; [exact Em|].
          exists i, (i - 1). repeat split; try lia.
        * destruct (occurs (w "Right") m && (i <? lanes - 1)) eqn:E2.
          -- apply andb_true_iff in E2. destruct E2 as [_ E2]. apply Nat.ltb_lt in E2. apply IH. right. split; [exact Em|].
             exists i, (i + 1). repeat split; try lia.
          -- apply IH. left. split; [exact N|]. exists i. auto.
      + apply IH. left. split; [cbn [fst]; rewrite <- switching_iff; congruence|]. exists i. auto.
    - rewrite h_finish by exact S. destruct (prefix_of (w "Switch") m) eqn:Em.
      + apply IH. right. split; [exact S|]. exists i, j. auto.
      + apply IH. left. split; [cbn [fst]; rewrite <- switching_iff; congruence|]. exists j. auto.
  Qed.
End History.

(** ** Dictionaries built by assignments *)
Section Entries.
  Context {V : Type}.
  Definition functional (l : list (word * V)) : Prop := forall k v v', In (k, v) l -> In (k, v') l -> v = v'.
  Lemma dget_dset k a (v : V) d : dget word_eqb a (dset word_eqb k v d) = if word_eqb a k then Some v else dget word_eqb a d.
  Proof.
    unfold dset. destruct (word_eqb a k) eqn:E.
    - apply word_eqb_iff in E. subst a. rewrite (dget_alter_same word_eqb word_eqb_iff). reflexivity.
    - rewrite (dget_alter_other word_eqb word_eqb_iff); [reflexivity|]. intros ->. rewrite (proj2 (word_eqb_iff a a) eq_refl) in E. discriminate.
  Qed.
  Lemma put_iff (l : list (word * V)) : functional l -> forall k v,
    dget word_eqb k (fold_left (fun d e => dset word_eqb (fst e) (snd e) d) l []) = Some v <-> In (k, v) l.
  Proof.
    induction l as [|[k0 v0] l IH] using rev_ind; intros F k v; [split; [discriminate|intros []]|].
    assert (F' : functional l) by (intros k1 v1 v1' H H'; apply (F k1); apply in_or_app; left; assumption).
    rewrite fold_left_app. cbn [fold_left fst snd]. rewrite in_app_iff, dget_dset. destruct (word_eqb k k0) eqn:E.
    - apply word_eqb_iff in E. subst k0. split.
      + intros H. injection H as ->. right. left. reflexivity.
      + intros H. f_equal. apply (F k); apply in_or_app; [right; left; reflexivity|exact H].
    - assert (N : k <> k0) by (intros ->; rewrite (proj2 (word_eqb_iff k0 k0) eq_refl) in E; discriminate).
      rewrite IH by exact F'. split; [auto|].
      intros [H|[H|[]]]; [exact H|]. congruence.
  Qed.
End Entries.

(** ** The segments *)
Section Segs.
  Open Scope R_scope.
  Variables (width size len : R) (lanes : nat).
  Let edge := size + len.
  Let off (i : nat) := width * (INR i + 1 / 2).
  Definition table (i : nat) : list (word * segment) :=
    let st a b c d := Straight a b c d width in
    let ci x y r p q cw := Circular x y r p q cw width in
    [(w "NR", st (- off i) edge (- off i) size); (w "SR", st (off i) (- edge) (off i) (- size));
     (w "ER", st edge (off i) size (off i)); (w "WR", st (- edge) (- off i) (- size) (- off i));
     (w "NL", st (off i) size (off i) edge); (w "EL", st size (- off i) edge (- off i));
     (w "SL", st (- off i) (- size) (- off i) (- edge)); (w "WL", st (- size) (off i) (- edge) (off i));
     (w "NSR", st (- off i) size (- off i) (- size)); (w "NSL", st (off i) (- size) (off i) size);
     (w "WER", st (- size) (- off i) size (- off i)); (w "WEL", st size (off i) (- size) (off i));
     (w "NWI", ci (- size) size (size + off i * -1) ((3 + 1) * PI / 2) ((3 + 0) * PI / 2) true);
     (w "NWO", ci (- size) size (size + off i * 1) ((3 + 0) * PI / 2) ((3 + 1) * PI / 2) false);
     (w "NEI", ci size size (size + off i * -1) ((2 + 1) * PI / 2) ((2 + 0) * PI / 2) true);
     (w "NEO", ci size size (size + off i * 1) ((2 + 0) * PI / 2) ((2 + 1) * PI / 2) false);
     (w "SWI", ci (- size) (- size) (size + off i * -1) ((0 + 1) * PI / 2) ((0 + 0) * PI / 2) true);
     (w "SWO", ci (- size) (- size) (size + off i * 1) ((0 + 0) * PI / 2) ((0 + 1) * PI / 2) false);
     (w "SEI", ci size (- size) (size + off i * -1) ((1 + 1) * PI / 2) ((1 + 0) * PI / 2) true);
     (w "SEO", ci size (- size) (size + off i * 1) ((1 + 0) * PI / 2) ((1 + 1) * PI / 2) false)].

  Lemma table_letters i p s : In (p, s) (table i) -> letters p.
  Proof. intros H. cbn in H. repeat (destruct H as [H|H]; [injection H as <- _; repeat constructor|]). destruct H. Qed.
  Lemma table_functional i : functional (table i).
  Proof.
    intros k v v' H H'. cbn in H, H'.
    repeat (destruct H as [H|H]; [injection H as <- <-; clear -H'; repeat (destruct H' as [H'|H']; [first [injection H' as <-; reflexivity|discriminate H']|]); destruct H'|]).
    destruct H.
  Qed.
  Definition entries : list (word * segment) := flat_map (straight_segs width size len) (seq 0 lanes) ++ curve_segs width size lanes.
  Lemma segs_entries : segs width size len lanes = fold_left (fun d e => dset word_eqb (fst e) (snd e) d) entries [].
  Proof. unfold segs, put_all, entries. rewrite fold_left_app. reflexivity. Qed.
  Definition named (i : nat) (e : word * segment) : word * segment := (fst e ++ str i, snd e).
  Lemma straight_table i : straight_segs width size len i = map (named i) (firstn 12 (table i)).
  Proof. reflexivity. Qed.
  Lemma curve_table i : flat_map (fun p => map (fun inner => curve_seg width size p inner i) [true; false]) (curve_params size) = map (named i) (skipn 12 (table i)).
  Proof. reflexivity. Qed.
  Lemma In_curves e : In e (curve_segs width size lanes) <-> exists i, (i < lanes)%nat /\ In e (map (named i) (skipn 12 (table i))).
  Proof.
    unfold curve_segs. rewrite in_flat_map. split.
    - intros (q & Hq & H). apply in_flat_map in H. destruct H as (inner & Hin & H). apply in_map_iff in H. destruct H as (i & <- & Hi). apply in_seq in Hi.
      exists i. split; [lia|]. rewrite <- curve_table. apply in_flat_map. exists q. split; [exact Hq|]. apply in_map_iff. exists inner. auto.
    - intros (i & Hi & H). rewrite <- curve_table in H. apply in_flat_map in H. destruct H as (q & Hq & H). apply in_map_iff in H. destruct H as (inner & <- & Hin).
      exists q. split; [exact Hq|]. apply in_flat_map. exists inner. split; [exact Hin|]. apply in_map. apply in_seq. lia.
  Qed.
  Lemma In_entries k v : In (k, v) entries <-> exists i p, (i < lanes)%nat /\ In (p, v) (table i) /\ k = p ++ str i.
  Proof.
    assert (M : forall i, In (k, v) (map (named i) (table i)) <-> exists p, In (p, v) (table i) /\ k = p ++ str i).
    { intros i. rewrite in_map_iff. split.
      - intros ([p s] & E & H). unfold named in E. cbn [fst snd] in E. injection E as <- <-. exists p. auto.
      - intros (p & H & ->). exists (p, v). auto. }
    unfold entries. rewrite in_app_iff, in_flat_map, In_curves. split.
    - intros [(i & Hi & H)|(i & Hi & H)].
      + apply in_seq in Hi. rewrite straight_table in H. destruct (proj1 (M i)) as (p & H1 & H2); [|exists i, p; split; [lia|auto]].
        rewrite <- (firstn_skipn 12 (table i)), map_app, in_app_iff. auto.
      + destruct (proj1 (M i)) as (p & H1 & H2); [|exists i, p; split; [lia|auto]].
        rewrite <- (firstn_skipn 12 (table i)), map_app, in_app_iff. auto.
    - intros (i & p & Hi & H & E). assert (H' : In (k, v) (map (named i) (table i))) by (apply M; exists p; auto).
      rewrite <- (firstn_skipn 12 (table i)), map_app, in_app_iff in H'. destruct H' as [H'|H'].
      + left. exists i. split; [apply in_seq; lia|]. rewrite straight_table. exact H'.
      + right. exists i. auto.
  Qed.
  Lemma entries_functional : functional entries.
  Proof.
    intros k v v' H H'. apply In_entries in H, H'. destruct H as (i & p & _ & H & ->). destruct H' as (i' & p' & _ & H' & E).
    destruct (@name_inj _ _ _ _ (@table_letters _ _ _ H) (@table_letters _ _ _ H') E) as [<- <-]. exact (@table_functional i p v v' H H').
  Qed.
  Lemma seg_iff i p s : letters p -> seg width size len lanes (p ++ str i) = Some s <-> (i < lanes)%nat /\ In (p, s) (table i).
  Proof.
    intros L. unfold seg. rewrite segs_entries, put_iff by exact entries_functional. rewrite In_entries. split.
    - intros (i' & p' & Hi & H & E). destruct (@name_inj _ _ _ _ L (@table_letters _ _ _ H) E) as [<- <-]. auto.
    - intros [Hi H]. exists i, p. auto.
  Qed.
  Lemma seg_some i p s : (i < lanes)%nat -> In (p, s) (table i) -> seg width size len lanes (p ++ str i) = Some s.
  Proof. intros Hi H. apply seg_iff; [exact (@table_letters _ _ _ H)|]. auto. Qed.
  Lemma seg_none i p : letters p -> ~ In p (map fst (table i)) -> seg width size len lanes (p ++ str i) = None.
  Proof.
    intros L N. destruct (seg width size len lanes (p ++ str i)) as [s|] eqn:E; [|reflexivity]. exfalso. apply N.
    apply seg_iff in E; [|exact L]. change p with (fst (p, s)). apply in_map. apply E.
  Qed.

  (** ** The lanes *)
  Definition pick (i : nat) (p : word) : segment := match dget word_eqb p (table i) with Some s => s | None => Straight 0 0 0 0 0 end.
  Definition across (a b : arm) : word :=
    match a, b with
    | North, South => w "NSR" | South, North => w "NSL" | West, East => w "WER" | East, West => w "WEL"
    | North, West => w "NWI" | North, East => w "NEO" | West, North => w "NWO" | East, North => w "NEI"
    | South, West => w "SWO" | South, East => w "SEI" | West, South => w "SWI" | East, South => w "SEO"
    | _, _ => []
    end.
  Definition route (a b : arm) (i : nat) : list segment := [pick i (letter a ++ w "R"); pick i (across a b); pick i (letter b ++ w "L")].
  Lemma seg_pick i p : (i < lanes)%nat -> In p (map fst (table i)) -> seg width size len lanes (p ++ str i) = Some (pick i p).
  Proof.
    intros Hi H. apply seg_some; [exact Hi|]. unfold pick. destruct (dget word_eqb p (table i)) as [s|] eqn:E; [exact (dget_In word_eqb word_eqb_iff _ _ E)|].
    apply (dget_None word_eqb word_eqb_iff) in E. contradiction.
  Qed.
  Definition straight_arms : list (arm * arm) := [(North, South); (South, North); (West, East); (East, West)].
  Definition curve_arms : list (arm * arm) := [(North, West); (North, East); (West, North); (East, North); (South, West); (South, East); (West, South); (East, South)].
  Lemma straight_ok i : (i < lanes)%nat ->
    map (fun s => straight_lane width size len lanes s i) straights = map (fun p => Some (lane_name (fst p) (snd p) i, route (fst p) (snd p) i)) straight_arms.
  Proof.
    intros Hi. cbn [map straights straight_arms fst snd]. unfold straight_lane. cbn [mapM fst snd obind].
    rewrite !seg_pick by (exact Hi || (cbn; auto 30)). reflexivity.
  Qed.
  Lemma curve_direct s e d i : (i < lanes)%nat -> In (s ++ w "R") (map fst (table i)) -> In (s ++ e ++ d) (map fst (table i)) -> In (e ++ w "L") (map fst (table i)) ->
    curve_lane width size len lanes (s, e, d) i = Some (s ++ e ++ w "_" ++ str i, [pick i (s ++ w "R"); pick i (s ++ e ++ d); pick i (e ++ w "L")]).
  Proof.
    intros Hi A B C. unfold curve_lane. replace (s ++ w "R" ++ str i) with ((s ++ w "R") ++ str i) by (rewrite <- !app_assoc; reflexivity). replace (s ++ e ++ d ++ str i) with ((s ++ e ++ d) ++ str i) by (rewrite <- !app_assoc; reflexivity). replace (e ++ w "L" ++ str i) with ((e ++ w "L") ++ str i) by (rewrite <- !app_assoc; reflexivity).
    rewrite !seg_pick by assumption. reflexivity.
  Qed.
  Lemma curve_swapped s e d i : (i < lanes)%nat -> In (s ++ w "R") (map fst (table i)) -> letters (s ++ e ++ d) -> ~ In (s ++ e ++ d) (map fst (table i)) -> In (e ++ s ++ d) (map fst (table i)) -> In (e ++ w "L") (map fst (table i)) ->
    curve_lane width size len lanes (s, e, d) i = Some (s ++ e ++ w "_" ++ str i, [pick i (s ++ w "R"); pick i (e ++ s ++ d); pick i (e ++ w "L")]).
  Proof.
    intros Hi A L N B C. unfold curve_lane. replace (s ++ w "R" ++ str i) with ((s ++ w "R") ++ str i) by (rewrite <- !app_assoc; reflexivity). replace (s ++ e ++ d ++ str i) with ((s ++ e ++ d) ++ str i) by (rewrite <- !app_assoc; reflexivity). replace (e ++ s ++ d ++ str i) with ((e ++ s ++ d) ++ str i) by (rewrite <- !app_assoc; reflexivity). replace (e ++ w "L" ++ str i) with ((e ++ w "L") ++ str i) by (rewrite <- !app_assoc; reflexivity).
    rewrite (@seg_none i _ L N). rewrite !seg_pick by assumption. reflexivity.
  Qed.
  Lemma curve_ok i : (i < lanes)%nat ->
    map (fun s => curve_lane width size len lanes s i) curves = map (fun p => Some (lane_name (fst p) (snd p) i, route (fst p) (snd p) i)) curve_arms.
  Proof.
    intros Hi. cbn [map curves curve_arms fst snd].
    assert (N : forall p, forallb (fun k => negb (word_eqb p k)) (map fst (table i)) = true -> ~ In p (map fst (table i))).
    { intros p F H. rewrite forallb_forall in F. specialize (F p H). rewrite (proj2 (word_eqb_iff p p) eq_refl) in F. discriminate. }
    assert (Y : forall p, existsb (word_eqb p) (map fst (table i)) = true -> In p (map fst (table i))).
    { intros p F. apply existsb_exists in F. destruct F as (k & Hk & E). apply word_eqb_iff in E. subst k. exact Hk. }
    repeat (f_equal; [first [rewrite curve_direct by (exact Hi || (apply Y; reflexivity)); reflexivity
      | rewrite curve_swapped by (exact Hi || (apply Y; reflexivity) || (apply N; reflexivity) || (repeat constructor)); reflexivity]|]).
    f_equal. rewrite curve_swapped by (exact Hi || (apply Y; reflexivity) || (apply N; reflexivity) || (repeat constructor)). reflexivity.
  Qed.

  Lemma mapM_map {A B C} (f : B -> option C) (g : A -> B) (h : A -> C) l : (forall a, In a l -> f (g a) = Some (h a)) -> mapM f (map g l) = Some (map h l).
  Proof. induction l as [|a l IH]; intros H; [reflexivity|]. cbn [map mapM obind]. rewrite (H a) by (left; reflexivity). cbn [obind]. rewrite IH by (intros; apply H; right; assumption). reflexivity. Qed.
  Definition lane_of (p : (arm * arm) * nat) : word * list segment := (lane_name (fst (fst p)) (snd (fst p)) (snd p), route (fst (fst p)) (snd (fst p)) (snd p)).
  Lemma mapM_prod {A} (f : A -> nat -> option (word * list segment)) (l : list A) (arms : list (arm * arm)) :
    (forall i, (i < lanes)%nat -> map (fun s => f s i) l = map (fun p => Some (lane_name (fst p) (snd p) i, route (fst p) (snd p) i)) arms) ->
    (0 < lanes)%nat ->
    mapM (fun p => f (fst p) (snd p)) (list_prod l (seq 0 lanes)) = Some (map lane_of (list_prod arms (seq 0 lanes))).
  Proof.
    intros H P. revert arms H. induction l as [|s l IH]; intros [|p arms] H; try reflexivity; try (specialize (H 0%nat P); discriminate).
    cbn [list_prod]. rewrite mapM_app. rewrite (@mapM_map _ _ _ _ (fun i => (s, i)) (fun i => lane_of (p, i))).
    - cbn [obind]. rewrite (IH arms). + cbn [obind]. rewrite map_app, map_map. reflexivity.
      + intros i Hi. specialize (H i Hi). cbn [map] in H. injection H as _ H. exact H.
    - intros i Hi. apply in_seq in Hi. cbn [fst snd]. specialize (H i ltac:(lia)). cbn [map] in H. injection H as H _. exact H.
  Qed.
  Lemma arms_all a b : a <> b -> In (a, b) (straight_arms ++ curve_arms).
  Proof. destruct a, b; intros H; try congruence; cbn; auto 20. Qed.
  Lemma arms_differ a b : In (a, b) (straight_arms ++ curve_arms) -> a <> b.
  Proof. cbn. intros H E. subst b. destruct a; intuition discriminate. Qed.
  Lemma built : 0 < width -> (0 < lanes)%nat -> 0 < len -> (1 + INR lanes) * width <= size ->
    exists d, intersection width size len lanes = Some d /\
      forall name l, dget word_eqb name d = Some l <-> exists a b i, a <> b /\ (i < lanes)%nat /\ name = lane_name a b i /\ l = route a b i.
  Proof.
    intros Hw Hl Hn Hs. unfold intersection. destruct (Rlt_dec 0 width); [|lra]. rewrite (proj2 (Nat.ltb_lt 0 lanes) Hl). destruct (Rlt_dec 0 len); [|lra].
    destruct (Rle_dec ((1 + INR lanes) * width) size); [|lra].
    rewrite (mapM_prod _ _ straight_arms straight_ok Hl). cbn [obind]. rewrite (mapM_prod _ _ curve_arms curve_ok Hl). cbn [obind].
    eexists. split; [reflexivity|]. unfold add_lanes. rewrite <- fold_left_app. intros name l.
    assert (E : forall k v, In (k, v) (map lane_of (list_prod straight_arms (seq 0 lanes)) ++ map lane_of (list_prod curve_arms (seq 0 lanes))) <->
      exists a b i, a <> b /\ (i < lanes)%nat /\ k = lane_name a b i /\ v = route a b i).
    { intros k v. rewrite in_app_iff, !in_map_iff. split.
      - intros [([[a b] i] & E & H)|([[a b] i] & E & H)]; apply in_prod_iff in H; destruct H as [H Hi]; apply in_seq in Hi; unfold lane_of in E; cbn [fst snd] in E; injection E as <- <-;
          exists a, b, i; (split; [apply arms_differ; apply in_or_app; auto|]); split; [lia|auto|lia|auto].
      - intros (a & b & i & N & Hi & -> & ->). destruct (in_app_or _ _ _ (arms_all N)) as [H|H]; [left|right]; exists (a, b, i); (split; [reflexivity|]); apply in_prod_iff; (split; [exact H|]); apply in_seq; lia. }
    rewrite put_iff.
    - apply E.
    - intros k v v' H H'. apply E in H, H'. destruct H as (a & b & i & _ & _ & E1 & ->). destruct H' as (a' & b' & i' & _ & _ & E2 & ->).
      rewrite E1 in E2. destruct (lane_name_inj _ _ _ _ _ _ E2) as (<- & <- & <-). reflexivity.
  Qed.
  Lemma not_built : ~ (0 < width /\ (0 < lanes)%nat /\ 0 < len /\ (1 + INR lanes) * width <= size) -> intersection width size len lanes = None.
  Proof.
    intros H. unfold intersection. destruct (Rlt_dec 0 width); [|reflexivity]. destruct (0 <? lanes)%nat eqn:E; [|reflexivity]. apply Nat.ltb_lt in E.
    destruct (Rlt_dec 0 len); [|reflexivity]. destruct (Rle_dec ((1 + INR lanes) * width) size); [|reflexivity]. exfalso. apply H. auto.
  Qed.
End Segs.

(** ** Geometry *)
Section Geometry.
  Open Scope R_scope.
  Lemma straight_heads sx sy ex ey wd lon k dx dy : 0 < k -> dx * dx + dy * dy = 1 -> ex - sx = k * dx -> ey - sy = k * dy ->
    heads (Straight sx sy ex ey wd) lon (dx, dy).
  Proof.
    intros Hk U Ex Ey. unfold heads. cbn [heading_at fst snd]. destruct (atan2_polar (ex - sx) (ey - sy)) as [A B].
    assert (N : norm (ex - sx) (ey - sy) = k).
    { unfold norm. rewrite Ex, Ey. replace (k * dx * (k * dx) + k * dy * (k * dy)) with (k * k * (dx * dx + dy * dy)) by ring. rewrite U, Rmult_1_r. apply sqrt_square. lra. }
    rewrite N in A, B. set (c := cos (arctan2 (ey - sy) (ex - sx))) in *. set (s := sin (arctan2 (ey - sy) (ex - sx))) in *.
    split; apply (Rmult_eq_reg_l k); lra.
  Qed.
  Lemma straight_start sx sy ex ey wd : position (Straight sx sy ex ey wd) 0 0 = (sx, sy).
  Proof. cbn [position]. f_equal; ring. Qed.
  Lemma straight_end sx sy ex ey wd : (sx, sy) <> (ex, ey) -> position (Straight sx sy ex ey wd) (length_of (Straight sx sy ex ey wd)) 0 = (ex, ey).
  Proof. intros P. assert (L := straight_len _ _ _ _ P). cbn [position length_of]. unfold dir. cbn [fst snd]. f_equal; field; lra. Qed.
  Lemma circular_start cx cy r p q cw wd : 0 < r -> position (Circular cx cy r p q cw wd) 0 0 = (cx + r * cos p, cy + r * sin p).
  Proof. intros P. cbn [position]. replace (turn cw * 0 / r + p) with p by (field; lra). f_equal; ring. Qed.
  Lemma circular_end cx cy r p q cw wd : 0 < r -> position (Circular cx cy r p q cw wd) (length_of (Circular cx cy r p q cw wd)) 0 = (cx + r * cos q, cy + r * sin q).
  Proof.
    intros P. cbn [position length_of]. replace (turn cw * (r * (q - p) * turn cw) / r + p) with q; [f_equal; ring|].
    replace (turn cw * (r * (q - p) * turn cw) / r) with ((turn cw * turn cw) * (q - p)) by (field; lra). rewrite turn_sq. ring.
  Qed.
  Lemma turned_cs cw x : cos (x + PI / 2 * turn cw) = - turn cw * sin x /\ sin (x + PI / 2 * turn cw) = turn cw * cos x.
  Proof.
    rewrite cos_plus, sin_plus. destruct cw; cbn [turn].
    - replace (PI / 2 * -1) with (- (PI / 2)) by ring. rewrite cos_neg, sin_neg, cos_PI2, sin_PI2. split; ring.
    - rewrite Rmult_1_r, cos_PI2, sin_PI2. split; ring.
  Qed.
  Lemma circular_heads cx cy r p q cw wd lon ph : 0 < r -> turn cw * lon / r + p = ph ->
    heads (Circular cx cy r p q cw wd) lon (- turn cw * sin ph, turn cw * cos ph).
  Proof.
    intros P E. unfold heads. cbn [heading_at fst snd]. rewrite E. destruct (same_cos _ _ (wrap_same (ph + PI / 2 * turn cw))) as [-> ->]. apply turned_cs.
  Qed.
  Lemma circular_heads_start cx cy r p q cw wd : 0 < r -> heads (Circular cx cy r p q cw wd) 0 (- turn cw * sin p, turn cw * cos p).
  Proof. intros P. apply circular_heads; [exact P|]. field. lra. Qed.
  Lemma circular_heads_end cx cy r p q cw wd : 0 < r -> let s := Circular cx cy r p q cw wd in heads s (length_of s) (- turn cw * sin q, turn cw * cos q).
  Proof.
    intros P. apply circular_heads; [exact P|]. cbn [length_of].
    replace (turn cw * (r * (q - p) * turn cw) / r) with ((turn cw * turn cw) * (q - p)) by (field; lra). rewrite turn_sq. ring.
  Qed.
  Lemma heads_same s l t m d : heads s l d -> heads t m d -> same_angle (heading_at s l) (heading_at t m).
  Proof. intros [A B] [C D]. apply cs_same; congruence. Qed.

  (** Quarters of a turn. *)
  Lemma quarter0 : cos ((0 + 0) * PI / 2) = 1 /\ sin ((0 + 0) * PI / 2) = 0.
  Proof. replace ((0 + 0) * PI / 2) with 0 by field. rewrite cos_0, sin_0. auto. Qed.
  Lemma quarter1 : cos ((0 + 1) * PI / 2) = 0 /\ sin ((0 + 1) * PI / 2) = 1 /\ cos ((1 + 0) * PI / 2) = 0 /\ sin ((1 + 0) * PI / 2) = 1.
  Proof. replace ((0 + 1) * PI / 2) with (PI / 2) by field. replace ((1 + 0) * PI / 2) with (PI / 2) by field. rewrite cos_PI2, sin_PI2. auto. Qed.
  Lemma quarter2 : cos ((1 + 1) * PI / 2) = -1 /\ sin ((1 + 1) * PI / 2) = 0 /\ cos ((2 + 0) * PI / 2) = -1 /\ sin ((2 + 0) * PI / 2) = 0.
  Proof. replace ((1 + 1) * PI / 2) with PI by field. replace ((2 + 0) * PI / 2) with PI by field. rewrite cos_PI, sin_PI. auto. Qed.
  Lemma quarter3 : cos ((2 + 1) * PI / 2) = 0 /\ sin ((2 + 1) * PI / 2) = -1 /\ cos ((3 + 0) * PI / 2) = 0 /\ sin ((3 + 0) * PI / 2) = -1.
  Proof.
    replace ((2 + 1) * PI / 2) with (PI / 2 + PI) by field. replace ((3 + 0) * PI / 2) with (PI / 2 + PI) by field.
    rewrite neg_cos, neg_sin, cos_PI2, sin_PI2. repeat split; ring.
  Qed.
  Lemma quarter4 : cos ((3 + 1) * PI / 2) = 1 /\ sin ((3 + 1) * PI / 2) = 0.
  Proof. replace ((3 + 1) * PI / 2) with (2 * PI) by field. rewrite cos_2PI, sin_2PI. auto. Qed.

  Variables (width size len : R) (lanes : nat).
  Hypotheses (Hw : 0 < width) (Hn : 0 < len) (Hs : (1 + INR lanes) * width <= size).
  Definition offset (i : nat) : R := width * (INR i + 1 / 2).
  Lemma off_lt i : (i < lanes)%nat -> 0 < offset i < size.
  Proof.
    intros Hi. unfold offset. assert (0 <= INR i) by apply pos_INR. assert (INR i + 1 <= INR lanes) by (rewrite <- S_INR; apply le_INR; lia).
    split; [nra|]. assert (width * (INR i + 1 / 2) < width * (1 + INR lanes)) by (apply Rmult_lt_compat_l; lra). lra.
  Qed.
  Definition smooth (l : list segment) (p d q e : R * R) : Prop :=
    exists s1 s2 s3, l = [s1; s2; s3] /\ proper s1 /\ proper s2 /\ proper s3 /\
      position s1 0 0 = p /\ heads s1 0 d /\ joint s1 s2 /\ joint s2 s3 /\ position s3 (length_of s3) 0 = q /\ heads s3 (length_of s3) e.
  Lemma smooth3 s1 s2 s3 p d p1 d1 p2 d2 q e : proper s1 -> proper s2 -> proper s3 ->
    position s1 0 0 = p -> heads s1 0 d -> position s1 (length_of s1) 0 = p1 -> heads s1 (length_of s1) d1 ->
    position s2 0 0 = p1 -> heads s2 0 d1 -> position s2 (length_of s2) 0 = p2 -> heads s2 (length_of s2) d2 ->
    position s3 0 0 = p2 -> heads s3 0 d2 -> position s3 (length_of s3) 0 = q -> heads s3 (length_of s3) e ->
    smooth [s1; s2; s3] p d q e.
  Proof.
    intros. exists s1, s2, s3. assert (joint s1 s2) by (split; [congruence|eapply heads_same; eassumption]).
    assert (joint s2 s3) by (split; [congruence|eapply heads_same; eassumption]). auto 12.
  Qed.
  Lemma pair_neq (a b c d : R) : (a <> c \/ b <> d) -> (a, b) <> (c, d).
  Proof. intros [H|H] E; injection E; intros; auto. Qed.
  Lemma in_smooth a i lon : (i < lanes)%nat -> let s := pick width size len i (letter a ++ w "R") in
    proper s /\ position s 0 0 = entry a (size + len) (offset i) /\ position s (length_of s) 0 = entry a size (offset i) /\
    heads s lon (- fst (outward a), - snd (outward a)).
  Proof.
    intros Hi. destruct (off_lt Hi) as [O1 O2]. destruct a;
      match goal with |- let s := ?p in _ => let q := eval cbn in p in change p with q end; cbv zeta; fold (offset i);
      (match goal with |- proper (Straight ?a ?b ?c ?d ?e) /\ _ =>
        assert (P : (a, b) <> (c, d)) by (apply pair_neq; lra); split; [exact P|]; rewrite straight_start, (@straight_end a b c d e P) end);
      unfold entry; cbn [outward fst snd]; (split; [f_equal; ring|]); (split; [f_equal; ring|]); apply straight_heads with (k := len); lra.
  Qed.
  Lemma out_smooth a i lon : (i < lanes)%nat -> let s := pick width size len i (letter a ++ w "L") in
    proper s /\ position s 0 0 = exit_ a size (offset i) /\ position s (length_of s) 0 = exit_ a (size + len) (offset i) /\
    heads s lon (fst (outward a), snd (outward a)).
  Proof.
    intros Hi. destruct (off_lt Hi) as [O1 O2]. destruct a;
      match goal with |- let s := ?p in _ => let q := eval cbn in p in change p with q end; cbv zeta; fold (offset i);
      (match goal with |- proper (Straight ?a ?b ?c ?d ?e) /\ _ =>
        assert (P : (a, b) <> (c, d)) by (apply pair_neq; lra); split; [exact P|]; rewrite straight_start, (@straight_end a b c d e P) end);
      unfold exit_; cbn [outward fst snd]; (split; [f_equal; ring|]); (split; [f_equal; ring|]); apply straight_heads with (k := len); lra.
  Qed.
  Lemma across_smooth a b i : (i < lanes)%nat -> a <> b -> let s := pick width size len i (across a b) in
    proper s /\ position s 0 0 = entry a size (offset i) /\ position s (length_of s) 0 = exit_ b size (offset i) /\
    heads s 0 (- fst (outward a), - snd (outward a)) /\ heads s (length_of s) (fst (outward b), snd (outward b)).
  Proof.
    intros Hi N. destruct (off_lt Hi) as [O1 O2].
    destruct quarter0 as [Q1 Q2]. destruct quarter1 as (Q3 & Q4 & Q5 & Q6). destruct quarter2 as (Q7 & Q8 & Q9 & Q10). destruct quarter3 as (Q11 & Q12 & Q13 & Q14). destruct quarter4 as (Q15 & Q16).
    destruct a, b; try congruence;
      match goal with |- let s := ?p in _ => let q := eval cbn in p in change p with q end; cbv zeta; fold (offset i);
      unfold entry, exit_; cbn [outward fst snd];
      (match goal with
       | |- proper (Straight ?a ?b ?c ?d ?e) /\ _ =>
          assert (P : (a, b) <> (c, d)) by (apply pair_neq; lra); split; [exact P|]; rewrite straight_start, (@straight_end a b c d e P);
          (split; [f_equal; ring|]); (split; [f_equal; ring|]); split; apply straight_heads with (k := 2 * size); lra
       | |- proper (Circular ?x ?y ?r ?p ?q ?cw ?e) /\ _ =>
          assert (P : 0 < r) by lra; split; [exact P|];
          pose proof (@circular_heads_start x y r p q cw e P) as A; pose proof (@circular_heads_end x y r p q cw e P) as B; cbv zeta in B;
          rewrite (@circular_start x y r p q cw e P), (@circular_end x y r p q cw e P);
          rewrite ?Q1, ?Q2, ?Q3, ?Q4, ?Q5, ?Q6, ?Q7, ?Q8, ?Q9, ?Q10, ?Q11, ?Q12, ?Q13, ?Q14, ?Q15, ?Q16 in *; cbn [turn] in *;
          (split; [f_equal; ring|]); (split; [f_equal; ring|]);
          split; [eapply eq_ind; [exact A|f_equal; ring]|eapply eq_ind; [exact B|f_equal; ring]]
       end).
  Qed.
  Lemma route_smooth a b i : (i < lanes)%nat -> a <> b ->
    smooth (route width size len a b i) (entry a (size + len) (offset i)) (- fst (outward a), - snd (outward a)) (exit_ b (size + len) (offset i)) (fst (outward b), snd (outward b)).
  Proof.
    intros Hi N. unfold route. destruct (@across_smooth a b i Hi N) as (A1 & A2 & A3 & A4 & A5).
    pose proof (fun lon => @in_smooth a i lon Hi) as I. pose proof (fun lon => @out_smooth b i lon Hi) as O. cbv zeta in I, O.
    destruct (I 0) as (I1 & I2 & I3 & I4). destruct (I (length_of (pick width size len i (letter a ++ w "R")))) as (_ & _ & _ & I5).
    destruct (O 0) as (O1 & O2 & O3 & O4). destruct (O (length_of (pick width size len i (letter b ++ w "L")))) as (_ & _ & _ & O5).
    exact (smooth3 I1 A1 O1 I2 I4 I3 I5 A2 A4 A3 A5 O2 O4 O3 O5).
  Qed.

  (** ** Neighbours *)
  Definition left_of (d : R) (s t : segment) : Prop :=
    forall lon, 0 <= lon <= length_of t -> exists lon', 0 <= lon' <= length_of s /\ position t lon d = position s lon' 0.
  Lemma straight_left sx sy ex ey wd tx ty fx fy wd' d : (sx, sy) <> (ex, ey) -> fx - tx = ex - sx -> fy - ty = ey - sy ->
    tx + d * fst (dir_lat tx ty fx fy) = sx -> ty + d * snd (dir_lat tx ty fx fy) = sy ->
    left_of d (Straight sx sy ex ey wd) (Straight tx ty fx fy wd').
  Proof.
    intros P Ex Ey Lx Ly lon Hl. exists lon. cbn [length_of] in *. rewrite Ex, Ey in Hl. split; [exact Hl|].
    cbn [position]. unfold dir_lat, dir in *. cbn [fst snd] in *. rewrite Ex, Ey in *. set (n := norm (ex - sx) (ey - sy)) in *. set (u := (ex - sx) / n) in *. set (v := (ey - sy) / n) in *. f_equal; lra.
  Qed.
  Lemma circular_left cx cy r r' p q cw wd wd' d : 0 < r -> 0 < r' -> r' - d * turn cw = r ->
    left_of d (Circular cx cy r p q cw wd) (Circular cx cy r' p q cw wd').
  Proof.
    intros Hr Hr' E lon Hl. exists (lon * r / r'). cbn [length_of] in *. split.
    - assert (K : 0 < r / r') by (apply Rdiv_lt_0_compat; assumption). replace (lon * r / r') with (r / r' * lon) by (field; lra). split; [apply Rmult_le_pos; lra|].
      replace (r * (q - p) * turn cw) with (r / r' * (r' * (q - p) * turn cw)) by (field; lra). apply Rmult_le_compat_l; lra.
    - cbn [position]. replace (turn cw * (lon * r / r') / r) with (turn cw * lon / r') by (field; lra). rewrite E. rewrite !Rmult_0_l, !Rminus_0_r. reflexivity.
  Qed.
  Lemma offset_S i : offset (S i) = offset i + width.
  Proof. unfold offset. rewrite S_INR. ring. Qed.
  Lemma norm_axis x : 0 < x -> norm x 0 = x /\ norm 0 x = x /\ norm (- x) 0 = x /\ norm 0 (- x) = x.
  Proof.
    intros H. unfold norm. repeat split; match goal with |- sqrt ?e = _ => replace e with (x * x) by ring end; apply sqrt_square; lra.
  Qed.
  Lemma pick_left i p : (S i < lanes)%nat -> In p (map fst (table width size len i)) -> left_of width (pick width size len i p) (pick width size len (S i) p).
  Proof.
    intros Hi H. destruct (@off_lt i ltac:(lia)) as [O1 O2]. destruct (@off_lt (S i) Hi) as [O3 O4]. pose proof (offset_S i) as E.
    destruct (norm_axis Hn) as (N1 & N2 & N3 & N4). assert (S2 : 0 < 2 * size) by lra. destruct (norm_axis S2) as (M1 & M2 & M3 & M4).
    cbn in H. repeat (destruct H as [<-|H]; [
      match goal with |- left_of _ ?s ?t => let s' := eval cbn -[INR] in s in let t' := eval cbn -[INR] in t in change s with s'; change t with t' end;
      fold (offset i); fold (offset (S i));
      match goal with
      | |- left_of _ (Straight ?a ?b ?c ?d _) (Straight ?a' ?b' ?c' ?d' _) =>
        apply straight_left; try lra; [apply pair_neq; lra|..];
        unfold dir_lat, dir; cbn [fst snd];
        first [replace (c' - a') with 0 by lra|replace (c' - a') with len by lra|replace (c' - a') with (- len) by lra|replace (c' - a') with (2 * size) by lra|replace (c' - a') with (- (2 * size)) by lra];
        first [replace (d' - b') with 0 by lra|replace (d' - b') with len by lra|replace (d' - b') with (- len) by lra|replace (d' - b') with (2 * size) by lra|replace (d' - b') with (- (2 * size)) by lra];
        rewrite ?N1, ?N2, ?N3, ?N4, ?M1, ?M2, ?M3, ?M4; rewrite ?E; field; lra
      | |- left_of _ (Circular _ _ _ _ _ _ _) _ => apply circular_left; cbn [turn]; lra
      end|]). destruct H.
  Qed.
End Geometry.
