(** Proofs for GuardProps.v. *)
From Coq Require Import Ascii String DecimalString DecimalNat.
From Verif Require Import Base BaseFacts Dict PyText ResetProofs Guard GuardSpec.
Set Implicit Arguments.
Open Scope nat_scope.

(** ** Lists *)
Lemma omapg_iff {A B} (f : A -> option B) l r : omapg f l = Some r <-> Forall2 (fun a b => f a = Some b) l r.
Proof.
  revert r. induction l as [|a l IH]; intros r; cbn.
  - split; [intros [= <-]; constructor|]. intros H; inversion H; reflexivity.
  - split.
    + destruct (f a) as [b|] eqn:E; cbn [obind]; [|discriminate]. destruct (omapg f l) as [bs|] eqn:El; cbn [obind]; [|discriminate].
      intros [= <-]. constructor; [exact E|]. apply IH. reflexivity.
    + intros H. inversion H as [|? b ? bs E F]; subst. rewrite E. cbn [obind]. apply IH in F. fold (omapg f l). rewrite F. reflexivity.
Qed.

Lemma word_eqb_eq a b : word_eqb a b = true <-> a = b.
Proof.
  revert b. induction a as [|x a IH]; intros [|y b]; cbn; try (split; congruence).
  rewrite andb_true_iff, Ascii.eqb_eq, IH. split; [intros [-> ->]; reflexivity|intros [= -> ->]; auto].
Qed.
Lemma word_eqb_same a : word_eqb a a = true.
Proof. apply word_eqb_eq. reflexivity. Qed.
Lemma existsb_word t ks : existsb (word_eqb t) ks = true <-> In t ks.
Proof.
  rewrite existsb_exists. split; [intros (k & H & E); apply word_eqb_eq in E; subst; exact H|].
  intros H. exists t. split; [exact H|apply word_eqb_same].
Qed.

(** ** Induction on guards *)
Section Ind.
  Variable P : gex -> Prop.
  Hypothesis Hb : forall b, P (GBool b).
  Hypothesis Hn : forall q, P (GNum q).
  Hypothesis Hs : forall t, P (GStr t).
  Hypothesis Hv : forall r, P (GVar r).
  Hypothesis Hneg : forall e, P e -> P (GNeg e).
  Hypothesis Hnot : forall e, P e -> P (GNot e).
  Hypothesis Hbin : forall o l r, P l -> P r -> P (GBin o l r).
  Hypothesis Hcmp : forall o l r, P l -> P r -> P (GCmp o l r).
  Hypothesis Hop : forall b es, Forall P es -> P (GBoolOp b es).
  Hypothesis Hcall : forall f args, P (GCall f args).
  Hypothesis Hlane : forall b l p q, P (GLane b l p q).
  Hypothesis Hred : forall b e x i, P e -> P (GRed b e x i).
  Fixpoint gex_ind' (e : gex) : P e :=
    match e with
    | GBool b => Hb b
    | GNum q => Hn q
    | GStr s => Hs s
    | GVar r => Hv r
    | GNeg a => Hneg (gex_ind' a)
    | GNot a => Hnot (gex_ind' a)
    | GBin o l r => Hbin o (gex_ind' l) (gex_ind' r)
    | GCmp o l r => Hcmp o (gex_ind' l) (gex_ind' r)
    | GBoolOp b es => Hop b ((fix go l := match l return Forall P l with [] => Forall_nil P | a :: l' => Forall_cons a (gex_ind' a) (go l') end) es)
    | GCall f args => Hcall f args
    | GLane b l p q => Hlane b l p q
    | GRed b e x i => Hred b x i (gex_ind' e)
    end.
End Ind.

(** ** Renaming *)
Definition dot_sim (a b : ascii) : Prop := b = a \/ (a = "."%char /\ b = "_"%char).
Lemma dot_sim_refl s : Forall2 dot_sim s s.
Proof. induction s; constructor; [left; reflexivity|assumption]. Qed.
Lemma dot_sim_under s : Forall2 dot_sim s (under s).
Proof.
  induction s as [|c s IH]; [constructor|]. cbn. constructor; [|exact IH].
  destruct (Ascii.eqb_spec c "."%char) as [->|]; [right; auto|left; reflexivity].
Qed.
Lemma prefix_split p s : prefix_of p s = true -> exists r, s = p ++ r.
Proof.
  revert s. induction p as [|a p IH]; intros [|b s]; cbn; try discriminate.
  - intros _. exists []. reflexivity.
  - intros _. exists (b :: s). reflexivity.
  - rewrite andb_true_iff, Ascii.eqb_eq. intros [-> H]. destruct (IH s H) as (r & ->). exists r. reflexivity.
Qed.
Lemma replace_sim k : k <> [] -> forall s n, n <= length s -> Forall2 dot_sim (skipn n s) (replace_from k (under k) n s).
Proof.
  intros Hk. induction s as [|c s IH]; intros n Hn; [destruct n; constructor|].
  destruct n as [|n]; [|cbn; apply IH; cbn in Hn; lia].
  unfold replace_from; fold replace_from. destruct (prefix_of k (c :: s)) eqn:E.
  - destruct (prefix_split _ _ E) as (r & Er). cbn [skipn]. rewrite Er. apply Forall2_app; [apply dot_sim_under|].
    destruct k as [|a k]; [congruence|]. cbn in Er. injection Er as <- Er. rewrite Er. cbn [length pred Nat.sub]; try rewrite Nat.sub_0_r.
    specialize (IH (length k)). rewrite Er in IH. rewrite app_length in IH. specialize (IH ltac:(lia)).
    rewrite skipn_app, skipn_all, Nat.sub_diag in IH. exact IH.
  - cbn [skipn]. constructor; [left; reflexivity|]. apply (IH 0). lia.
Qed.

(** At most one dot. *)
Definition few_dots (t : word) : Prop := dotted t \/ ~ In "."%char t.
Lemma sim_nodot t r : ~ In "."%char t -> Forall2 dot_sim t r -> r = t.
Proof.
  intros H F. induction F as [|a b t r Hab F IH]; [reflexivity|]. destruct Hab as [->|[-> _]]; [|cbn in H; tauto].
  f_equal. apply IH. cbn in H. tauto.
Qed.
Lemma under_nodot t : ~ In "."%char t -> under t = t.
Proof. intros H. exact (sim_nodot H (dot_sim_under t)). Qed.
Lemma under_app a b : under (a ++ b) = under a ++ under b.
Proof. apply map_app. Qed.
Lemma under_no_dot t : ~ In "."%char (under t).
Proof.
  unfold under. rewrite in_map_iff. intros (c & H & _). destruct (Ascii.eqb_spec c "."%char) as [Hc|Hn]; [discriminate|congruence].
Qed.
Lemma sim_few t r : few_dots t -> Forall2 dot_sim t r -> r = t \/ r = under t.
Proof.
  intros [(a & b & -> & Ha & Hb)|H] F; [|left; exact (sim_nodot H F)].
  apply Forall2_app_inv_l in F. destruct F as (ra & r2 & Fa & F & ->). apply Forall2_app_inv_l in F. destruct F as (rd & rb & Fd & Fb & ->).
  apply (@sim_nodot a ra Ha) in Fa. apply (@sim_nodot b rb Hb) in Fb. subst. inversion Fd as [|? d ? l Hd F0]; subst. inversion F0; subst.
  rewrite !under_app. rewrite (@under_nodot a Ha), (@under_nodot b Hb). destruct Hd as [->|[_ ->]]; [left|right]; reflexivity.
Qed.
Lemma replace_few k t : k <> [] -> few_dots t -> replace k (under k) t = t \/ replace k (under k) t = under t.
Proof. intros Hk Ht. apply sim_few; [exact Ht|]. exact (@replace_sim k Hk t 0 (Nat.le_0_l _)). Qed.
Lemma replace_under k t : k <> [] -> replace k (under k) (under t) = under t.
Proof. intros Hk. apply sim_nodot; [apply under_no_dot|]. exact (@replace_sim k Hk (under t) 0 (Nat.le_0_l _)). Qed.

Lemma fold_under ks t : ~ In [] ks -> fold_left (fun t k => replace k (under k) t) ks (under t) = under t.
Proof.
  induction ks as [|k ks IH]; intros H; [reflexivity|]. cbn [fold_left]. rewrite replace_under by (intros ->; apply H; left; reflexivity).
  apply IH. intros Hin. apply H. right. exact Hin.
Qed.
Lemma fold_few ks t : ~ In [] ks -> few_dots t ->
  (fold_left (fun t k => replace k (under k) t) ks t = t \/ fold_left (fun t k => replace k (under k) t) ks t = under t) /\
  (In t ks -> fold_left (fun t k => replace k (under k) t) ks t = under t).
Proof.
  intros H Ht. induction ks as [|k ks IH]; [split; [left; reflexivity|intros []]|]. cbn [fold_left].
  assert (Hk : k <> []) by (intros ->; apply H; left; reflexivity). assert (Hks : ~ In [] ks) by (intros Hin; apply H; right; exact Hin).
  destruct (IH Hks) as [IH1 IH2].
  destruct (@replace_few k t Hk Ht) as [E|E]; rewrite E.
  - split; [exact IH1|]. intros [->|Hin]; [|auto]. rewrite replace_self in E by exact Hk.
    destruct IH1 as [IH1|IH1]; rewrite IH1; [symmetry; exact E|reflexivity].
  - rewrite fold_under by exact Hks. auto.
Qed.
Lemma rename_key ks t : ~ In [] ks -> few_dots t -> In t ks -> rename ks t = under t.
Proof.
  intros H Ht Hin. unfold rename. destruct (@fold_few (rev ks) t) as [_ E]; [rewrite <- in_rev; exact H|exact Ht|].
  apply E. rewrite <- in_rev. exact Hin.
Qed.
Lemma rename_few ks t : ~ In [] ks -> few_dots t -> rename ks t = t \/ rename ks t = under t.
Proof. intros H Ht. unfold rename. apply fold_few; [rewrite <- in_rev; exact H|exact Ht]. Qed.

(** ** Decimal numerals *)
Lemma w_inj a b : w a = w b -> a = b.
Proof. intros H. rewrite <- (String.string_of_list_ascii_of_string a), <- (String.string_of_list_ascii_of_string b). unfold w in H. rewrite H. reflexivity. Qed.
Lemma dec_inj a b : dec a = dec b -> a = b.
Proof.
  intros H. apply w_inj in H. apply Unsigned.to_uint_inj.
  assert (K : forall u, NilEmpty.uint_of_string (NilEmpty.string_of_uint u) = Some u) by apply NilEmpty.usu.
  pose proof (K (Nat.to_uint a)) as Ka. rewrite H, K in Ka. congruence.
Qed.
Lemma dec_nodot n : ~ In "."%char (dec n).
Proof.
  unfold dec. induction (Nat.to_uint n); cbn; try tauto; intros [H|H]; try discriminate; auto.
Qed.
Lemma tmp_nodot n : ~ In "."%char (w "tmp_variable" ++ dec n).
Proof. rewrite in_app_iff. intros [H|H]; [cbn in H; intuition discriminate|exact (dec_nodot n H)]. Qed.
Lemma dotted_dot t : dotted t -> In "."%char t.
Proof. intros (a & b & -> & _). apply in_app_iff. right. left. reflexivity. Qed.

(** ** Meaning *)
Section Sem.
  Variable num : Type.
  Variable of_q : Q -> num.
  Variable n_neg : num -> num.
  Variable n_bin : binop -> num -> num -> num.
  Variable n_cmp : cmpop -> num -> num -> bool.
  Variable call : word -> list dval -> option dval.
  Variable coord : bool -> word -> num -> num -> option num.
  Variable phys : word -> word.
  Hypothesis agree : numbers_agree of_q n_neg n_cmp.

  Notation gval := (gval num).
  Notation env := (env num).
  Notation geval := (geval of_q n_neg n_bin n_cmp call coord phys).
  Notation of_d := (of_d of_q).

  Lemma eval_op E b es u : geval E (GBoolOp b es) = Some u ->
    exists bs, Forall2 (fun e x => geval E e = Some (VB num x)) es bs /\ u = VB num (junction b bs).
  Proof.
    cbn [GuardSpec.geval]. intros H. destruct (omapg (geval E) es) as [vs|] eqn:Ev; [|discriminate]. cbn [obind] in H.
    destruct (omapg (@as_bool num) vs) as [bs|] eqn:Eb; [|discriminate]. injection H as <-. exists bs. split; [|reflexivity].
    apply omapg_iff in Ev, Eb. revert bs Eb. induction Ev as [|e v es vs He F IH]; intros bs Eb; inversion Eb as [|? x ? bs' Hx F' ]; subst; constructor.
    - destruct v; try discriminate. injection Hx as ->. exact He.
    - apply IH. exact F'.
  Qed.
  Lemma eval_op_intro E b es bs : Forall2 (fun e x => geval E e = Some (VB num x)) es bs -> geval E (GBoolOp b es) = Some (VB num (junction b bs)).
  Proof.
    intros F. cbn [GuardSpec.geval].
    assert (Ev : omapg (geval E) es = Some (map (@VB num) bs)). { apply omapg_iff. induction F; constructor; assumption. }
    assert (Eb : omapg (@as_bool num) (map (@VB num) bs) = Some bs). { apply omapg_iff. clear. induction bs; constructor; auto. }
    rewrite Ev. cbn [obind]. rewrite Eb. reflexivity.
  Qed.

  (** ** The discrete part *)
  Section Disc.
    Variable dd : dict word word.
    Variable E : env.
    (** The discrete variables have their values; the other variables are numbers. *)
    Hypothesis E_disc : forall r v, dlook dd r = Some v -> look E r = Some (VS num v).
    Hypothesis E_cont : forall r u, dlook dd r = None -> look E r = Some u -> exists x, u = VN x.
    Notation disc := (disc call dd).

    (** What a value and a new node say about the value of the old node. *)
    Definition dsound (p : dval * gex) (u : gval) : Prop :=
      match fst p with
      | DB b => geval E (snd p) = Some u /\ (b = false -> u = VB num false) /\ (forall s, u <> VS num s)
      | DN q => geval E (snd p) = Some u /\ u = VN (of_q q)
      | DS s => u = VS num s
      end.
    Lemma dsound_bool p b : dsound p (VB num b) -> geval E (snd p) = Some (VB num b) /\ exists c, fst p = DB c /\ (c = false -> b = false).
    Proof.
      unfold dsound. destruct (fst p) as [c|q|s]; [|intros [_ H]; discriminate|discriminate].
      intros (H1 & H2 & _). split; [exact H1|]. exists c. split; [reflexivity|]. intros Hc. specialize (H2 Hc). congruence.
    Qed.
    Lemma dsound_num p x : dsound p (VN x) -> geval E (snd p) = Some (VN x).
    Proof. unfold dsound. destruct (fst p) as [c|q|s]; [tauto|tauto|discriminate]. Qed.

    Lemma disc_and_sound es : forall bs b0 r,
      Forall (fun e => forall p u, disc e = Some p -> geval E e = Some u -> dsound p u) es ->
      Forall2 (fun e x => geval E e = Some (VB num x)) es bs ->
      disc_and disc (DB b0) es = Some r ->
      exists b, fst r = DB b /\
        match snd r with
        | Some es' => Forall2 (fun e x => geval E e = Some (VB num x)) es' bs
        | None => b = false
        end /\ (b = false -> b0 = false \/ forallb id bs = false).
    Proof.
      induction es as [|e es IH]; intros bs b0 r HF HV H.
      - inversion HV; subst. cbn in H. injection H as <-. exists b0. cbn. split; [reflexivity|]. split; [constructor|auto].
      - inversion HV as [|? x ? bs' Hx HV']; subst. inversion HF as [|? ? He HF']; subst. cbn in H. fold (disc_and disc) in H.
        destruct (disc e) as [p|] eqn:Ep; [|discriminate]. cbn [obind] in H.
        destruct (dsound_bool _ _ (He p _ eq_refl Hx)) as (Hp & c & Ec & Hc).
        cbn [truthy] in H. destruct b0.
        + rewrite Ec in H. cbn [truthy] in H. destruct c.
          * destruct (disc_and disc (DB true) es) as [q|] eqn:Eq; [|discriminate]. injection H as <-.
            destruct (IH bs' true q HF' HV' Eq) as (b & E1 & E2 & E3). exists b. cbn [fst snd]. split; [exact E1|]. split.
            -- destruct (snd q); cbn [option_map]; [constructor; [exact Hp|exact E2]|exact E2].
            -- intros Hb. destruct (E3 Hb) as [|E4]; [discriminate|]. right. cbn. rewrite E4. apply andb_false_r.
          * injection H as <-. exists false. cbn [fst snd]. split; [reflexivity|]. split; [reflexivity|]. intros _. right. cbn. rewrite (Hc eq_refl). reflexivity.
        + injection H as <-. exists false. cbn [fst snd]. split; [reflexivity|]. split; [reflexivity|]. auto.
    Qed.
    Lemma disc_or_sound es : forall bs b0 r,
      Forall (fun e => forall p u, disc e = Some p -> geval E e = Some u -> dsound p u) es ->
      Forall2 (fun e x => geval E e = Some (VB num x)) es bs ->
      disc_or disc (DB b0) es = Some r ->
      exists b, fst r = DB b /\ Forall2 (fun e x => geval E e = Some (VB num x)) (snd r) bs /\
        (b = false -> b0 = false /\ existsb id bs = false).
    Proof.
      induction es as [|e es IH]; intros bs b0 r HF HV H.
      - inversion HV; subst. cbn in H. injection H as <-. exists b0. cbn. split; [reflexivity|]. split; [constructor|auto].
      - inversion HV as [|? x ? bs' Hx HV']; subst. inversion HF as [|? ? He HF']; subst. cbn in H. fold (disc_or disc) in H.
        destruct (disc e) as [p|] eqn:Ep; [|discriminate]. cbn [obind] in H.
        destruct (dsound_bool _ _ (He p _ eq_refl Hx)) as (Hp & c & Ec & Hc). rewrite Ec in H.
        assert (Eb : (if b0 then DB b0 else DB c) = DB (b0 || c)) by (destruct b0; reflexivity). rewrite Eb in H.
        destruct (disc_or disc (DB (b0 || c)) es) as [q|] eqn:Eq; [|discriminate]. injection H as <-.
        destruct (IH bs' _ q HF' HV' Eq) as (b & E1 & E2 & E3). exists b. cbn [fst snd]. split; [exact E1|]. split; [constructor; assumption|].
        intros Hb. destruct (E3 Hb) as [E4 E5]. apply orb_false_iff in E4. destruct E4 as [-> Hc0]. split; [reflexivity|]. cbn. rewrite (Hc Hc0). exact E5.
    Qed.

    Lemma args_sound args vs :
      omapg (arg_val dd) args = Some vs ->
      omapg (fun a => match a with
                      | AVar r => do v <- look E r; option_map DS (as_str v)
                      | AStr s => Some (DS s)
                      | ANum q => Some (DN q)
                      end) args = Some vs.
    Proof.
      rewrite !omapg_iff. intros F. induction F as [|a v args vs Ha F IH]; constructor; [|exact IH].
      destruct a as [r|s|q]; cbn [arg_val] in Ha; try exact Ha. destruct (dlook dd r) as [x|] eqn:Ed; [|discriminate]. injection Ha as <-.
      rewrite (E_disc _ Ed). reflexivity.
    Qed.

    Lemma disc_sound e : forall p u, disc e = Some p -> geval E e = Some u -> dsound p u.
    Proof.
      induction e using gex_ind'; intros pv u Hd He.
      - injection Hd as <-. injection He as <-. cbn. split; [reflexivity|]. split; [congruence|discriminate].
      - injection Hd as <-. injection He as <-. split; reflexivity.
      - injection Hd as <-. injection He as <-. reflexivity.
      - cbn in Hd, He. injection Hd as <-. unfold dsound. cbn [fst snd]. destruct (dlook dd r) as [v|] eqn:Ed.
        + rewrite (E_disc _ Ed) in He. congruence.
        + destruct (E_cont _ Ed He) as (x & ->). split; [exact He|]. split; discriminate.
      - cbn in Hd, He. destruct (disc e) as [q|] eqn:Eq; [|discriminate]. injection Hd as <-.
        destruct (geval E e) as [v|] eqn:Ev; [|discriminate]. cbn [obind] in He. destruct v as [|x|]; try discriminate. injection He as <-.
        specialize (IHe q _ eq_refl eq_refl). apply dsound_num in IHe. cbn. rewrite IHe. cbn. split; [reflexivity|]. split; discriminate.
      - cbn in Hd, He. destruct (disc e) as [q|] eqn:Eq; [|discriminate]. injection Hd as <-.
        destruct (geval E e) as [v|] eqn:Ev; [|discriminate]. cbn [obind] in He. destruct v as [b|x|]; try discriminate. injection He as <-.
        specialize (IHe q _ eq_refl eq_refl). apply dsound_bool in IHe. destruct IHe as (H1 & c & Ec & Hc). rewrite Ec. cbn [truthy].
        unfold dsound. cbn [fst snd]. split; [|split; [discriminate|discriminate]]. destruct c; cbn [GuardSpec.geval].
        + rewrite H1. reflexivity.
        + rewrite (Hc eq_refl). reflexivity.
      - cbn in Hd, He. destruct (disc e1) as [q1|] eqn:Eq1; [|discriminate]. cbn [obind] in Hd. destruct (disc e2) as [q2|] eqn:Eq2; [|discriminate]. injection Hd as <-.
        destruct (geval E e1) as [v1|] eqn:Ev1; [|discriminate]. cbn [obind] in He. destruct (geval E e2) as [v2|] eqn:Ev2; [|discriminate]. cbn [obind] in He.
        destruct v1 as [|x|]; try discriminate. destruct v2 as [|y|]; try discriminate. injection He as <-.
        pose proof (dsound_num _ _ (IHe1 q1 _ eq_refl eq_refl)) as H1. pose proof (dsound_num _ _ (IHe2 q2 _ eq_refl eq_refl)) as H2.
        cbn. rewrite H1, H2. cbn. split; [reflexivity|]. split; discriminate.
      - cbn in Hd, He. destruct (disc e1) as [q1|] eqn:Eq1; [|discriminate]. cbn [obind] in Hd. destruct (disc e2) as [q2|] eqn:Eq2; [|discriminate]. cbn [obind] in Hd.
        destruct (geval E e1) as [v1|] eqn:Ev1; [|discriminate]. cbn [obind] in He. destruct (geval E e2) as [v2|] eqn:Ev2; [|discriminate]. cbn [obind] in He.
        pose proof (IHe1 q1 _ eq_refl eq_refl) as H1. pose proof (IHe2 q2 _ eq_refl eq_refl) as H2.
        destruct (is_bool (fst q1) || is_bool (fst q2)) eqn:Eb.
        + injection Hd as <-. unfold dsound. cbn [fst snd GuardSpec.geval].
          assert (NS : (forall s, v1 <> VS num s) \/ (forall s, v2 <> VS num s)).
          { unfold dsound in H1, H2. destruct (fst q1), (fst q2); try discriminate Eb; tauto. }
          destruct v1 as [b1|x|s], v2 as [b2|y|t]; try discriminate He.
          * rewrite (dsound_num _ _ H1), (dsound_num _ _ H2). cbn [obind]. split; [exact He|]. injection He as <-. split; discriminate.
          * exfalso. destruct NS as [N|N]; exact (N _ eq_refl).
        + destruct (dcmp o (fst q1) (fst q2)) as [b|] eqn:Ec; [|discriminate]. injection Hd as <-. unfold dsound. cbn [fst snd GuardSpec.geval].
          assert (Hu : u = VB num b).
          { unfold dsound in H1, H2. destruct (fst q1) as [|x|s]; [discriminate| |]; destruct (fst q2) as [|y|t]; try discriminate.
            - destruct H1 as [_ ->], H2 as [_ ->]. destruct agree as (Ha & _ & _). rewrite Ha in He. cbn in Ec. congruence.
            - subst. cbn in Ec. rewrite Ec in He. cbn in He. congruence. }
          subst u. split; [reflexivity|]. split; [congruence|discriminate].
      - destruct (eval_op _ _ _ He) as (bs & HV & ->). destruct b; cbn in Hd.
        + fold (disc_and disc) in Hd. destruct (disc_and disc (DB true) es) as [r|] eqn:Er; [|discriminate]. injection Hd as <-.
          destruct (disc_and_sound true H HV Er) as (b & E1 & E2 & E3). unfold dsound. cbn [fst snd]. rewrite E1. destruct (snd r) as [es'|].
          * split; [apply eval_op_intro; exact E2|]. split; [|discriminate]. intros Hb. destruct (E3 Hb) as [|E4]; [discriminate|]. cbn. rewrite E4. reflexivity.
          * destruct (E3 E2) as [|E4]; [discriminate|]. cbn. rewrite E4. split; [reflexivity|]. split; [reflexivity|discriminate].
        + fold (disc_or disc) in Hd. destruct (disc_or disc (DB false) es) as [r|] eqn:Er; [|discriminate]. injection Hd as <-.
          destruct (disc_or_sound false H HV Er) as (b & E1 & E2 & E3). unfold dsound. cbn [fst snd]. rewrite E1.
          split; [apply eval_op_intro; exact E2|]. split; [|discriminate]. intros Hb. destruct (E3 Hb) as [_ E4]. cbn. rewrite E4. reflexivity.
      - cbn in Hd, He. destruct (existsb is_var args); [|discriminate]. destruct (omapg (arg_val dd) args) as [vs|] eqn:Ea; [|discriminate].
        cbn [obind] in Hd. destruct (call f vs) as [v|] eqn:Ec; [|discriminate]. injection Hd as <-.
        rewrite (args_sound _ Ea) in He. cbn [obind] in He. rewrite Ec in He. injection He as <-.
        unfold dsound. cbn [fst snd]. destruct v as [b|q|s]; cbn.
        + split; [reflexivity|]. split; [congruence|discriminate].
        + split; [|reflexivity]. destruct (Qle_bool 0 q); cbn; [reflexivity|]. destruct agree as (_ & Hn & _). rewrite Hn. reflexivity.
        + reflexivity.
      - cbn in Hd. injection Hd as <-. unfold dsound. cbn [fst snd]. split; [exact He|]. cbn in He.
        destruct (lane_of phys E l); [|discriminate]. cbn [obind] in He. destruct (look E p) as [[| |]|]; try discriminate; cbn [obind] in He;
        destruct (look E q) as [[| |]|]; try discriminate; cbn [obind as_num] in He. destruct (coord b l0 x x0); [|discriminate]. injection He as <-. split; discriminate.
      - discriminate.
    Qed.
  End Disc.

  (** ** The lane coordinates *)
  Notation cdict := (dict word (num * num)).
  Notation keys := (map (@fst word (num * num))).
  Notation inside := (inside n_cmp).
  Notation flat := (@flat num).

  Lemma flat_look dd ks s r : look (flat dd ks s) r = value_of dd ks s (text r).
  Proof. destruct r; reflexivity. Qed.

  Section Mono.
    Variables E E' : env.
    Hypothesis up : forall r v, look E r = Some v -> look E' r = Some v.
    Hypothesis str : forall r s, look E' r = Some (VS num s) -> look E r = Some (VS num s).
    Hypothesis nol : forall i, e_list E i = None.
    Lemma geval_mono e : forall u, geval E e = Some u -> geval E' e = Some u.
    Proof.
      induction e using gex_ind'; intros u He; try exact He.
      - exact (up _ He).
      - cbn in *. destruct (geval E e) as [v|]; [|discriminate]. rewrite (IHe v eq_refl). exact He.
      - cbn in *. destruct (geval E e) as [v|]; [|discriminate]. rewrite (IHe v eq_refl). exact He.
      - cbn in *. destruct (geval E e1) as [v|]; [|discriminate]. rewrite (IHe1 v eq_refl). cbn [obind] in *. destruct (geval E e2) as [v2|]; [|discriminate]. rewrite (IHe2 v2 eq_refl). exact He.
      - cbn in *. destruct (geval E e1) as [v|]; [|discriminate]. rewrite (IHe1 v eq_refl). cbn [obind] in *. destruct (geval E e2) as [v2|]; [|discriminate]. rewrite (IHe2 v2 eq_refl). exact He.
      - destruct (eval_op _ _ _ He) as (bs & HV & ->). apply eval_op_intro. clear He. induction HV as [|e x es bs Hx HV IH]; [constructor|].
        inversion H; subst. constructor; [auto|]. apply IH. assumption.
      - cbn in *. match type of He with (do _ <- ?m; _) = _ => destruct m as [vs|] eqn:Ea; [|discriminate] end. cbn [obind] in He.
        match goal with |- (do _ <- ?m; _) = _ => assert (Ea' : m = Some vs) end.
        { rewrite omapg_iff in Ea |- *. clear He. induction Ea as [|a v args vs Ha F IH]; constructor; [|exact IH].
          destruct a as [r|t|q]; try exact Ha. destruct (look E r) as [z|] eqn:Er; [|discriminate]. rewrite (up _ Er). exact Ha. }
        rewrite Ea'. exact He.
      - cbn in *. assert (El : forall k, lane_of phys E l = Some k -> lane_of phys E' l = Some k).
        { intros k. unfold lane_of. destruct (look E l) as [[b0|x|t]|] eqn:El.
          - rewrite (up _ El). auto.
          - rewrite (up _ El). auto.
          - rewrite (up _ El). auto.
          - destruct (look E' l) as [[b0|x|t]|] eqn:El'; auto. rewrite (str _ El') in El. discriminate. }
        destruct (lane_of phys E l) as [k|]; [|discriminate]. rewrite (El k eq_refl). cbn [obind] in *.
        destruct (look E p) as [x|] eqn:Ep; [|discriminate]. rewrite (up _ Ep). cbn [obind] in *.
        destruct (look E q) as [y|] eqn:Eq; [|discriminate]. rewrite (up _ Eq). exact He.
      - cbn in He. rewrite nol in He. discriminate.
    Qed.
  End Mono.

  Section Hyb.
    Variable dd : dict word word.
    Variable coord_set : bool -> word -> num * num -> num * num -> option (num * num).
    Hypothesis csound : coord_sound n_cmp coord coord_set.
    Hypothesis dd_dotted : forall k, In k (map fst dd) -> dotted k.
    Notation hyb := (hyb dd phys coord_set).

    Variable base : list word.
    Hypothesis base_dotted : forall k, In k base -> dotted k.
    Definition named (cd : cdict) : Prop :=
      forall k, In k (keys cd) -> In k base \/ exists i, i <= length cd /\ k = w "tmp_variable" ++ dec i.

    Lemma tmp_dd i : dget word_eqb (w "tmp_variable" ++ dec i) dd = None.
    Proof. apply dget_None; [exact word_eqb_eq|]. intros H. apply dd_dotted, dotted_dot in H. exact (tmp_nodot i H). Qed.
    Lemma tmp_fresh cd : named cd -> ~ In (tmp_name cd) (keys cd).
    Proof.
      intros H Hin. unfold tmp_name in Hin. destruct (H _ Hin) as [Hd|(i & Hi & E)].
      - apply base_dotted, dotted_dot in Hd. exact (tmp_nodot _ Hd).
      - apply app_inv_head in E. apply dec_inj in E. lia.
    Qed.
    Lemma dset_fresh {V} k (v : V) d : ~ In k (map fst d) -> dset word_eqb k v d = d ++ [(k, v)].
    Proof.
      intros H. unfold dset. induction d as [|[k' v'] d IH]; cbn; [reflexivity|]. cbn in H.
      destruct (word_eqb k k') eqn:E; [apply word_eqb_eq in E; subst; tauto|]. f_equal. apply IH. tauto.
    Qed.

    (** [s'] extends [s] from the variables of [cd] to those of [cd']. *)
    Definition ext (cd : cdict) (s : word -> num) (cd' : cdict) (s' : word -> num) : Prop :=
      (forall k, In k (keys cd) -> s' k = s k) /\ (exists tl, cd' = cd ++ tl) /\ named cd' /\ inside cd' s'.
    Lemma ext_refl cd s : named cd -> inside cd s -> ext cd s cd s.
    Proof. intros H1 H2. split; [auto|]. split; [exists []; rewrite app_nil_r; reflexivity|auto]. Qed.
    Lemma ext_trans c1 s1 c2 s2 c3 s3 : ext c1 s1 c2 s2 -> ext c2 s2 c3 s3 -> ext c1 s1 c3 s3.
    Proof.
      intros (H1 & (t1 & ->) & _) (H3 & (t2 & ->) & H4). split; [|split; [|exact H4]].
      - intros k Hk. rewrite H3, H1; auto. rewrite map_app, in_app_iff. auto.
      - exists (t1 ++ t2). rewrite app_assoc. reflexivity.
    Qed.
    Lemma ext_eval cd s cd' s' e u : ext cd s cd' s' -> geval (flat dd (keys cd) s) e = Some u -> geval (flat dd (keys cd') s') e = Some u.
    Proof.
      intros (H1 & (tl & ->) & H4 & _). apply geval_mono; [..|reflexivity]; intros r v; rewrite !flat_look; unfold value_of; destruct (dget word_eqb (text r) dd); auto.
      - destruct (existsb (word_eqb (text r)) (keys cd)) eqn:Ek; [|discriminate]. intros [= <-]. apply existsb_word in Ek.
        rewrite (H1 _ Ek). replace (existsb (word_eqb (text r)) (keys (cd ++ tl))) with true; [reflexivity|]. symmetry. apply existsb_word.
        rewrite map_app, in_app_iff. auto.
      - destruct (existsb (word_eqb (text r)) (keys (cd ++ tl))); discriminate.
    Qed.

    Definition vsound (v : dval) (u : gval) : Prop :=
      match v with DB b => b = false -> u = VB num false | DN _ => exists x, u = VN x | DS _ => exists t, u = VS num t end.
    Definition hsound (cd : cdict) (s : word -> num) (u : gval) (r : hyb_res (num * num)) : Prop :=
      exists s', ext cd s (hr_cd r) s' /\
        geval (flat dd (keys (hr_cd r)) s') (hr_new r) = Some u /\
        (forall b, u = VB num b -> geval (flat dd (keys (hr_cd r)) s') (hr_old r) = Some u) /\
        vsound (hr_val r) u.
    Definition hyb_ok (e : gex) : Prop :=
      forall cd s u r, named cd -> inside cd s -> geval (flat dd (keys cd) s) e = Some u -> hyb cd e = Some r -> hsound cd s u r.
    Notation bools E := (Forall2 (fun e x => geval E e = Some (VB num x))).

    Lemma bools_ext cd s cd' s' es bs : ext cd s cd' s' -> bools (flat dd (keys cd) s) es bs -> bools (flat dd (keys cd') s') es bs.
    Proof. intros X F. induction F as [|e x es bs H F IH]; constructor; [exact (ext_eval _ X H)|exact IH]. Qed.

    Lemma hyb_and_sound es : Forall hyb_ok es -> forall cd s bs b0 r,
      named cd -> inside cd s -> bools (flat dd (keys cd) s) es bs -> hyb_and hyb cd (DB b0) es = Some r ->
      exists s' b, ext cd s (snd r) s' /\ bools (flat dd (keys (snd r)) s') (snd (fst r)) bs /\
        fst (fst r) = DB b /\ (b = false -> b0 = false \/ forallb id bs = false).
    Proof.
      induction 1 as [|e es He _ IH]; intros cd s bs b0 r Hn Hi HV H.
      - inversion HV; subst. cbn in H. injection H as <-. exists s, b0. cbn [fst snd]. split; [apply ext_refl; assumption|]. split; [constructor|auto].
      - inversion HV as [|? x ? bs' Hx HV']; subst. cbn in H. fold (hyb_and hyb) in H. destruct (hyb cd e) as [p|] eqn:Ep; [|discriminate]. cbn [obind] in H.
        destruct (He cd s _ p Hn Hi Hx Ep) as (s1 & X & G1 & _ & Vp). unfold vsound in Vp.
        destruct (hr_val p) as [c|q|t]; [|destruct Vp; discriminate|destruct Vp; discriminate].
        cbn [truthy] in H.
        assert (Er : (if b0 then DB c else DB b0) = DB (b0 && c)) by (destruct b0; reflexivity). rewrite Er in H. cbn [truthy] in H.
        destruct (b0 && c) eqn:Ebc.
        + destruct (hyb_and hyb (hr_cd p) (DB true) es) as [q|] eqn:Eq; [|discriminate]. injection H as <-.
          pose proof X as (_ & _ & Hn1 & Hi1).
          destruct (IH (hr_cd p) s1 bs' true q Hn1 Hi1 (bools_ext X HV') Eq) as (s2 & b & X2 & G2 & Eb & Hb).
          exists s2, b. cbn [fst snd]. split; [exact (ext_trans X X2)|]. split; [constructor; [exact (ext_eval _ X2 G1)|exact G2]|]. split; [exact Eb|].
          intros E0. destruct (Hb E0) as [|E1]; [discriminate|]. right. cbn. rewrite E1. apply andb_false_r.
        + injection H as <-. exists s1, false. cbn [fst snd]. split; [exact X|]. split; [constructor; [exact G1|exact (bools_ext X HV')]|]. split; [reflexivity|].
          intros _. destruct b0; [|left; reflexivity]. cbn in Ebc. subst c. right. specialize (Vp eq_refl). injection Vp as ->. reflexivity.
    Qed.
    Lemma hyb_or_sound es : Forall hyb_ok es -> forall cd s bs b0 r,
      named cd -> inside cd s -> bools (flat dd (keys cd) s) es bs -> hyb_or hyb cd (DB b0) es = Some r ->
      exists s' b, ext cd s (snd r) s' /\ bools (flat dd (keys (snd r)) s') (snd (fst r)) bs /\
        fst (fst r) = DB b /\ (b = false -> b0 = false /\ existsb id bs = false).
    Proof.
      induction 1 as [|e es He _ IH]; intros cd s bs b0 r Hn Hi HV H.
      - inversion HV; subst. cbn in H. injection H as <-. exists s, b0. cbn [fst snd]. split; [apply ext_refl; assumption|]. split; [constructor|auto].
      - inversion HV as [|? x ? bs' Hx HV']; subst. cbn in H. fold (hyb_or hyb) in H. destruct (hyb cd e) as [p|] eqn:Ep; [|discriminate]. cbn [obind] in H.
        destruct (He cd s _ p Hn Hi Hx Ep) as (s1 & X & _ & G1 & Vp). specialize (G1 _ eq_refl). unfold vsound in Vp.
        destruct (hr_val p) as [c|q|t]; [|destruct Vp; discriminate|destruct Vp; discriminate].
        cbn [truthy] in H.
        assert (Er : (if b0 then DB b0 else DB c) = DB (b0 || c)) by (destruct b0; reflexivity). rewrite Er in H. 
        destruct (hyb_or hyb (hr_cd p) (DB (b0 || c)) es) as [q|] eqn:Eq; [|discriminate]. injection H as <-.
        pose proof X as (_ & _ & Hn1 & Hi1).
        destruct (IH (hr_cd p) s1 bs' _ q Hn1 Hi1 (bools_ext X HV') Eq) as (s2 & b & X2 & G2 & Eb & Hb).
        exists s2, b. cbn [fst snd]. split; [exact (ext_trans X X2)|]. split; [constructor; [exact (ext_eval _ X2 G1)|exact G2]|]. split; [exact Eb|].
        intros E0. destruct (Hb E0) as [E1 E2]. apply orb_false_iff in E1. destruct E1 as [-> ->]. split; [reflexivity|].
        specialize (Vp eq_refl). injection Vp as ->. exact E2.
    Qed.

    Lemma hyb_sound e : hyb_ok e.
    Proof.
      induction e using gex_ind'; intros cd s u res Hn Hi He Hh.
      - injection Hh as <-. injection He as <-. exists s. cbn. split; [apply ext_refl; assumption|]. split; [reflexivity|]. split; [reflexivity|]. congruence.
      - injection Hh as <-. injection He as <-. exists s. cbn. split; [apply ext_refl; assumption|]. split; [reflexivity|]. split; [reflexivity|]. eauto.
      - injection Hh as <-. injection He as <-. exists s. cbn. split; [apply ext_refl; assumption|]. split; [reflexivity|]. split; [reflexivity|]. eauto.
      - injection Hh as <-. exists s. split; [apply ext_refl; assumption|]. split; [exact He|]. split; [intros; exact He|]. cbn. discriminate.
      - cbn in Hh, He. destruct (hyb cd e) as [p|] eqn:Ep; [|discriminate]. injection Hh as <-.
        destruct (geval (flat dd (keys cd) s) e) as [v|] eqn:Ev; [|discriminate]. cbn [obind] in He. destruct v as [|x|]; try discriminate. injection He as <-.
        destruct (IHe cd s _ p Hn Hi Ev Ep) as (s1 & X & G & _ & _). exists s1. cbn [hr_cd hr_new hr_old hr_val fst snd GuardSpec.geval] in *. 
        split; [exact X|]. rewrite G. split; [reflexivity|]. split; [reflexivity|]. discriminate.
      - cbn in Hh, He. destruct (hyb cd e) as [p|] eqn:Ep; [|discriminate].
        destruct (geval (flat dd (keys cd) s) e) as [v|] eqn:Ev; [|discriminate]. cbn [obind] in He. destruct v as [b|x|]; try discriminate. injection He as <-.
        destruct (IHe cd s _ p Hn Hi Ev Ep) as (s1 & X & G & _ & V). cbn [obind] in Hh. destruct (truthy (hr_val p)) eqn:Et; injection Hh as <-; exists s1; cbn [hr_cd hr_new hr_old hr_val fst snd GuardSpec.geval] in *.
        + split; [exact X|]. rewrite G. split; [reflexivity|]. split; [reflexivity|]. discriminate.
        + assert (b = false) as ->. { unfold vsound, hr_val in *. destruct (fst (fst (fst p))) as [c|q|t]; [|destruct V; discriminate|destruct V; discriminate]. cbn in Et. specialize (V Et). congruence. }
          split; [exact X|]. split; [reflexivity|]. split; [reflexivity|]. discriminate.
      - cbn in Hh, He. destruct (hyb cd e1) as [p|] eqn:Ep; [|discriminate]. cbn [obind] in Hh. destruct (hyb (hr_cd p) e2) as [q|] eqn:Eq; [|discriminate]. injection Hh as <-.
        destruct (geval (flat dd (keys cd) s) e1) as [v1|] eqn:Ev1; [|discriminate]. cbn [obind] in He. destruct (geval (flat dd (keys cd) s) e2) as [v2|] eqn:Ev2; [|discriminate].
        cbn [obind] in He.
        destruct (IHe1 cd s _ p Hn Hi Ev1 Ep) as (s1 & X & G & _ & _). pose proof X as (_ & _ & Hn1 & Hi1).
        destruct (IHe2 (hr_cd p) s1 v2 q Hn1 Hi1 (ext_eval _ X Ev2) Eq) as (s2 & X2 & G2 & _ & _).
        exists s2. cbn [hr_cd hr_new hr_old hr_val fst snd GuardSpec.geval] in *. split; [exact (ext_trans X X2)|].
        pose proof (ext_eval _ X2 G) as G1. cbn [hr_cd hr_new] in G1. rewrite G1, G2. cbn [obind]. split; [exact He|]. split; [intros; exact He|]. discriminate.
      - cbn in Hh, He. destruct (hyb cd e1) as [p|] eqn:Ep; [|discriminate]. cbn [obind] in Hh. destruct (hyb (hr_cd p) e2) as [q|] eqn:Eq; [|discriminate]. injection Hh as <-.
        destruct (geval (flat dd (keys cd) s) e1) as [v1|] eqn:Ev1; [|discriminate]. cbn [obind] in He. destruct (geval (flat dd (keys cd) s) e2) as [v2|] eqn:Ev2; [|discriminate].
        cbn [obind] in He.
        destruct (IHe1 cd s _ p Hn Hi Ev1 Ep) as (s1 & X & G & _ & _). pose proof X as (_ & _ & Hn1 & Hi1).
        destruct (IHe2 (hr_cd p) s1 v2 q Hn1 Hi1 (ext_eval _ X Ev2) Eq) as (s2 & X2 & G2 & _ & _).
        exists s2. cbn [hr_cd hr_new hr_old hr_val fst snd GuardSpec.geval] in *. split; [exact (ext_trans X X2)|].
        pose proof (ext_eval _ X2 G) as G1. cbn [hr_cd hr_new] in G1. rewrite G1, G2. cbn [obind]. split; [exact He|]. split; [intros; exact He|]. discriminate.
      - destruct (eval_op _ _ _ He) as (bs & HV & ->). destruct b; cbn in Hh.
        + fold (hyb_and hyb) in Hh. destruct (hyb_and hyb cd (DB true) es) as [q|] eqn:Eq; [|discriminate]. injection Hh as <-.
          destruct (hyb_and_sound H true Hn Hi HV Eq) as (s1 & b & X & G & Eb & Hb). exists s1. cbn [hr_cd hr_new hr_old hr_val fst snd] in *.
          split; [exact X|]. split; [apply eval_op_intro; exact G|]. split; [intros; apply eval_op_intro; exact G|]. rewrite Eb. cbn. intros E0.
          destruct (Hb E0) as [|E1]; [discriminate|]. rewrite E1. reflexivity.
        + fold (hyb_or hyb) in Hh. destruct (hyb_or hyb cd (DB false) es) as [q|] eqn:Eq; [|discriminate]. injection Hh as <-.
          destruct (hyb_or_sound H false Hn Hi HV Eq) as (s1 & b & X & G & Eb & Hb). exists s1. cbn [hr_cd hr_new hr_old hr_val fst snd] in *.
          split; [exact X|]. split; [apply eval_op_intro; exact G|]. split; [intros; apply eval_op_intro; exact G|]. rewrite Eb. cbn. intros E0.
          destruct (Hb E0) as [_ E1]. rewrite E1. reflexivity.
      - discriminate.
      - cbn [Guard.hyb] in Hh. cbn in He. destruct (dget word_eqb (text p) cd) as [[xl xh]|] eqn:Ex; [|discriminate]. cbn [obind] in Hh.
        destruct (dget word_eqb (text q) cd) as [[yl yh]|] eqn:Ey; [|discriminate]. cbn [obind] in Hh.
        destruct (coord_set b (lane_key dd phys l) (xl, xh) (yl, yh)) as [[lo hi]|] eqn:Ec; [|discriminate]. injection Hh as <-.
        destruct (lane_of phys (flat dd (keys cd) s) l) as [k|] eqn:Ek; [|discriminate]. cbn [obind] in He. rewrite !flat_look in He. 
        assert (Val : forall t lo hi, dget word_eqb t cd = Some (lo, hi) -> forall v x, value_of dd (keys cd) s t = Some v -> as_num v = Some x ->
                  x = s t /\ n_cmp OLe lo x = true /\ n_cmp OLe x hi = true).
        { intros t lo' hi' Hg v x. unfold value_of. destruct (dget word_eqb t dd) as [|]; [intros [= <-]; discriminate|].
          destruct (existsb (word_eqb t) (keys cd)); [|discriminate]. intros [= <-] [= <-]. split; [reflexivity|]. apply Hi. apply dget_In in Hg; [exact Hg|exact word_eqb_eq]. }
        destruct (value_of dd (keys cd) s (text p)) as [v1|] eqn:V1; [|discriminate]. cbn [obind] in He.
        destruct (value_of dd (keys cd) s (text q)) as [v2|] eqn:V2; [|discriminate]. cbn [obind] in He.
        destruct (as_num v1) as [x|] eqn:A1; [|discriminate]. cbn [obind] in He. destruct (as_num v2) as [y|] eqn:A2; [|discriminate]. cbn [obind] in He.
        destruct (Val _ _ _ Ex _ _ V1 A1) as (_ & X1 & X2). destruct (Val _ _ _ Ey _ _ V2 A2) as (_ & Y1 & Y2).
        destruct (coord b k x y) as [c|] eqn:Eco; [|discriminate]. injection He as <-.
        assert (Hk : lane_key dd phys l = k).
        { unfold lane_of in Ek. rewrite flat_look in Ek. unfold value_of in Ek. unfold lane_key, dlook. destruct (dget word_eqb (text l) dd) as [z|]; [congruence|].
          destruct (existsb (word_eqb (text l)) (keys cd)); destruct l as [o a|n]; try discriminate; (destruct (existsb _ n); [discriminate|]); injection Ek as <-; reflexivity. }
        rewrite Hk in Ec. destruct (csound Ec Eco X1 X2 Y1 Y2) as [C1 C2].
        pose proof (tmp_fresh Hn) as Hf. rewrite (@dset_fresh _ (tmp_name cd) (lo, hi) cd Hf).
        set (t := tmp_name cd) in *. exists (fun z => if word_eqb z t then c else s z). cbn [hr_cd hr_new hr_old hr_val fst snd].
        split; [|split; [|split; [discriminate|discriminate]]].
        + split; [|split; [eexists; reflexivity|split]].
          * intros z Hz. destruct (word_eqb z t) eqn:E; [|reflexivity]. apply word_eqb_eq in E. subst z. contradiction.
          * intros z Hz. rewrite map_app, in_app_iff in Hz. rewrite app_length. cbn [length map fst In] in *. destruct Hz as [Hz|[<-|[]]].
            -- destruct (Hn z Hz) as [|(i & Hii & E)]; [left; assumption|right; exists i; split; [lia|exact E]].
            -- right. exists (length cd + 1). split; [lia|reflexivity].
          * intros z lo' hi' Hz. rewrite in_app_iff in Hz. destruct Hz as [Hz|[[= <- <- <-]|[]]].
            -- destruct (word_eqb z t) eqn:E; [|exact (Hi _ _ _ Hz)]. apply word_eqb_eq in E. subst z. exfalso. apply Hf. apply in_map_iff. exists (t, (lo', hi')). auto.
            -- rewrite word_eqb_same. auto.
        + change (value_of dd (keys (cd ++ [(t, (lo, hi))])) (fun z => if word_eqb z t then c else s z) t = Some (VN c)). unfold value_of. rewrite (tmp_dd (length cd + 1) : dget word_eqb t dd = None). replace (existsb (word_eqb t) (keys (cd ++ [(t, (lo, hi))]))) with true.
          * rewrite word_eqb_same. reflexivity.
          * symmetry. apply existsb_word. rewrite map_app, in_app_iff. right. left. reflexivity.
      - discriminate.
    Qed.
  End Hyb.

  (** Without lane coordinates the bounds do not change. *)
  Lemma hyb_free dd (coord_set : bool -> word -> num * num -> num * num -> option (num * num)) e : lane_free e = true -> forall cd r, hyb dd phys coord_set cd e = Some r -> hr_cd r = cd.
  Proof.
    induction e using gex_ind'; intros Hf cd res Hh; try (injection Hh as <-; reflexivity); try discriminate; cbn in Hf, Hh.
    - destruct (hyb dd phys coord_set cd e) as [p|] eqn:Ep; [|discriminate]. injection Hh as <-. exact (IHe Hf _ _ Ep).
    - destruct (hyb dd phys coord_set cd e) as [p|] eqn:Ep; [|discriminate]. cbn [obind] in Hh. destruct (truthy (hr_val p)); injection Hh as <-; exact (IHe Hf _ _ Ep).
    - apply andb_true_iff in Hf. destruct Hf as [F1 F2]. destruct (hyb dd phys coord_set cd e1) as [p|] eqn:Ep; [|discriminate]. cbn [obind] in Hh.
      destruct (hyb dd phys coord_set (hr_cd p) e2) as [q|] eqn:Eq; [|discriminate]. injection Hh as <-. cbn [hr_cd snd]. fold (hr_cd q). rewrite (IHe2 F2 _ _ Eq). exact (IHe1 F1 _ _ Ep).
    - apply andb_true_iff in Hf. destruct Hf as [F1 F2]. destruct (hyb dd phys coord_set cd e1) as [p|] eqn:Ep; [|discriminate]. cbn [obind] in Hh.
      destruct (hyb dd phys coord_set (hr_cd p) e2) as [q|] eqn:Eq; [|discriminate]. injection Hh as <-. cbn [hr_cd snd]. fold (hr_cd q). rewrite (IHe2 F2 _ _ Eq). exact (IHe1 F1 _ _ Ep).
    - assert (A : forall cd v q, hyb_and (hyb dd phys coord_set) cd v es = Some q -> snd q = cd).
      { clear Hh. induction H as [|e es He _ IH]; intros c v q Hq; [cbn in Hq; injection Hq as <-; reflexivity|]. cbn in Hf. apply andb_true_iff in Hf. destruct Hf as [F1 F2].
        cbn in Hq. fold (hyb_and (hyb dd phys coord_set)) in Hq. destruct (hyb dd phys coord_set c e) as [p|] eqn:Ep; [|discriminate]. cbn [obind] in Hq.
        pose proof (He F1 _ _ Ep) as Ec. destruct (truthy _).
        - rewrite Ec in Hq. destruct (hyb_and (hyb dd phys coord_set) c _ es) as [q'|] eqn:Eq; [|discriminate]. injection Hq as <-. exact (IH F2 _ _ _ Eq).
        - injection Hq as <-. exact Ec. }
      assert (O : forall cd v q, hyb_or (hyb dd phys coord_set) cd v es = Some q -> snd q = cd).
      { clear Hh A. induction H as [|e es He _ IH]; intros c v q Hq; [cbn in Hq; injection Hq as <-; reflexivity|]. cbn in Hf. apply andb_true_iff in Hf. destruct Hf as [F1 F2].
        cbn in Hq. fold (hyb_or (hyb dd phys coord_set)) in Hq. destruct (hyb dd phys coord_set c e) as [p|] eqn:Ep; [|discriminate]. cbn [obind] in Hq.
        pose proof (He F1 _ _ Ep) as Ec. rewrite Ec in Hq. destruct (hyb_or (hyb dd phys coord_set) c _ es) as [q'|] eqn:Eq; [|discriminate]. injection Hq as <-. exact (IH F2 _ _ _ Eq). }
      destruct b.
      + fold (hyb_and (hyb dd phys coord_set)) in Hh. destruct (hyb_and (hyb dd phys coord_set) cd (DB true) es) as [q|] eqn:Eq; [|discriminate]. injection Hh as <-. exact (A _ _ _ Eq).
      + fold (hyb_or (hyb dd phys coord_set)) in Hh. destruct (hyb_or (hyb dd phys coord_set) cd (DB false) es) as [q|] eqn:Eq; [|discriminate]. injection Hh as <-. exact (O _ _ _ Eq).
  Qed.

  Lemma hyb_and_cons h (c : cdict) v e es : hyb_and h c v (e :: es) =
    (do p <- h c e; if truthy (if truthy v then hr_val p else v)
                    then do q <- hyb_and h (hr_cd p) (if truthy v then hr_val p else v) es; Some (fst (fst q), hr_new p :: snd (fst q), snd q)
                    else Some (if truthy v then hr_val p else v, hr_new p :: es, hr_cd p)).
  Proof. reflexivity. Qed.
  Lemma hyb_or_cons h (c : cdict) v e es : hyb_or h c v (e :: es) =
    (do p <- h c e; do q <- hyb_or h (hr_cd p) (if truthy v then v else hr_val p) es; Some (fst (fst q), hr_old p :: snd (fst q), snd q)).
  Proof. reflexivity. Qed.
  Lemma hyb_free_any dd (c1 c2 : bool -> word -> num * num -> num * num -> option (num * num)) e : forall cd, lane_free e = true -> hyb dd phys c1 cd e = hyb dd phys c2 cd e.
  Proof.
    induction e using gex_ind'; intros cd Hp; try reflexivity; try discriminate; cbn in Hp |- *.
    - rewrite IHe by exact Hp. reflexivity.
    - rewrite IHe by exact Hp. reflexivity.
    - apply andb_true_iff in Hp. destruct Hp. rewrite IHe1 by assumption. destruct (hyb _ _ _ _ e1); cbn [obind]; [|reflexivity]. rewrite IHe2 by assumption. reflexivity.
    - apply andb_true_iff in Hp. destruct Hp. rewrite IHe1 by assumption. destruct (hyb _ _ _ _ e1); cbn [obind]; [|reflexivity]. rewrite IHe2 by assumption. reflexivity.
    - assert (A : forall cd v, hyb_and (hyb dd phys c1) cd v es = hyb_and (hyb dd phys c2) cd v es /\ hyb_or (hyb dd phys c1) cd v es = hyb_or (hyb dd phys c2) cd v es).
      { clear cd. induction H as [|e es He _ IH]; intros cd v; [split; reflexivity|]. cbn in Hp. apply andb_true_iff in Hp. destruct Hp as [P1 P2].
        rewrite !hyb_and_cons, !hyb_or_cons. rewrite (He cd P1). destruct (hyb dd phys c2 cd e) as [p|]; cbn [obind]; [|split; reflexivity].
        destruct (IH P2 (hr_cd p) (if truthy v then hr_val p else v)) as [-> _]. destruct (IH P2 (hr_cd p) (if truthy v then v else hr_val p)) as [_ ->]. split; reflexivity. }
      destruct b; [destruct (A cd (DB true)) as [E _]|destruct (A cd (DB false)) as [_ E]]; unfold hyb_and, hyb_or in E |- *; rewrite E; reflexivity.
  Qed.

  (** ** The formula *)
  Section Gen.
    Variable dd : dict word word.
    Variables (ks : list word) (s m : word -> num).
    Notation E := (flat dd ks s).
    (** Discrete variables are not among the renamed ones. *)
    Hypothesis dd_out : forall t v, dget word_eqb t dd = Some v -> ~ In (rename ks t) (map under ks).

    Definition matches (f : form) : Prop := forall r, In r (form_refs f) -> In (text r) ks -> m (rename ks (text r)) = s (text r).

    Lemma num_sound e : forall u, wf_num ks e = true -> geval E e = Some u -> (forall r, In r (num_refs e) -> In (text r) ks -> m (rename ks (text r)) = s (text r)) ->
      exists x, u = VN x /\ nval of_q n_neg n_bin ks m e = Some x.
    Proof.
      induction e using gex_ind'; intros u Hw He Hm; cbn in Hw; try discriminate.
      - injection He as <-. exists (of_q q). auto.
      - apply existsb_word in Hw. cbn [GuardSpec.geval] in He. rewrite flat_look in He. unfold value_of in He. destruct (dget word_eqb (text r) dd) as [v|] eqn:Ed.
        + exfalso. exact (dd_out _ Ed Hw).
        + destruct (existsb (word_eqb (text r)) ks) eqn:Ek; [|discriminate]. injection He as <-. apply existsb_word in Ek. exists (s (text r)). split; [reflexivity|].
          cbn. rewrite (Hm r); [reflexivity|left; reflexivity|exact Ek].
      - cbn in He. destruct (geval E e) as [v|]; [|discriminate]. destruct (IHe v Hw eq_refl Hm) as (x & -> & Hx). cbn in He. injection He as <-. exists (n_neg x). cbn. rewrite Hx. auto.
      - apply andb_true_iff in Hw. destruct Hw as [W1 W2]. cbn in He, Hm. destruct (geval E e1) as [v1|]; [|discriminate]. cbn [obind] in He. destruct (geval E e2) as [v2|]; [|discriminate].
        destruct (IHe1 v1 W1 eq_refl) as (x & -> & Hx); [intros; apply Hm; [apply in_app_iff; auto|assumption]|].
        destruct (IHe2 v2 W2 eq_refl) as (y & -> & Hy); [intros; apply Hm; [apply in_app_iff; auto|assumption]|].
        cbn in He. injection He as <-. exists (n_bin o x y). cbn. rewrite Hx, Hy. auto.
    Qed.

    Definition gsound (b : bool) (g : bool + form) : Prop :=
      match g with
      | inl b0 => b0 = b
      | inr f => wf_form ks f = true -> matches f -> holds of_q n_neg n_bin n_cmp ks m f = Some b
      end.
    Notation bools := (Forall2 (fun e x => geval E e = Some (VB num x))).
    Lemma matches_head f fs g : (forall r, In r (flat_map form_refs (f :: fs)) -> In r (form_refs g)) -> matches g -> matches f /\ (forall g', form_refs g' = flat_map form_refs fs -> matches g').
    Proof.
      intros Hi Hm. split; [intros r Hr; apply Hm, Hi; cbn; apply in_app_iff; auto|].
      intros g' Eg r Hr. rewrite Eg in Hr. apply Hm, Hi. cbn. apply in_app_iff. auto.
    Qed.

    Lemma gen_and_sound es : Forall (fun e => forall b, geval E e = Some (VB num b) -> gsound b (gen e)) es -> forall bs,
      bools es bs ->
      match gen_and gen es with
      | inl b => b = forallb id bs /\ b = false
      | inr fs => forallb (wf_form ks) fs = true -> matches (FAnd fs) -> exists cs, omapg (holds of_q n_neg n_bin n_cmp ks m) fs = Some cs /\ forallb id cs = forallb id bs
      end.
    Proof.
      induction 1 as [|e es He _ IH]; intros bs HV; inversion HV as [|? b ? bs' Hb HV']; subst; [cbn; intros _ _; exists []; auto|].
      specialize (He b Hb). specialize (IH bs' HV'). cbn. fold (gen_and gen). destruct (gen e) as [b0|f]; cbn [gsound] in He.
      - subst b0. destruct b; [|auto]. cbn. exact IH.
      - destruct (gen_and gen es) as [b0|fs].
        + destruct IH as [-> E0]. rewrite E0. rewrite andb_false_r. auto.
        + cbn. rewrite andb_true_iff. intros [W1 W2] Hm. destruct (@matches_head f fs (FAnd (f :: fs)) (fun r H => H) Hm) as [M1 M2].
          rewrite (He W1 M1). cbn [obind]. destruct (IH W2 (M2 (FAnd fs) eq_refl)) as (cs & -> & Ecs). cbn [obind]. exists (b :: cs). cbn. rewrite Ecs. auto.
    Qed.
    Lemma gen_or_sound es : Forall (fun e => forall b, geval E e = Some (VB num b) -> gsound b (gen e)) es -> forall bs,
      bools es bs ->
      match gen_or gen es with
      | inl b => b = existsb id bs /\ b = true
      | inr fs => forallb (wf_form ks) fs = true -> matches (FOr fs) -> exists cs, omapg (holds of_q n_neg n_bin n_cmp ks m) fs = Some cs /\ existsb id cs = existsb id bs
      end.
    Proof.
      induction 1 as [|e es He _ IH]; intros bs HV; inversion HV as [|? b ? bs' Hb HV']; subst; [cbn; intros _ _; exists []; auto|].
      specialize (He b Hb). specialize (IH bs' HV'). cbn. fold (gen_or gen). destruct (gen e) as [b0|f]; cbn [gsound] in He.
      - subst b0. destruct b; [auto|]. cbn. exact IH.
      - destruct (gen_or gen es) as [b0|fs].
        + destruct IH as [-> E0]. rewrite E0. rewrite orb_true_r. auto.
        + cbn. rewrite andb_true_iff. intros [W1 W2] Hm. destruct (@matches_head f fs (FOr (f :: fs)) (fun r H => H) Hm) as [M1 M2].
          rewrite (He W1 M1). cbn [obind]. destruct (IH W2 (M2 (FOr fs) eq_refl)) as (cs & -> & Ecs). cbn [obind]. exists (b :: cs). cbn. rewrite Ecs. auto.
    Qed.

    Lemma gen_sound e : forall b, geval E e = Some (VB num b) -> gsound b (gen e).
    Proof.
      induction e using gex_ind'; intros v He; try (cbn; discriminate).
      - cbn in *. congruence.
      - cbn in *. destruct (geval E e) as [u|]; [|discriminate]. cbn [obind] in He. destruct u as [b0| |]; try discriminate. injection He as <-.
        specialize (IHe b0 eq_refl). destruct (gen e) as [b1|f]; cbn in *.
        + intros _ _. rewrite IHe. reflexivity.
        + intros Hw Hm. rewrite (IHe Hw Hm). reflexivity.
      - cbn [gen gsound]. cbn [wf_form]. rewrite andb_true_iff. intros [W1 W2] Hm. cbn in He. destruct (geval E e1) as [v1|] eqn:E1; [|discriminate]. cbn [obind] in He.
        destruct (geval E e2) as [v2|] eqn:E2; [|discriminate]. unfold matches in Hm. cbn [form_refs num_refs] in Hm.
        destruct (num_sound _ W1 E1) as (x & -> & Hx); [intros; apply Hm; [apply in_app_iff; auto|assumption]|].
        destruct (num_sound _ W2 E2) as (y & -> & Hy); [intros; apply Hm; [apply in_app_iff; auto|assumption]|].
        cbn in *. rewrite Hx, Hy. cbn. congruence.
      - destruct (eval_op _ _ _ He) as (bs & HV & [= ->]). destruct b; cbn [gen junction].
        + pose proof (gen_and_sound H HV) as G. destruct (gen_and gen es) as [b0|fs]; [cbn; tauto|]. destruct fs as [|f [|f' fs]].
          * intros _ _. destruct (G eq_refl) as (cs & Ec & <-); [intros r []|]. injection Ec as <-. reflexivity.
          * cbn [gsound]. intros Hw Hm. destruct G as (cs & Ec & <-); [cbn; rewrite Hw; reflexivity|intros r Hr; cbn in Hr; rewrite app_nil_r in Hr; exact (Hm r Hr)|].
            cbn in Ec. destruct (holds of_q n_neg n_bin n_cmp ks m f) as [c|]; [|discriminate]. injection Ec as <-. cbn. rewrite andb_true_r. reflexivity.
          * cbn [gsound]. intros Hw Hm. destruct (G Hw Hm) as (cs & Ec & <-). cbn [holds]. rewrite Ec. reflexivity.
        + pose proof (gen_or_sound H HV) as G. destruct (gen_or gen es) as [b0|fs]; [cbn; tauto|]. destruct fs as [|f [|f' fs]].
          * intros _ _. destruct (G eq_refl) as (cs & Ec & <-); [intros r []|]. injection Ec as <-. reflexivity.
          * cbn [gsound]. intros Hw Hm. destruct G as (cs & Ec & <-); [cbn; rewrite Hw; reflexivity|intros r Hr; cbn in Hr; rewrite app_nil_r in Hr; exact (Hm r Hr)|].
            cbn in Ec. destruct (holds of_q n_neg n_bin n_cmp ks m f) as [c|]; [|discriminate]. injection Ec as <-. cbn. rewrite orb_false_r. reflexivity.
          * cbn [gsound]. intros Hw Hm. destruct (G Hw Hm) as (cs & Ec & <-). cbn [holds]. rewrite Ec. reflexivity.
    Qed.
  End Gen.

  (** ** The whole check *)
  Lemma disc_free dd e : lane_free e = true -> forall p, disc call dd e = Some p -> lane_free (snd p) = true.
  Proof.
    induction e using gex_ind'; intros Hf pv Hd; try (injection Hd as <-; assumption); try discriminate; cbn in Hf, Hd.
    - destruct (disc call dd e) as [p|] eqn:Ep; [|discriminate]. injection Hd as <-. exact (IHe Hf _ eq_refl).
    - destruct (disc call dd e) as [p|] eqn:Ep; [|discriminate]. injection Hd as <-. cbn [snd]. destruct (truthy (fst p)); [|reflexivity]. exact (IHe Hf _ eq_refl).
    - apply andb_true_iff in Hf. destruct Hf as [F1 F2]. destruct (disc call dd e1) as [p|]; [|discriminate]. cbn [obind] in Hd. destruct (disc call dd e2) as [q|]; [|discriminate].
      injection Hd as <-. cbn. rewrite (IHe1 F1 _ eq_refl), (IHe2 F2 _ eq_refl). reflexivity.
    - apply andb_true_iff in Hf. destruct Hf as [F1 F2]. destruct (disc call dd e1) as [p|]; [|discriminate]. cbn [obind] in Hd. destruct (disc call dd e2) as [q|]; [|discriminate].
      cbn [obind] in Hd. destruct (is_bool (fst p) || is_bool (fst q)).
      + injection Hd as <-. cbn. rewrite (IHe1 F1 _ eq_refl), (IHe2 F2 _ eq_refl). reflexivity.
      + destruct (dcmp o (fst p) (fst q)); [|discriminate]. injection Hd as <-. reflexivity.
    - destruct b.
      + fold (disc_and (disc call dd)) in Hd.
        assert (A : forall v q, disc_and (disc call dd) v es = Some q -> match snd q with Some es' => forallb lane_free es' = true | None => True end).
        { clear Hd. induction H as [|e es He _ IH]; intros v q Hq; cbn in Hq; [injection Hq as <-; reflexivity|]. fold (disc_and (disc call dd)) in Hq.
          cbn in Hf. apply andb_true_iff in Hf. destruct Hf as [F1 F2]. destruct (disc call dd e) as [p|]; [|discriminate]. cbn [obind] in Hq.
          destruct (truthy _); [|injection Hq as <-; exact I]. destruct (disc_and (disc call dd) _ es) as [q'|] eqn:Eq; [|discriminate]. injection Hq as <-.
          specialize (IH F2 _ _ Eq). cbn [snd]. destruct (snd q'); [|exact I]. cbn. rewrite IH, (He F1 _ eq_refl). reflexivity. }
        destruct (disc_and (disc call dd) (DB true) es) as [q|] eqn:Eq; [|discriminate]. injection Hd as <-. specialize (A _ _ Eq). cbn [snd]. destruct (snd q); [exact A|reflexivity].
      + fold (disc_or (disc call dd)) in Hd.
        assert (A : forall v q, disc_or (disc call dd) v es = Some q -> forallb lane_free (snd q) = true).
        { clear Hd. induction H as [|e es He _ IH]; intros v q Hq; cbn in Hq; [injection Hq as <-; reflexivity|]. fold (disc_or (disc call dd)) in Hq.
          cbn in Hf. apply andb_true_iff in Hf. destruct Hf as [F1 F2]. destruct (disc call dd e) as [p|]; [|discriminate]. cbn [obind] in Hq.
          destruct (disc_or (disc call dd) _ es) as [q'|] eqn:Eq; [|discriminate]. injection Hq as <-. cbn. rewrite (IH F2 _ _ Eq), (He F1 _ eq_refl). reflexivity. }
        destruct (disc_or (disc call dd) (DB false) es) as [q|] eqn:Eq; [|discriminate]. injection Hd as <-. exact (A _ _ Eq).
    - destruct (existsb is_var args); [|discriminate]. destruct (omapg (arg_val dd) args) as [vs|]; [|discriminate]. cbn [obind] in Hd.
      destruct (call f vs) as [v|]; [|discriminate]. injection Hd as <-. destruct v as [|q|]; try reflexivity. cbn. destruct (Qle_bool 0 q); reflexivity.
  Qed.

  Section Check.
    Variable dd : dict word word.
    Variable cd : cdict.
    Hypothesis wn : well_named n_cmp dd cd.
    Variable coord_set : bool -> word -> num * num -> num * num -> option (num * num).
    Hypothesis csound : coord_sound n_cmp coord coord_set.
    Variable solve : list word -> form -> dict word (num * num) -> verdict.
    Hypothesis right : solver_right of_q n_neg n_bin n_cmp solve.
    Hypothesis decides : forall ks f bs, solve ks f bs <> Unknown.
    Notation named := (named (keys cd)).

    Lemma flat_disc s r v : dlook dd r = Some v -> look (flat dd (keys cd) s) r = Some (VS num v).
    Proof. rewrite flat_look. unfold dlook, value_of. intros ->. reflexivity. Qed.
    Lemma flat_cont s r u : dlook dd r = None -> look (flat dd (keys cd) s) r = Some u -> exists x, u = VN x.
    Proof. rewrite flat_look. unfold dlook, value_of. intros ->. destruct (existsb _ _); [|discriminate]. intros [= <-]. eauto. Qed.

    Lemma dotted_nonempty k : dotted k -> k <> [].
    Proof. intros H ->. apply dotted_dot in H. destruct H. Qed.
    Lemma dd_key t v : dget word_eqb t dd = Some v -> In t (map fst dd).
    Proof. intros H. apply dget_In in H; [|exact word_eqb_eq]. apply in_map_iff. exists (t, v). auto. Qed.
    Lemma tmp_prefix i : prefix_of (w "tmp_variable") (w "tmp_variable" ++ dec i) = true.
    Proof. reflexivity. Qed.
    Lemma under_inj2 a b : In a (keys cd ++ map fst dd) -> In b (keys cd ++ map fst dd) -> under a = under b -> a = b.
    Proof.
      pose proof (wn_nodup wn) as N. revert N. generalize (keys cd ++ map fst dd) as l. clear. induction l as [|x l IH]; [contradiction|]. cbn. intros N Ha Hb E.
      inversion N as [|? ? Nx N']; subst. destruct Ha as [->|Ha], Hb as [->|Hb]; auto; exfalso; apply Nx; apply in_map_iff; eauto.
    Qed.
    Lemma key_few c k : named c -> In k (keys c) -> few_dots k /\ k <> [].
    Proof.
      intros Hn Hk. destruct (Hn k Hk) as [H|(i & _ & ->)].
      - apply (wn_dotted wn) in H. split; [left; exact H|exact (dotted_nonempty H)].
      - split; [right; apply tmp_nodot|discriminate].
    Qed.
    Lemma key_rename c k : named c -> In k (keys c) -> rename (keys c) k = under k.
    Proof.
      intros Hn Hk. apply rename_key; [|apply (@key_few c k Hn Hk)|exact Hk]. intros H. destruct (@key_few c [] Hn H) as [_ E]. congruence.
    Qed.
    Lemma key_inj c a b : named c -> In a (keys c) -> In b (keys c) -> under a = under b -> a = b.
    Proof.
      intros Hn Ha Hb E.
      assert (X : forall k i, In k (keys cd) -> under k <> w "tmp_variable" ++ dec i).
      { intros k i Hk Ek. pose proof (wn_tmp wn k) as P. rewrite Ek, tmp_prefix in P. rewrite in_app_iff in P. specialize (P (or_introl Hk)). discriminate. }
      destruct (Hn a Ha) as [Ha'|(i & _ & ->)], (Hn b Hb) as [Hb'|(j & _ & ->)].
      - apply under_inj2; [apply in_app_iff; auto|apply in_app_iff; auto|exact E].
      - rewrite (@under_nodot _ (tmp_nodot j)) in E. exfalso. exact (X _ _ Ha' E).
      - rewrite (@under_nodot _ (tmp_nodot i)) in E. exfalso. exact (X _ _ Hb' (eq_sym E)).
      - rewrite (@under_nodot _ (tmp_nodot i)), (@under_nodot _ (tmp_nodot j)) in E. exact E.
    Qed.
    Lemma key_dd c t v : named c -> dget word_eqb t dd = Some v -> ~ In (rename (keys c) t) (map under (keys c)).
    Proof.
      intros Hn Ht Hin. apply dd_key in Ht. pose proof (wn_dd wn t Ht) as Hd.
      apply in_map_iff in Hin. destruct Hin as (k & Ek & Hk).
      destruct (@rename_few (keys c) t) as [E|E]; [intros H; destruct (@key_few c [] Hn H); congruence|left; exact Hd| |]; rewrite E in Ek.
      - apply dotted_dot in Hd. rewrite <- Ek in Hd. exact (under_no_dot k Hd).
      - destruct (Hn k Hk) as [Hk'|(i & _ & ->)].
        + assert (k = t) as ->. { apply under_inj2; [apply in_app_iff; auto|apply in_app_iff; auto|exact Ek]. }
          pose proof (wn_nodup wn) as N. rewrite map_app in N. 
          clear -wn Ht Hk'. pose proof (wn_nodup wn) as N. rewrite map_app in N.
          apply (in_map under) in Ht, Hk'. revert N Ht Hk'. generalize (map under (keys cd)) (map under (map fst dd)) (under t). intros l1 l2 x.
          induction l1 as [|y l1 IH]; cbn; intros N H2 H1; [contradiction|]. inversion N as [|? ? Ny N']; subst. destruct H1 as [->|H1]; [apply Ny, in_app_iff; auto|auto].
        + rewrite (@under_nodot _ (tmp_nodot i)) in Ek. pose proof (wn_tmp wn t) as P. rewrite <- Ek, tmp_prefix in P. rewrite in_app_iff in P. specialize (P (or_intror Ht)). discriminate.
    Qed.
    Lemma named_cd : named cd.
    Proof. intros k Hk. left. exact Hk. Qed.

    (** The values of the renamed variables. *)
    Definition renamed (c : cdict) (s : word -> num) (t : word) : num :=
      match find (fun k => word_eqb (under k) t) (keys c) with Some k => s k | None => s t end.
    Lemma renamed_key c s k : named c -> In k (keys c) -> renamed c s (under k) = s k.
    Proof.
      intros Hn Hk. unfold renamed. destruct (find (fun z => word_eqb (under z) (under k)) (keys c)) as [k'|] eqn:Ef.
      - apply find_some in Ef. destruct Ef as [Hk' E]. apply word_eqb_eq in E. rewrite (@key_inj c k' k Hn Hk' Hk E). reflexivity.
      - apply find_none with (x := k) in Ef; [|exact Hk]. rewrite word_eqb_same in Ef. discriminate.
    Qed.
    Lemma renamed_inside c s f : named c -> inside c s -> inside (bounds_of (symbols c f)) (renamed c s).
    Proof.
      intros Hn Hi t lo hi Ht. unfold bounds_of in Ht. apply in_map_iff in Ht. destruct Ht as ([k iv] & [= <- ->] & Hk). unfold symbols in Hk. apply filter_In in Hk. destruct Hk as [Hk _].
      cbn [fst]. rewrite renamed_key; [exact (Hi _ _ _ Hk)|exact Hn|]. apply in_map_iff. exists (k, (lo, hi)). auto.
    Qed.

    (** What the check computes. *)
    Lemma check_run g r : guard_check call dd phys coord_set solve cd g = Some r ->
      (r = (false, false) /\ forall s b, inside cd s -> geval (flat dd (keys cd) s) g = Some (VB num b) -> b = false) \/
      exists c e, cont_check solve c e = Some r /\ (lane_free g = true -> c = cd) /\
        forall s b, inside cd s -> geval (flat dd (keys cd) s) g = Some (VB num b) ->
          exists s', named c /\ inside c s' /\ (forall k, In k (keys cd) -> s' k = s k) /\ geval (flat dd (keys c) s') e = Some (VB num b).
    Proof.
      intros Hg. unfold guard_check in Hg. destruct (disc call dd g) as [p|] eqn:Ep; [|discriminate]. cbn [obind] in Hg.
      assert (A : forall s b, inside cd s -> geval (flat dd (keys cd) s) g = Some (VB num b) ->
                geval (flat dd (keys cd) s) (snd p) = Some (VB num b) /\ (truthy (fst p) = false -> b = false)).
      { intros s b Hi He. pose proof (@disc_sound dd _ (@flat_disc s) (@flat_cont s) g p _ Ep He) as Hp. apply dsound_bool in Hp. destruct Hp as (Hp & c & Ec & Hc).
        split; [exact Hp|]. rewrite Ec. exact Hc. }
      destruct (truthy (fst p)); [|injection Hg as <-; left; split; [reflexivity|]; intros s b Hi He; apply (A s b Hi He); reflexivity].
      destruct (hyb dd phys coord_set cd (snd p)) as [h|] eqn:Eh; [|discriminate]. cbn [obind] in Hg.
      assert (B : forall s b, inside cd s -> geval (flat dd (keys cd) s) g = Some (VB num b) ->
          (exists s', named (hr_cd h) /\ inside (hr_cd h) s' /\ (forall k, In k (keys cd) -> s' k = s k) /\ geval (flat dd (keys (hr_cd h)) s') (hr_new h) = Some (VB num b)) /\
          (truthy (hr_val h) = false -> b = false)).
      { intros s b Hi He. destruct (A s b Hi He) as [Hp _].
        destruct (@hyb_sound dd coord_set csound (wn_dd wn) (keys cd) (wn_dotted wn) (snd p) cd s _ h named_cd Hi Hp Eh) as (s' & (X1 & X2 & X3 & X4) & G & _ & V).
        split; [exists s'; auto|]. unfold vsound in V. destruct (hr_val h) as [c|q|t]; [|destruct V; discriminate|destruct V; discriminate].
        cbn. intros Ec. specialize (V Ec). congruence. }
      destruct (truthy (hr_val h)); [|injection Hg as <-; left; split; [reflexivity|]; intros s b Hi He; apply (B s b Hi He); reflexivity].
      right. exists (hr_cd h), (hr_new h). split; [exact Hg|]. split; [|intros s b Hi He; apply (B s b Hi He)].
      intros Hf. exact (@hyb_free dd coord_set (snd p) (disc_free _ _ Hf Ep) cd h Eh).
    Qed.

    Lemma check_over g s b sat con : inside cd s -> geval (flat dd (keys cd) s) g = Some (VB num b) ->
      guard_check call dd phys coord_set solve cd g = Some (sat, con) -> (b = true -> sat = true) /\ (con = true -> b = true).
    Proof.
      intros Hi He Hg. destruct (check_run g Hg) as [[[= -> ->] Hb]|(c & e & Hc & _ & Hs)]; [rewrite (Hb s b Hi He); split; discriminate|].
      destruct (Hs s b Hi He) as (s' & Hn & Hi' & _ & G). clear Hs.
      unfold cont_check in Hc. pose proof (@gen_sound dd (keys c) s' (renamed c s') (fun t v => @key_dd c t v Hn) e b G) as GS.
      destruct (gen e) as [b0|f]; cbn [gsound] in GS; [injection Hc as -> ->; subst; tauto|].
      destruct (wf_form (keys c) f) eqn:Hw; [|discriminate].
      assert (Hh : holds of_q n_neg n_bin n_cmp (keys c) (renamed c s') f = Some b).
      { apply GS; [reflexivity|]. intros r _ Hr. rewrite (@key_rename c (text r) Hn Hr). apply renamed_key; assumption. }
      pose proof (@renamed_inside c s' f Hn Hi') as Hin.
      pose proof (@right (keys c) f (bounds_of (symbols c f))) as R1. pose proof (@decides (keys c) f (bounds_of (symbols c f))) as D1.
      pose proof (@right (keys c) (FNot f) (bounds_of (symbols c f))) as R2.
      destruct (solve (keys c) f (bounds_of (symbols c f))); [|injection Hc as <- <-; split; [intros ->; exfalso; exact (R1 _ Hin Hh)|discriminate]|congruence].
      injection Hc as <- <-. split; [reflexivity|]. destruct (solve (keys c) (FNot f) (bounds_of (symbols c f))); try discriminate. intros _.
      specialize (R2 _ Hin). cbn [holds] in R2. rewrite Hh in R2. cbn in R2. destruct b; [reflexivity|exfalso; apply R2; reflexivity].
    Qed.

    Lemma cd_nodup : NoDup (keys cd).
    Proof.
      pose proof (wn_nodup wn) as N. rewrite map_app in N. revert N. generalize (map under (map fst dd)) as l. generalize (keys cd) as k. clear.
      induction k as [|a k IH]; cbn; intros l N; [constructor|]. inversion N as [|? ? Na N']; subst. constructor; [|exact (IH l N')].
      intros H. apply Na. apply in_app_iff. left. apply in_map. exact H.
    Qed.
    Lemma occurs_self k : occurs k k = true.
    Proof. apply occurs_refl. Qed.
    (** A model of the solver comes from a state in the box. *)
    Lemma realize f m : inside (bounds_of (symbols cd f)) m -> exists s, inside cd s /\ matches (keys cd) s m f.
    Proof.
      intros Hin. exists (fun k => match dget word_eqb k (symbols cd f) with Some _ => m (under k) | None => match dget word_eqb k cd with Some iv => fst iv | None => m k end end).
      split.
      - intros k lo hi Hk. destruct (dget word_eqb k (symbols cd f)) as [iv|] eqn:E.
        + apply dget_In in E; [|exact word_eqb_eq]. assert (Hk' : In (k, iv) cd) by (apply filter_In in E; tauto).
          pose proof (In_dget _ word_eqb_eq _ _ _ cd_nodup Hk) as E1. pose proof (In_dget _ word_eqb_eq _ _ _ cd_nodup Hk') as E2. rewrite E1 in E2. injection E2 as <-.
          apply Hin. apply in_map_iff. exists (k, (lo, hi)). auto.
        + rewrite (In_dget _ word_eqb_eq _ _ _ cd_nodup Hk). cbn [fst]. split; [apply agree|exact (wn_box wn _ _ _ Hk)].
      - intros r Hr Hk. rewrite (@key_rename cd (text r) named_cd Hk). destruct (dget word_eqb (text r) (symbols cd f)) as [iv|] eqn:E; [reflexivity|].
        exfalso. apply (dget_None _ word_eqb_eq) in E. apply E. apply in_map_iff in Hk. destruct Hk as ((k & iv) & Ek & Hk). cbn [fst] in Ek. subst k. apply in_map_iff. exists (text r, iv).
        split; [reflexivity|]. apply filter_In. split; [exact Hk|]. apply existsb_exists. exists r. split; [exact Hr|]. apply occurs_self.
    Qed.

    (** What is reported holds whatever the solver leaves open. *)
    Lemma check_sure g s b sat : inside cd s -> geval (flat dd (keys cd) s) g = Some (VB num b) ->
      guard_check call dd phys coord_set solve cd g = Some (sat, true) -> b = true.
    Proof.
      intros Hi He Hg. destruct (check_run g Hg) as [[[=] _]|(c & e & Hc & _ & Hs)].
      destruct (Hs s b Hi He) as (s' & Hn & Hi' & _ & G). clear Hs.
      unfold cont_check in Hc. pose proof (@gen_sound dd (keys c) s' (renamed c s') (fun t v => @key_dd c t v Hn) e b G) as GS.
      destruct (gen e) as [b0|f]; cbn [gsound] in GS; [congruence|].
      destruct (wf_form (keys c) f) eqn:Hw; [|discriminate].
      assert (Hh : holds of_q n_neg n_bin n_cmp (keys c) (renamed c s') f = Some b).
      { apply GS; [reflexivity|]. intros r _ Hr. rewrite (@key_rename c (text r) Hn Hr). apply renamed_key; assumption. }
      pose proof (@renamed_inside c s' f Hn Hi') as Hin.
      pose proof (@right (keys c) (FNot f) (bounds_of (symbols c f))) as R2.
      destruct (solve (keys c) f (bounds_of (symbols c f))); try discriminate.
      destruct (solve (keys c) (FNot f) (bounds_of (symbols c f))); try discriminate.
      specialize (R2 _ Hin). cbn [holds] in R2. rewrite Hh in R2. cbn in R2. destruct b; [reflexivity|exfalso; apply R2; reflexivity].
    Qed.
    Lemma inhabited : exists s, inside cd s.
    Proof.
      destruct (@realize (FTrue true) (fun _ => of_q 0)) as (s & Hs & _); [|exists s; exact Hs].
      intros k lo hi Hk. unfold bounds_of in Hk. apply in_map_iff in Hk. destruct Hk as (p & _ & Hp). apply filter_In in Hp. destruct Hp as [_ Hp]. discriminate.
    Qed.
    Lemma check_witness g con : lane_free g = true -> (forall s, inside cd s -> exists b, geval (flat dd (keys cd) s) g = Some (VB num b)) ->
      guard_check call dd phys coord_set solve cd g = Some (true, con) ->
      exists s, inside cd s /\ geval (flat dd (keys cd) s) g = Some (VB num true).
    Proof.
      intros Hf Hall Hg. destruct inhabited as (s0 & Hs0). destruct (Hall s0 Hs0) as (b0 & E0).
      destruct (check_run g Hg) as [[[=] _]|(c & e & Hc & Ec & Hs)].
      rewrite (Ec Hf) in *. clear Ec c. unfold cont_check in Hc. destruct (gen e) as [b1|f] eqn:Eg.
      - injection Hc as -> <-. exists s0. split; [exact Hs0|]. rewrite (check_sure g Hs0 E0 Hg) in E0. exact E0.
      - destruct (wf_form (keys cd) f) eqn:Hw; [|discriminate].
        pose proof (@right (keys cd) f (bounds_of (symbols cd f))) as R1. destruct (solve (keys cd) f (bounds_of (symbols cd f))); try discriminate.
        destruct R1 as (m & Hm & Hh). destruct (realize f Hm) as (s & Hs1 & Hma). exists s. split; [exact Hs1|]. destruct (Hall s Hs1) as (b' & E'). rewrite E'.
        destruct (Hs s b' Hs1 E') as (s' & _ & _ & Es & G).
        pose proof (@gen_sound dd (keys cd) s' m (fun t v => @key_dd cd t v named_cd) e b' G) as GS. rewrite Eg in GS. cbn in GS.
        rewrite GS in Hh; [congruence|exact Hw|]. intros r Hr Hk. rewrite (Hma r Hr Hk). symmetry. apply Es. exact Hk.
    Qed.

    Lemma check_exact g sat con : lane_free g = true -> (forall s, inside cd s -> exists b, geval (flat dd (keys cd) s) g = Some (VB num b)) ->
      guard_check call dd phys coord_set solve cd g = Some (sat, con) ->
      (sat = true -> exists s, inside cd s /\ geval (flat dd (keys cd) s) g = Some (VB num true)) /\
      (con = false -> exists s, inside cd s /\ geval (flat dd (keys cd) s) g = Some (VB num false)).
    Proof.
      intros Hf Hall Hg.
      assert (Ex : exists s, inside cd s). { destruct (@realize (FTrue true) (fun _ => of_q 0)) as (s & Hs & _); [|exists s; exact Hs].
        intros k lo hi Hk. unfold bounds_of in Hk. apply in_map_iff in Hk. destruct Hk as (p & _ & Hp). apply filter_In in Hp. destruct Hp as [_ Hp]. discriminate. }
      destruct Ex as (s0 & Hs0). destruct (Hall s0 Hs0) as (b0 & E0).
      destruct (check_run g Hg) as [[[= -> ->] Hb]|(c & e & Hc & Ec & Hs)].
      { rewrite (Hb s0 b0 Hs0 E0) in E0. split; [discriminate|eauto]. }
      rewrite (Ec Hf) in *. clear Ec c. unfold cont_check in Hc. destruct (gen e) as [b1|f] eqn:Eg.
      - injection Hc as <- <-.
        assert (A : b0 = b1).
        { pose proof (check_over g Hs0 E0 Hg) as [H1 H2]. destruct b0, b1; auto; symmetry; auto. }
        rewrite A in E0. split; intros ->; eauto.
      - destruct (wf_form (keys cd) f) eqn:Hw; [|discriminate].
        assert (Val : forall m b, inside (bounds_of (symbols cd f)) m -> holds of_q n_neg n_bin n_cmp (keys cd) m f = Some b -> exists s, inside cd s /\ geval (flat dd (keys cd) s) g = Some (VB num b)).
        { intros m b Hm Hb. destruct (realize f Hm) as (s & Hs1 & Hma). exists s. split; [exact Hs1|]. destruct (Hall s Hs1) as (b' & E'). rewrite E'.
          destruct (Hs s b' Hs1 E') as (s' & _ & _ & Es & G).
          pose proof (@gen_sound dd (keys cd) s' m (fun t v => @key_dd cd t v named_cd) e b' G) as GS. rewrite Eg in GS. cbn in GS.
          rewrite GS in Hb; [congruence|exact Hw|]. intros r Hr Hk. rewrite (Hma r Hr Hk). symmetry. apply Es. exact Hk. }
        pose proof (@right (keys cd) f (bounds_of (symbols cd f))) as R1. pose proof (@decides (keys cd) f (bounds_of (symbols cd f))) as D1.
        pose proof (@right (keys cd) (FNot f) (bounds_of (symbols cd f))) as R2. pose proof (@decides (keys cd) (FNot f) (bounds_of (symbols cd f))) as D2.
        destruct (solve (keys cd) f (bounds_of (symbols cd f))); [| |congruence].
        + destruct R1 as (m & Hm & Hh). injection Hc as <- <-. split; [intros _; exact (Val m true Hm Hh)|].
          destruct (solve (keys cd) (FNot f) (bounds_of (symbols cd f))); [|discriminate|congruence]. intros _. destruct R2 as (m2 & Hm2 & Hh2).
          cbn [holds] in Hh2. destruct (holds of_q n_neg n_bin n_cmp (keys cd) m2 f) as [b2|] eqn:E2; [|discriminate]. cbn in Hh2. destruct b2; [discriminate|]. exact (Val m2 false Hm2 E2).
        + injection Hc as <- <-. split; [discriminate|]. intros _. exists s0. split; [exact Hs0|]. destruct b0; [|exact E0]. exfalso.
          destruct (check_over g Hs0 E0 Hg) as [H1 _]. discriminate (H1 eq_refl).
    Qed.
  End Check.

  (** ** Unrolling *)
  Lemma look_item E x iter i (it : word -> option gval) r : (forall a, e_name E (item_name iter i a) = it a) ->
    look E (item_ref x iter i r) = look (bind E x it) r.
  Proof.
    intros H. destruct r as [o a|n]; [|reflexivity]. cbn. destruct (word_eqb o x); [|reflexivity]. cbn. apply H.
  Qed.
  Lemma omapg_cons {A B} (f : A -> option B) a l : omapg f (a :: l) = (do b <- f a; do bs <- omapg f l; Some (b :: bs)).
  Proof. reflexivity. Qed.
  Lemma omapg_map {A B C} (f : B -> option C) (g : A -> B) l : omapg f (map g l) = omapg (fun a => f (g a)) l.
  Proof. induction l as [|a l IH]; [reflexivity|]. cbn [map]. rewrite !omapg_cons, IH. reflexivity. Qed.
  Lemma omapg_ext_in {A B} (f g : A -> option B) l : (forall a, In a l -> f a = g a) -> omapg f l = omapg g l.
  Proof.
    intros H. induction l as [|a l IH]; [reflexivity|]. rewrite !omapg_cons, (H a (or_introl eq_refl)). rewrite IH; [reflexivity|]. intros z Hz. apply H. right. exact Hz.
  Qed.
  Lemma item_dot iter i a : existsb (Ascii.eqb "."%char) (item_name iter i a) = true.
  Proof. unfold item_name. rewrite !existsb_app. cbn. rewrite !orb_true_r. reflexivity. Qed.
  Lemma lane_item (E : env) x iter i it r : (forall a, e_name E (item_name iter i a) = it a) ->
    lane_of phys E (item_ref x iter i r) = lane_of phys (bind E x it) r.
  Proof.
    intros H. unfold lane_of. rewrite (@look_item E x iter i it r H). destruct r as [o a|n]; [|reflexivity]. cbn [item_ref].
    destruct (word_eqb o x); [|reflexivity]. fold (item_name iter i a). rewrite item_dot. destruct (look (bind E x it) (RAttr o a)) as [[| |]|]; reflexivity.
  Qed.

  Lemma item_eval E x iter i (it : word -> option gval) e : (forall a, e_name E (item_name iter i a) = it a) -> no_red e = true ->
    geval E (item_of x iter i e) = geval (bind E x it) e.
  Proof.
    intros H. induction e using gex_ind'; cbn [no_red]; intros Hr; try reflexivity; try discriminate.
    - cbn [item_of GuardSpec.geval]. apply look_item. exact H.
    - cbn. rewrite IHe by exact Hr. reflexivity.
    - cbn. rewrite IHe by exact Hr. reflexivity.
    - apply andb_true_iff in Hr. destruct Hr. cbn. rewrite IHe1, IHe2 by assumption. reflexivity.
    - apply andb_true_iff in Hr. destruct Hr. cbn. rewrite IHe1, IHe2 by assumption. reflexivity.
    - cbn. rewrite omapg_map. rewrite (@omapg_ext_in _ _ _ (geval (bind E x it)) es); [reflexivity|]. intros a Ha. rewrite Forall_forall in H0. apply H0; [exact Ha|].
      rewrite forallb_forall in Hr. apply Hr. exact Ha.
    - cbn. rewrite omapg_map. f_equal. apply omapg_ext_in. intros [r|t|q] _; try reflexivity. rewrite (@look_item E x iter i it r H). reflexivity.
    - cbn. rewrite (@lane_item E x iter i it l H), (@look_item E x iter i it p H), (@look_item E x iter i it q H). reflexivity.
  Qed.

  Lemma forall2_seq {A B} (P : nat -> B -> Prop) (Q0 : A -> B -> Prop) (l : list A) k bs :
    (forall i a b, nth_error l i = Some a -> (P (k + i) b <-> Q0 a b)) -> (Forall2 P (seq k (length l)) bs <-> Forall2 Q0 l bs).
  Proof.
    revert k bs. induction l as [|a l IH]; intros k bs H; cbn.
    - split; intros F; inversion F; constructor.
    - assert (H0 : forall b, P k b <-> Q0 a b). { intros b. specialize (H 0 a b eq_refl). rewrite Nat.add_0_r in H. exact H. }
      assert (H1 : forall bs, Forall2 P (seq (S k) (length l)) bs <-> Forall2 Q0 l bs). { intros bs'. apply IH. intros i z b Hz. specialize (H (S i) z b Hz). rewrite Nat.add_succ_r in H. exact H. }
      split; intros F; inversion F; subst; constructor; try (apply H0; assumption); apply H1; assumption.
  Qed.

  Lemma unroll_red_iff len E ex body x iter items e' b : lists_named len E -> e_list E iter = Some items -> no_red body = true ->
    unroll_red len ex body x iter = Some e' ->
    geval E e' = Some (VB num b) <-> exists bs, Forall2 (fun it c => geval (bind E x it) body = Some (VB num c)) items bs /\ b = junction (negb ex) bs.
  Proof.
    intros HL Hi Hr Hu. destruct (HL _ _ Hi) as [Hn Hna]. unfold unroll_red in Hu. rewrite Hn in Hu. cbn [obind] in Hu.
    assert (Eq : forall bs, Forall2 (fun e c => geval E e = Some (VB num c)) (map (fun i => item_of x iter i body) (seq 0 (length items))) bs <->
                            Forall2 (fun it c => geval (bind E x it) body = Some (VB num c)) items bs).
    { intros bs. rewrite <- (@forall2_seq _ _ (fun i c => geval E (item_of x iter i body) = Some (VB num c)) _ items 0).
      - clear Hu. split; intros F.
        + remember (map (fun i => item_of x iter i body) (seq 0 (length items))) as es eqn:Ees. revert Ees. generalize (seq 0 (length items)) as l.
          induction F as [|e c es bs He F IH]; intros [|i l] Ees; try discriminate; [constructor|]. injection Ees as -> ->. constructor; [exact He|apply IH; reflexivity].
        + induction F as [|i c l bs He F IH]; cbn; constructor; [exact He|exact IH].
      - intros i it c Hit. cbn. rewrite (@item_eval E x iter i it body (fun a => Hna i it a Hit) Hr). reflexivity. }
    assert (Op : geval E (GBoolOp (negb ex) (map (fun i => item_of x iter i body) (seq 0 (length items)))) = Some (VB num b) <->
                 exists bs, Forall2 (fun it c => geval (bind E x it) body = Some (VB num c)) items bs /\ b = junction (negb ex) bs).
    { split.
      - intros He. destruct (eval_op _ _ _ He) as (bs & F & [= ->]). exists bs. split; [apply Eq; exact F|reflexivity].
      - intros (bs & F & ->). apply eval_op_intro. apply Eq. exact F. }
    destruct (map (fun i => item_of x iter i body) (seq 0 (length items))) as [|e1 [|e2 es]] eqn:Em; try (injection Hu as <-; exact Op).
    injection Hu as <-. split.
    - intros He. exists [b]. split; [apply Eq; constructor; [exact He|constructor]|]. destruct ex; cbn; destruct b; reflexivity.
    - intros (bs & F & ->). apply Eq in F. inversion F as [|? c ? l Hc F1]; subst. inversion F1; subst. rewrite Hc. destruct ex; cbn; destruct c; reflexivity.
  Qed.

  Lemma eval_red E ex body x iter u : geval E (GRed ex body x iter) = Some u ->
    exists items bs, e_list E iter = Some items /\ Forall2 (fun it c => geval (bind E x it) body = Some (VB num c)) items bs /\ u = VB num (junction (negb ex) bs).
  Proof.
    cbn. destruct (e_list E iter) as [items|]; [|discriminate]. cbn [obind]. intros H. exists items.
    destruct (omapg (fun it => geval (bind E x it) body) items) as [vs|] eqn:Ev; [|discriminate]. cbn [obind] in H. destruct (omapg (@as_bool num) vs) as [bs|] eqn:Eb; [|discriminate].
    injection H as <-. exists bs. split; [reflexivity|]. split; [|reflexivity]. apply omapg_iff in Ev, Eb.
    revert bs Eb. induction Ev as [|e v es vs He F IH]; intros bs Eb; inversion Eb as [|? c ? bs' Hx F' ]; subst; constructor.
    - destruct v; try discriminate. injection Hx as ->. exact He.
    - apply IH. exact F'.
  Qed.

  Lemma unroll_sound len E : lists_named len E -> forall e e' u, unroll len e = Some e' -> geval E e = Some u -> geval E e' = Some u.
  Proof.
    intros HL. induction e using gex_ind'; intros e' u Hu He; try (injection Hu as <-; exact He); cbn in Hu.
    - destruct (unroll len e) as [a|]; [|discriminate]. injection Hu as <-. cbn in *. destruct (geval E e) as [v|]; [|discriminate]. rewrite (IHe a v eq_refl eq_refl). exact He.
    - destruct (unroll len e) as [a|]; [|discriminate]. injection Hu as <-. cbn in *. destruct (geval E e) as [v|]; [|discriminate]. rewrite (IHe a v eq_refl eq_refl). exact He.
    - destruct (unroll len e1) as [a|]; [|discriminate]. cbn [obind] in Hu. destruct (unroll len e2) as [c|]; [|discriminate]. injection Hu as <-. cbn in *.
      destruct (geval E e1) as [v|]; [|discriminate]. rewrite (IHe1 a v eq_refl eq_refl). cbn [obind] in *. destruct (geval E e2) as [v2|]; [|discriminate]. rewrite (IHe2 c v2 eq_refl eq_refl). exact He.
    - destruct (unroll len e1) as [a|]; [|discriminate]. cbn [obind] in Hu. destruct (unroll len e2) as [c|]; [|discriminate]. injection Hu as <-. cbn in *.
      destruct (geval E e1) as [v|]; [|discriminate]. rewrite (IHe1 a v eq_refl eq_refl). cbn [obind] in *. destruct (geval E e2) as [v2|]; [|discriminate]. rewrite (IHe2 c v2 eq_refl eq_refl). exact He.
    - fold (@omapg gex gex) in Hu. destruct (omapg (unroll len) es) as [es'|] eqn:Eu; [|discriminate]. injection Hu as <-. destruct (eval_op _ _ _ He) as (bs & HV & ->). apply eval_op_intro.
      apply omapg_iff in Eu. clear He. revert bs HV. induction Eu as [|e a es es' Hea F IH]; intros bs HV; inversion HV as [|? c ? bs' Hc HV']; subst; constructor.
      + inversion H; subst. eauto.
      + inversion H; subst. auto.
    - destruct (no_red e) eqn:Er; [|discriminate]. destruct (eval_red _ _ _ _ _ He) as (items & bs & Hi & F & ->).
      apply (unroll_red_iff b e x i (junction (negb b) bs) HL Hi Er Hu). exists bs. auto.
  Qed.

  Lemma item_red x iter i e : no_red e = true -> no_red (item_of x iter i e) = true.
  Proof.
    induction e using gex_ind'; cbn; intros Hr; auto.
    - apply andb_true_iff in Hr. destruct Hr. rewrite IHe1, IHe2; auto.
    - apply andb_true_iff in Hr. destruct Hr. rewrite IHe1, IHe2; auto.
    - rewrite forallb_map || idtac. rewrite forallb_forall in *. intros e' He'. apply in_map_iff in He'. destruct He' as (a & <- & Ha). rewrite Forall_forall in H. auto.
  Qed.
  Lemma item_free x iter i e : lane_free e = true -> lane_free (item_of x iter i e) = true.
  Proof.
    induction e using gex_ind'; cbn; intros Hr; auto.
    - apply andb_true_iff in Hr. destruct Hr. rewrite IHe1, IHe2; auto.
    - apply andb_true_iff in Hr. destruct Hr. rewrite IHe1, IHe2; auto.
    - rewrite forallb_forall in *. intros e' He'. apply in_map_iff in He'. destruct He' as (a & <- & Ha). rewrite Forall_forall in H. auto.
  Qed.
  Lemma unroll_shape len e : forall e', unroll len e = Some e' -> no_red e' = true /\ (lane_free e = true -> lane_free e' = true).
  Proof.
    induction e using gex_ind'; intros e' Hu; try (injection Hu as <-; split; [reflexivity|auto]); cbn in Hu.
    - destruct (unroll len e) as [a|]; [|discriminate]. injection Hu as <-. exact (IHe a eq_refl).
    - destruct (unroll len e) as [a|]; [|discriminate]. injection Hu as <-. exact (IHe a eq_refl).
    - destruct (unroll len e1) as [a|]; [|discriminate]. cbn [obind] in Hu. destruct (unroll len e2) as [c|]; [|discriminate]. injection Hu as <-. cbn.
      destruct (IHe1 a eq_refl) as [A1 A2], (IHe2 c eq_refl) as [C1 C2]. rewrite A1, C1. split; [reflexivity|]. rewrite !andb_true_iff. intros []. auto.
    - destruct (unroll len e1) as [a|]; [|discriminate]. cbn [obind] in Hu. destruct (unroll len e2) as [c|]; [|discriminate]. injection Hu as <-. cbn.
      destruct (IHe1 a eq_refl) as [A1 A2], (IHe2 c eq_refl) as [C1 C2]. rewrite A1, C1. split; [reflexivity|]. rewrite !andb_true_iff. intros []. auto.
    - fold (@omapg gex gex) in Hu. destruct (omapg (unroll len) es) as [es'|] eqn:Eu; [|discriminate]. injection Hu as <-. apply omapg_iff in Eu. cbn.
      induction Eu as [|e a es es' Hea F IH]; [auto|]. inversion H as [|? ? H1 H2]; subst. cbn. destruct (H1 a Hea) as [A1 A2]. destruct (IH H2) as [B1 B2]. rewrite A1, B1. split; [reflexivity|].
      rewrite !andb_true_iff. intros []. auto.
    - destruct (no_red e) eqn:Er; [|discriminate]. unfold unroll_red in Hu. destruct (len i) as [n|]; [|discriminate]. cbn [obind] in Hu.
      assert (A : forallb no_red (map (fun k => item_of x i k e) (seq 0 n)) = true).
      { apply forallb_forall. intros a Ha. apply in_map_iff in Ha. destruct Ha as (k & <- & _). apply item_red. exact Er. }
      assert (B : lane_free e = true -> forallb lane_free (map (fun k => item_of x i k e) (seq 0 n)) = true).
      { intros Hf. apply forallb_forall. intros a Ha. apply in_map_iff in Ha. destruct Ha as (k & <- & _). apply item_free. exact Hf. }
      destruct (map (fun k => item_of x i k e) (seq 0 n)) as [|e1 [|e2 es]]; injection Hu as <-; auto.
      cbn in A, B. rewrite andb_true_r in A, B. auto.
  Qed.

  Lemma geval_flat dd ks len s e : no_red e = true -> geval (agents dd ks len s) e = geval (flat dd ks s) e.
  Proof.
    induction e using gex_ind'; intros Hr; try reflexivity; cbn [no_red] in Hr; try discriminate.
    - cbn [GuardSpec.geval]. rewrite IHe by exact Hr. reflexivity.
    - cbn [GuardSpec.geval]. rewrite IHe by exact Hr. reflexivity.
    - apply andb_true_iff in Hr. destruct Hr. cbn [GuardSpec.geval]. rewrite IHe1, IHe2 by assumption. reflexivity.
    - apply andb_true_iff in Hr. destruct Hr. cbn [GuardSpec.geval]. rewrite IHe1, IHe2 by assumption. reflexivity.
    - cbn [GuardSpec.geval]. rewrite (@omapg_ext_in _ _ _ (geval (flat dd ks s)) es); [reflexivity|]. intros a Ha. rewrite Forall_forall in H. apply H; [exact Ha|].
      rewrite forallb_forall in Hr. apply Hr. exact Ha.
  Qed.
  Lemma agents_named dd ks len (s : word -> num) : lists_named len (agents dd ks len s).
  Proof.
    intros iter items H. cbn in H. destruct (len iter) as [n|]; [|discriminate]. injection H as <-. split; [rewrite map_length, seq_length; reflexivity|].
    intros i it a Hi. rewrite nth_error_map in Hi. destruct (nth_error (seq 0 n) i) as [j|] eqn:Ej; [|discriminate]. injection Hi as <-.
    assert (i < n). { assert (nth_error (seq 0 n) i <> None) as K by congruence. apply nth_error_Some in K. rewrite seq_length in K. exact K. }
    apply (nth_error_nth _ _ 0) in Ej. rewrite seq_nth in Ej by assumption. cbn in Ej. subst j. reflexivity.
  Qed.
End Sem.
