(** Python dictionaries as association lists in insertion order. *)
From Verif Require Import Base.
Set Implicit Arguments.
Open Scope nat_scope.

Notation dict K V := (list (K * V)).

Section Dict.
  Variables (K V : Type) (eqb : K -> K -> bool).

  (** [d.get(k)] *)
  Fixpoint dget (k : K) (d : dict K V) : option V :=
    match d with
    | [] => None
    | (k', v) :: d' => if eqb k k' then Some v else dget k d'
    end.

  (** [d[k] = f(d.get(k))]: an existing key keeps its place, a new one goes to the end. *)
  Fixpoint dalter (f : option V -> V) (k : K) (d : dict K V) : dict K V :=
    match d with
    | [] => [(k, f None)]
    | (k', v) :: d' => if eqb k k' then (k', f (Some v)) :: d' else (k', v) :: dalter f k d'
    end.

  (** [d[k] = v] *)
  Definition dset (k : K) (v : V) (d : dict K V) : dict K V := dalter (fun _ => v) k d.

  (** [k in d] *)
  Definition dmem (k : K) (d : dict K V) : bool := match dget k d with Some _ => true | None => false end.
End Dict.

(** [d[k].append(v)] with [d = defaultdict(list)]. *)
Definition dappend {K V : Type} (eqb : K -> K -> bool) (k : K) (v : V) (d : dict K (list V)) : dict K (list V) :=
  dalter eqb (fun o => match o with Some l => l ++ [v] | None => [v] end) k d.

Definition opt_eqb {A : Type} (eqb : A -> A -> bool) (x y : option A) : bool :=
  match x, y with Some a, Some b => eqb a b | None, None => true | _, _ => false end.
Fixpoint list_eqb {A : Type} (eqb : A -> A -> bool) (x y : list A) : bool :=
  match x, y with
  | [], [] => true
  | a :: x', b :: y' => eqb a b && list_eqb eqb x' y'
  | _, _ => false
  end.

(** ** Facts *)
Lemma opt_eqb_eq {A} (eqb : A -> A -> bool) : (forall a b, eqb a b = true <-> a = b) ->
  forall x y, opt_eqb eqb x y = true <-> x = y.
Proof.
  intros H [a|] [b|]; simpl; try (split; congruence). rewrite H. split; congruence.
Qed.
Lemma list_eqb_eq {A} (eqb : A -> A -> bool) : (forall a b, eqb a b = true <-> a = b) ->
  forall x y, list_eqb eqb x y = true <-> x = y.
Proof.
  intros H. induction x as [|a x IH]; intros [|b y]; simpl; try (split; congruence).
  rewrite andb_true_iff, H, IH. split; [intros [-> ->]; reflexivity|intros [= -> ->]; auto].
Qed.

Section DictFacts.
  Variables (K V : Type) (eqb : K -> K -> bool).
  Hypothesis eqb_eq : forall a b, eqb a b = true <-> a = b.

  Lemma eqb_refl' k : eqb k k = true. Proof. apply eqb_eq. reflexivity. Qed.
  Lemma eqb_neq' a b : a <> b -> eqb a b = false.
  Proof. intros H. destruct (eqb a b) eqn:E; [apply eqb_eq in E; contradiction|reflexivity]. Qed.

  Lemma dget_alter_same (f : option V -> V) k d : dget eqb k (dalter eqb f k d) = Some (f (dget eqb k d)).
  Proof.
    induction d as [|[k' v] d IH]; simpl; [rewrite eqb_refl'; reflexivity|].
    destruct (eqb k k') eqn:E; simpl; rewrite E; auto.
  Qed.
  Lemma dget_alter_other (f : option V -> V) k k' d : k <> k' -> dget eqb k' (dalter eqb f k d) = dget eqb k' d.
  Proof.
    intros H. induction d as [|[k2 v] d IH]; simpl; [rewrite eqb_neq' by congruence; reflexivity|].
    destruct (eqb k k2) eqn:E; simpl.
    - apply eqb_eq in E. subst k2. rewrite eqb_neq' by congruence. reflexivity.
    - destruct (eqb k' k2); auto.
  Qed.
  Lemma dalter_keys (f : option V -> V) k d :
    map fst (dalter eqb f k d) = if dmem eqb k d then map fst d else map fst d ++ [k].
  Proof.
    unfold dmem. induction d as [|[k' v] d IH]; simpl; [reflexivity|].
    destruct (eqb k k') eqn:E; simpl; [reflexivity|]. rewrite IH. destruct (dget eqb k d); reflexivity.
  Qed.
  Lemma dget_In k v (d : dict K V) : dget eqb k d = Some v -> In (k, v) d.
  Proof.
    induction d as [|[k' v'] d IH]; simpl; [discriminate|]. destruct (eqb k k') eqn:E; [|auto].
    apply eqb_eq in E. intros [= ->]. subst. auto.
  Qed.
  Lemma dget_None k (d : dict K V) : dget eqb k d = None <-> ~ In k (map fst d).
  Proof.
    induction d as [|[k' v'] d IH]; simpl; [tauto|]. destruct (eqb k k') eqn:E.
    - apply eqb_eq in E. subst. split; [discriminate|tauto].
    - rewrite IH. split; [|tauto]. intros H [->|H1]; [rewrite eqb_refl' in E; discriminate|tauto].
  Qed.
  Lemma In_dget k v (d : dict K V) : NoDup (map fst d) -> In (k, v) d -> dget eqb k d = Some v.
  Proof.
    induction d as [|[k' v'] d IH]; simpl; intros ND H; [contradiction|]. inversion ND; subst.
    destruct H as [[= -> ->]|H]; [rewrite eqb_refl'; reflexivity|].
    rewrite eqb_neq'; [auto|]. intros ->. apply H2. apply in_map_iff. exists (k', v). auto.
  Qed.
  Lemma dalter_nodup (f : option V -> V) k d : NoDup (map fst d) -> NoDup (map fst (dalter eqb f k d)).
  Proof.
    intros ND. rewrite dalter_keys. unfold dmem. destruct (dget eqb k d) eqn:E; [exact ND|].
    apply dget_None in E. clear -ND E. induction (map fst d) as [|x l IH]; simpl; [repeat constructor; simpl; tauto|].
    inversion ND; subst. constructor; [|apply IH; auto; intros H; apply E; simpl; auto].
    intros H. apply in_app_iff in H. destruct H as [H|[<-|[]]]; [auto|apply E; simpl; auto].
  Qed.
End DictFacts.
