(** C77, C78: the cached, domain-splitting analysis of sensor functions. *)
From Coq Require Import Ascii String Reals Qreals Lra.
From Verif Require Import Base BaseFacts PyText Dict ScanProofs Piecewise PiecewiseSpec PiecewiseProofs PiecewiseMain PiecewiseProps ParseArray ParseArraySpec ParseArrayProofs.
Set Implicit Arguments.
Open Scope nat_scope.

(** The analysis of one box; the options are the piecewise functions and the bounds of map functions, which depend on
    the track mode and the track map. *)
Definition options : Type := list func * (word -> list word -> bounds -> option (list (Q * Q))).
Definition one_box opt crown angular (o : options) (f : func) (cur : bounds) : option bounds :=
  parse_function opt crown angular (snd o) ALIASES ANGULAR_FUNCTIONS MAP_FUNCTIONS (fst o) f cur.

(** * C77: bounds returned over any history of calls contain the values *)
(** Missing: variables with several intervals when a domain is split and the union of intervals loses values (that of the
    code does: [C77_several_refuted]), calls with different options, and functions that share a name (refuted below). *)
Theorem C77_history_partial : forall call opt crown angular merge (K : Type) keqb (key pkey : bounds -> word -> K) (o : options) es st answers,
  (forall a b, keqb a b = true <-> a = b) -> tells key key -> tells pkey key ->
  same_options o es -> distinct_names es ->
  (forall f, calls es f -> NoDup (params f) /\ forall box, length box = length (params f) ->
     body_ok call opt crown angular (snd o) ALIASES ANGULAR_FUNCTIONS MAP_FUNCTIONS (fst o) (fbody f) (named (params f) box)) ->
  steps (one_box opt crown angular) merge keqb key pkey [] es = (st, answers) ->
  forall i f box cache n a x,
    nth_error es i = Some (Call o f box cache n) -> nth_error answers i = Some (Some a) ->
    single (one_box opt crown angular) o f x \/ never_splits es \/ keeps merge ->
    bounds_of call f box x (answer_bounds a).
Proof.
  intros call opt crown angular merge K keqb key pkey o es st answers E T1 T2 SO DN OK ST i f box cache n a x Ei Ai W.
  refine (proj1 (@steps_result options call (one_box opt crown angular) merge K keqb E key pkey T1 T2 es o
    (fun f => assigned (fbody f) ++ params f) SO DN (fun f C => proj1 (OK f C)) _ _ es [] st answers _ _ ST i f box cache n a Ei Ai) x W).
  - intros g bx r y C A L vs v V (s' & R & G). destruct (OK g C) as [N B].
    eapply (@parse_body_sound call opt crown angular (snd o) ALIASES ANGULAR_FUNCTIONS MAP_FUNCTIONS (fst o) (fbody g) _ (B bx L) _ s' r); [|exact A|exact R|exact G].
    apply in_box_state; assumption.
  - intros g bx r y C A L. rewrite (@body_keys opt crown angular (snd o) ALIASES ANGULAR_FUNCTIONS MAP_FUNCTIONS (fst o) _ _ _ A y), named_keys by (apply (OK g C) || exact L).
    rewrite in_app_iff. reflexivity.
  - intros y Hy. exact Hy.
  - intros k b H. discriminate.
Qed.

(** The boxes of a split cover the domain. *)
Theorem C77_split_covers : forall n input vs, 1 <= n -> in_box vs input ->
  exists sb, In sb (product (map (splits n) input)) /\ in_box vs sb.
Proof.
  intros n input vs N V. apply pieces_cover; [exact V|]. clear V. induction input as [|b input IH]; [discriminate|].
  assert (S : splits n b <> []) by (unfold splits; destruct (Qeq_bool (fst b) (snd b)); [discriminate|destruct n; [lia|discriminate]]).
  cbn [map product]. destruct (splits n b) as [|c l]; [contradiction|]. cbn [flat_map]. intros H. apply app_eq_nil in H. destruct H as [H _].
  apply map_eq_nil in H. contradiction.
Qed.

(** * C78: cached results are kept until the cache is cleared *)
Theorem C78_kept : forall (O : Type) (analyse : O -> func -> bounds -> option bounds) merge (K : Type) keqb (key pkey : bounds -> word -> K),
  (forall a b, keqb a b = true <-> a = b) ->
  forall o st f input n st' a es, parse_array analyse merge keqb key pkey o st f input true n = Some (st', a) -> (forall e, In e es -> e <> Clear) ->
  let later := fst (steps analyse merge keqb key pkey st' es) in
  forall o' cache n', parse_array analyse merge keqb key pkey o' later f input cache n' = Some (later, Only (answer_bounds a)).
Proof.
  intros O analyse merge K keqb key pkey E o st f input n st' a es H NC later o' cache n'.
  destruct (@array_stores _ _ _ _ _ E _ _ _ _ _ _ _ _ _ H) as (L & V & D). apply array_hit; [exact L|exact V|]. apply steps_keep; assumption.
Qed.
(** A call with [cache=False] stores nothing. *)
Theorem C78_uncached : forall (O : Type) (analyse : O -> func -> bounds -> option bounds) merge (K : Type) keqb (key pkey : bounds -> word -> K) o st f input n st' a,
  parse_array analyse merge keqb key pkey o st f input false n = Some (st', a) -> st' = st.
Proof. intros. eapply array_uncached; eassumption. Qed.
(** After the cache is cleared every call is answered as with an empty cache. *)
Theorem C78_cleared : forall (O : Type) (analyse : O -> func -> bounds -> option bounds) merge (K : Type) keqb (key pkey : bounds -> word -> K) es es' st,
  steps analyse merge keqb key pkey st (es ++ Clear :: es') =
  (let r := steps analyse merge keqb key pkey st es in let r' := steps analyse merge keqb key pkey [] es' in (fst r', snd r ++ None :: snd r')).
Proof.
  intros O analyse merge K keqb key pkey es es'. induction es as [|e es IH]; intros st; cbn [app steps].
  - cbn [step]. destruct (steps analyse merge keqb key pkey [] es'). reflexivity.
  - destruct (step analyse merge keqb key pkey st e) as [st1 a1]. rewrite IH. destruct (steps analyse merge keqb key pkey st1 es). reflexivity.
Qed.

(** ** Where they fail *)
(** Keys that are the bounds, in lowest terms, and the name. *)
Definition text : Type := dict word (list (Q * Q)) * word.
Definition text_of (b : bounds) (x : word) : text := (map (fun p => (fst p, map (fun i => (Qred (fst i), Qred (snd i))) (snd p))) b, x).
Definition q_eqb (p q : Q) : bool := Z.eqb (Qnum p) (Qnum q) && Pos.eqb (Qden p) (Qden q).
Definition i_eqb (i j : Q * Q) : bool := q_eqb (fst i) (fst j) && q_eqb (snd i) (snd j).
Definition text_eqb (a b : text) : bool :=
  list_eqb (fun p q => word_eqb (fst p) (fst q) && list_eqb i_eqb (snd p) (snd q)) (fst a) (fst b) && word_eqb (snd a) (snd b).
Lemma q_eqb_iff p q : q_eqb p q = true <-> p = q.
Proof. unfold q_eqb. rewrite andb_true_iff, Z.eqb_eq, Pos.eqb_eq. destruct p, q; simpl. split; [intros [-> ->]; reflexivity|intros [= -> ->]; auto]. Qed.
Lemma i_eqb_iff i j : i_eqb i j = true <-> i = j.
Proof. unfold i_eqb. rewrite andb_true_iff, !q_eqb_iff. destruct i, j; simpl. split; [intros [-> ->]; reflexivity|intros [= -> ->]; auto]. Qed.
Lemma text_eqb_iff a b : text_eqb a b = true <-> a = b.
Proof.
  unfold text_eqb. rewrite andb_true_iff, word_eqb_iff, list_eqb_eq.
  - destruct a, b; simpl. split; [intros [-> ->]; reflexivity|intros [= -> ->]; auto].
  - intros [x l] [y l']. cbn [fst snd]. rewrite andb_true_iff, word_eqb_iff, (list_eqb_eq i_eqb i_eqb_iff). split; [intros [-> ->]; reflexivity|intros [= -> ->]; auto].
Qed.
Lemma map_eq_Forall2 {A B C} (f : A -> C) (g : B -> C) l : forall l', map f l = map g l' -> Forall2 (fun a b => f a = g b) l l'.
Proof. induction l as [|a l IH]; intros [|b l'] H; try discriminate; constructor; injection H; auto. Qed.
Lemma Forall2_weaken {A B} (P R : A -> B -> Prop) l l' : (forall a b, P a b -> R a b) -> Forall2 P l l' -> Forall2 R l l'.
Proof. induction 2; constructor; auto. Qed.
Lemma text_tells : tells text_of text_of.
Proof.
  intros b b' x x' E. injection E as E ->. split; [|reflexivity]. apply map_eq_Forall2 in E. eapply Forall2_weaken; [|exact E].
  intros [y l] [y' l'] H. injection H as -> H. split; [reflexivity|]. cbn [snd] in *. apply map_eq_Forall2 in H. eapply Forall2_weaken; [|exact H].
  intros [lo hi] [lo' hi'] J. cbn [fst snd] in J. injection J as J1 J2. cbn [fst snd].
  split; [rewrite <- (Qred_correct lo), <- (Qred_correct lo'), J1|rewrite <- (Qred_correct hi), <- (Qred_correct hi'), J2]; reflexivity.
Qed.

Definition fx (body : list stmt) : func := mkfunc (w "f") [w "x"] body.
Definition a1 : func := fx [SAssign (w "a") (EConst 1); SReturn (EName (w "a"))].
Definition a2 : func := fx [SAssign (w "a") (EConst 2); SReturn (EName (w "a"))].
Definition no_map (f : word) (args : list word) (cur : bounds) : option (list (Q * Q)) := None.
Definition zero_opt : options := ([], no_map).
Definition no_merge (l : list (list (Q * Q))) : list (Q * Q) := [].
Lemma const_ok call opt angular q box : body_ok call opt tests angular no_map ALIASES ANGULAR_FUNCTIONS MAP_FUNCTIONS []
  (fbody (fx [SAssign (w "a") (EConst q); SReturn (EName (w "a"))])) (named [w "x"] box).
Proof.
  apply ok_assign; [|intros b' _; apply ok_return]. eapply rhs_plain; [reflexivity| | |apply tests_sound]; [reflexivity|].
  intros h Hh. simpl in Hh. destruct Hh as [<-|[<-|[<-|[<-|[]]]]]; vm_compute; reflexivity.
Qed.

(** Functions of the same name share results: [def f(x): a = 2; return a] after [def f(x): a = 1; return a]. *)
Theorem C77_same_name_refuted : exists call opt crown angular merge (o : options) es st answers i f box cache n a x,
  same_options o es /\ never_splits es /\
  (forall f, calls es f -> NoDup (params f) /\ forall box, length box = length (params f) ->
     body_ok call opt crown angular (snd o) ALIASES ANGULAR_FUNCTIONS MAP_FUNCTIONS (fst o) (fbody f) (named (params f) box)) /\
  steps (one_box opt crown angular) merge text_eqb text_of text_of [] es = (st, answers) /\
  nth_error es i = Some (Call o f box cache n) /\ nth_error answers i = Some (Some a) /\
  ~ bounds_of call f box x (answer_bounds a).
Proof.
  exists (fun _ _ => None), (fun _ _ _ => None), tests, no_map, no_merge, zero_opt, [Call zero_opt a1 [(0, 1)%Q] true 1; Call zero_opt a2 [(0, 1)%Q] true 1].
  eexists. eexists. exists 1, a2, [(0, 1)%Q], true, 1. eexists. exists (w "a").
  split; [intros o' f box cache n [[= <- <- <- <- <-]|[[= <- <- <- <- <-]|[]]]; reflexivity|].
  split; [intros o' f box cache n [[= <- <- <- <- <-]|[[= <- <- <- <- <-]|[]]]; reflexivity|].
  split; [|split; [vm_compute; reflexivity|split; [reflexivity|split; [reflexivity|]]]].
  - intros f (o & box & cache & n & [[= <- <- <- <- <-]|[[= <- <- <- <- <-]|[]]]).
    + split; [repeat constructor; intros []|]. intros bx _. apply const_ok.
    + split; [repeat constructor; intros []|]. intros bx _. apply const_ok.
  - intros B. destruct (B [0%R] (Q2R 2)) as (l & G & b & Hb & V).
    + constructor; [|constructor]. simpl. unfold Q2R; simpl; lra.
    + eexists. split; [eapply run_assign; [reflexivity|apply run_nil]|]. reflexivity.
    + vm_compute in G. injection G as <-. destruct Hb as [<-|[]]. unfold Q2R in V; simpl in V. lra.
Qed.

(** The track mode and map are not part of the key: the bounds for one track are returned for another.  [heading h] is
    the heading on a track whose heading is [h] everywhere. *)
Definition heading (h : Q) (f : word) (vs : list R) : option R :=
  if word_eqb f (w "get_lane_heading") || word_eqb f (w "get_heading_bounds_optimized") then Some (Q2R h) else None.
Definition heading_bounds (h : Q) (f : word) (args : list word) (cur : bounds) : option (list (Q * Q)) :=
  if word_eqb f (w "get_heading_bounds_optimized") then Some [(h, h)] else None.
Definition ahead : func := fx [SAssign (w "a") (ECall (w "get_lane_heading") [EName (w "x")]); SReturn (EName (w "a"))].
Lemma ahead_ok h opt angular box : length box = 1 -> body_ok (heading h) opt tests angular (heading_bounds h) ALIASES ANGULAR_FUNCTIONS MAP_FUNCTIONS []
  (fbody ahead) (named [w "x"] box).
Proof.
  intros L. destruct box as [|b [|? ?]]; try discriminate. apply ok_assign; [|intros b' _; apply ok_return].
  apply rhs_call with (g := w "get_heading_bounds_optimized") (xs := [w "x"]).
  - vm_compute. reflexivity.
  - intros s. reflexivity.
  - intros y [<-|[]]. left. reflexivity.
  - intros k Hk M. simpl in Hk. destruct Hk as [<-|[<-|[<-|[<-|[]]]]]; try reflexivity; vm_compute in M; discriminate.
  - right. left. split; [intros [H|[H|[]]]; discriminate|]. split; [intros []|]. split; [left; reflexivity|].
    intros args cur l vs v H _ C. injection H as <-. injection C as <-. exists (h, h). split; [left; reflexivity|]. simpl. lra.
Qed.
Theorem C77_options_refuted : exists opt crown angular merge (o1 o2 : options) call1 call2 f box,
  (forall box, length box = length (params f) ->
     body_ok call1 opt crown angular (snd o1) ALIASES ANGULAR_FUNCTIONS MAP_FUNCTIONS (fst o1) (fbody f) (named (params f) box) /\
     body_ok call2 opt crown angular (snd o2) ALIASES ANGULAR_FUNCTIONS MAP_FUNCTIONS (fst o2) (fbody f) (named (params f) box)) /\
  exists st b b', steps (one_box opt crown angular) merge text_eqb text_of text_of [] [Call o1 f box true 1; Call o2 f box true 1] = (st, [Some (Pair b); Some (Only b')]) /\
  ~ bounds_of call2 f box (w "a") b'.
Proof.
  exists (fun _ _ _ => None), tests, no_map, no_merge, ([], heading_bounds 0), ([], heading_bounds 1), (heading 0), (heading 1), ahead, [(0, 1)%Q].
  split; [intros box L; split; apply ahead_ok; exact L|]. eexists. eexists. eexists. split; [vm_compute; reflexivity|].
  intros B. destruct (B [0%R] (Q2R 1)) as (l & G & b & Hb & V).
  + constructor; [|constructor]. simpl. unfold Q2R; simpl; lra.
  + eexists. split; [eapply run_assign; [reflexivity|apply run_nil]|]. reflexivity.
  + vm_compute in G. injection G as <-. destruct Hb as [<-|[]]. unfold Q2R in V; simpl in V. lra.
Qed.

(** The same call returns a pair the first time and the bounds alone the second time. *)
Theorem C78_shape_refuted : exists opt crown angular merge (o : options) f box st b,
  steps (one_box opt crown angular) merge text_eqb text_of text_of [] [Call o f box true 1; Call o f box true 1] = (st, [Some (Pair b); Some (Only b)]).
Proof. exists (fun _ _ _ => None), tests, no_map, no_merge, zero_opt, a1, [(0, 1)%Q]. eexists. eexists. vm_compute. reflexivity. Qed.

Print Assumptions C77_history_partial.
Print Assumptions C77_split_covers.
Print Assumptions C77_same_name_refuted.
Print Assumptions C77_options_refuted.
Print Assumptions C78_kept.
Print Assumptions C78_uncached.
Print Assumptions C78_cleared.
Print Assumptions C78_shape_refuted.

Module Example_parse_array.
  (** def f(x, z): a = x; return a, split in two for x in [0, 4] and z = 1, asked again, cleared, asked unsplit. *)
  Definition id2 : func := mkfunc (w "g") [w "x"; w "z"] [SAssign (w "a") (EName (w "x")); SReturn (EName (w "a"))].
  Definition box : list (Q * Q) := [(0, 4)%Q; (1, 1)%Q].
  Definition es : list (event options) := [Call zero_opt id2 box true 2; Call zero_opt id2 box false 3; Clear; Call zero_opt id2 box true 1].
  Definition out : bounds := [(w "x", [(0, 4)%Q]); (w "z", [(1, 1)%Q]); (w "a", [(0, 4)%Q])].
  Lemma id2_ok call opt angular bx : body_ok call opt tests angular no_map ALIASES ANGULAR_FUNCTIONS MAP_FUNCTIONS [] (fbody id2) (named (params id2) bx).
  Proof.
    apply ok_assign; [|intros b' _; apply ok_return]. eapply rhs_plain; [vm_compute; reflexivity|reflexivity| |apply tests_sound].
    intros h Hh. simpl in Hh. destruct Hh as [<-|[<-|[<-|[<-|[]]]]]; vm_compute; reflexivity.
  Qed.
  Example ex_splits : splits 2 (0, 4)%Q = [(split_point 0 4 2 0, split_point 0 4 2 1); (split_point 0 4 2 1, 4%Q)] /\ (split_point 0 4 2 1 == 2)%Q.
  Proof. vm_compute. auto. Qed.
  Example ex_steps : exists st b0 b1, steps (one_box (fun _ _ _ => None) tests no_map) no_merge text_eqb text_of text_of [] es =
    (st, [Some (Only b0); Some (Only b0); None; Some (Pair b1)]) /\ same_bounds b0 out /\ b1 = out.
  Proof. eexists. eexists. eexists. split; [vm_compute; reflexivity|]. split; [|reflexivity]. repeat constructor; vm_compute; reflexivity. Qed.
  Example ex_C77 : forall call, exists st answers, steps (one_box (fun _ _ _ => None) tests no_map) no_merge text_eqb text_of text_of [] es = (st, answers) /\
    exists a, nth_error answers 1 = Some (Some a) /\ bounds_of call id2 box (w "a") (answer_bounds a).
  Proof.
    intros call. eexists. eexists. split; [vm_compute; reflexivity|]. eexists. split; [reflexivity|].
    eapply (@C77_history_partial call (fun _ _ _ => None) tests no_map no_merge text text_eqb text_of text_of zero_opt es) with (i := 1).
    - apply text_eqb_iff.
    - apply text_tells.
    - apply text_tells.
    - intros o' f bx cache n. simpl. intuition congruence.
    - intros f g (o & bx & c & n & H) (o' & bx' & c' & n' & H'). simpl in H, H'. intuition congruence.
    - intros f (o & bx & c & n & H). assert (f = id2) by (simpl in H; intuition congruence). subst f. split; [repeat constructor; simpl; intuition discriminate|].
      intros bx' _. apply id2_ok.
    - vm_compute. reflexivity.
    - reflexivity.
    - reflexivity.
    - left. intros bx r l A G. destruct bx as [|b [|c bx]]; vm_compute in A; try discriminate; injection A as <-; vm_compute in G; injection G as <-; reflexivity.
  Qed.
End Example_parse_array.
