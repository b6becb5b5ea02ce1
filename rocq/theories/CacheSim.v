(** Proofs about the simulation cache and the transition cache. *)
From Verif Require Import Base BaseFacts Dict Utils Cache CacheSpec CacheProofs.
From Coq Require Import Qabs Lqa Permutation.
Set Implicit Arguments.
Open Scope nat_scope.

Lemma mapM_In_r {A B} (f : A -> option B) l r b : mapM f l = Some r -> In b r -> exists a, In a l /\ f a = Some b.
Proof. intros H. apply mapM_Forall2 in H. induction H as [|x y l r E F IH]; intros I; [destruct I|]. destruct I as [<-|I]; [exists x; split; [left; reflexivity|exact E]|]. destruct (IH I) as (a & Ia & Ea). exists a. split; [right; exact Ia|exact Ea]. Qed.
Lemma mapM_In_l {A B} (f : A -> option B) l r a : mapM f l = Some r -> In a l -> exists b, In b r /\ f a = Some b.
Proof. intros H. apply mapM_Forall2 in H. induction H as [|x y l r E F IH]; intros I; [destruct I|]. destruct I as [<-|I]; [exists y; split; [left; reflexivity|exact E]|]. destruct (IH I) as (b & Ib & Eb). exists b. split; [right; exact Ib|exact Eb]. Qed.
Lemma mapM_some {A B} (f : A -> option B) l : (forall a, In a l -> f a <> None) -> exists r, mapM f l = Some r.
Proof.
  induction l as [|a l IH]; intros H; [exists []; reflexivity|]. cbn [mapM]. destruct (f a) as [b|] eqn:E; [|exfalso; apply (H a (or_introl eq_refl)); exact E].
  destruct IH as (r & ->); [intros x I; apply H; right; exact I|]. eexists. reflexivity.
Qed.

Lemma dedup_In {T K} (keqb : K -> K -> bool) (f : T -> K) l t : In t (dedup keqb f l) -> In t l.
Proof.
  unfold dedup. assert (G : forall (ps o : list (T * K)) t, In t (map fst (fold_left (dedup_step keqb) ps o)) -> In t (map fst o) \/ In t (map fst ps)).
  { induction ps as [|p ps IH]; intros o x H; [left; exact H|]. cbn [fold_left] in H. apply IH in H. destruct H as [H|H]; [|right; right; exact H].
    unfold dedup_step in H. destruct (existsb _ o); [left; exact H|]. rewrite map_app in H. apply in_app_or in H. destruct H as [H|[<-|[]]]; [left; exact H|right; left; reflexivity]. }
  intros H. apply G in H. destruct H as [[]|H]. rewrite map_map in H. cbn [fst] in H. rewrite map_id in H. exact H.
Qed.

Section Q.
  Variable iter : list entry -> list entry.
  Hypothesis iter_perm : forall l, Permutation l (iter l).
  Variable X : Type.
  Variable accept : X -> entry -> bool.
  Variable acc : X -> Q * Q -> Prop.
  Hypothesis accept_acc : forall x b e t, accept x (b, e, t) = true -> acc x (b, e).

  Lemma query_inv x q es l a : query iter accept (x :: q) (Level es) = Some l -> In a l ->
    exists e, In e es /\ accept x e = true /\ match q with [] => snd e = Leaf a | _ => exists l', query iter accept q (snd e) = Some l' /\ In a l' end.
  Proof.
    cbn [query]. intros H I.
    assert (Nx : forall t, In t (map snd (iter (filter (accept x) es))) -> exists e, In e es /\ accept x e = true /\ snd e = t).
    { intros t It. apply in_map_iff in It. destruct It as (e & <- & Ie). apply (proj1 (@iter_In iter iter_perm _ _)) in Ie. apply filter_In in Ie. exists e. tauto. }
    destruct q as [|x' q].
    - destruct (@mapM_In_r _ _ _ _ _ _ H I) as (t & It & E). destruct (Nx t It) as (e & Ie & Ae & <-). exists e. split; [exact Ie|]. split; [exact Ae|]. destruct (snd e); [injection E as ->; reflexivity|discriminate].
    - destruct (mapM (query iter accept (x' :: q)) _) as [r|] eqn:M; [|discriminate]. cbn [obind] in H. injection H as <-. apply in_concat in I. destruct I as (l' & Il' & Ia).
      destruct (@mapM_In_r _ _ _ _ _ _ M Il') as (t & It & E). destruct (Nx t It) as (e & Ie & Ae & <-). exists e. split; [exact Ie|]. split; [exact Ae|]. exists l'. auto.
  Qed.
  Lemma query_intro x q es l a e : query iter accept (x :: q) (Level es) = Some l -> In e es -> accept x e = true ->
    match q with [] => snd e = Leaf a | _ => forall l', query iter accept q (snd e) = Some l' -> In a l' end -> In a l.
  Proof.
    cbn [query]. intros H Ie Ae C.
    assert (It : In (snd e) (map snd (iter (filter (accept x) es)))) by (apply in_map, (proj2 (@iter_In iter iter_perm _ _)), filter_In; auto).
    destruct q as [|x' q].
    - destruct (@mapM_In_l _ _ _ _ _ _ H It) as (b & Ib & E). rewrite C in E. injection E as ->. exact Ib.
    - destruct (mapM (query iter accept (x' :: q)) _) as [r|] eqn:M; [|discriminate]. cbn [obind] in H. injection H as <-. destruct (@mapM_In_l _ _ _ _ _ _ M It) as (l' & Il' & E). apply in_concat. exists l'. split; [exact Il'|]. apply C. exact E.
  Qed.
  Lemma query_chain_inv a0 : forall ivs q l a, query iter accept q (Level (fst (chain ivs a0))) = Some l -> In a l -> a = a0 /\ Forall2 acc q ivs.
  Proof.
    induction ivs as [|[b e] rest IH]; intros q l a H I; (destruct q as [|x q]; [discriminate|]).
    - destruct (query_inv _ _ _ _ H I) as (e0 & [] & _).
    - destruct (query_inv _ _ _ _ H I) as (e0 & Ie & Ae & C). destruct (chain_nil_or ((b, e) :: rest) a0) as [N|(b' & e' & rest' & Eq & _ & N)]; rewrite N in Ie; [destruct Ie|]. injection Eq as <- <- <-. destruct Ie as [<-|[]]. cbn [snd] in C. apply accept_acc in Ae.
      destruct q as [|x' q].
      + destruct rest; [|discriminate]. injection C as ->. split; [reflexivity|]. constructor; [exact Ae|constructor].
      + destruct C as (l' & E & Ia). destruct rest; [discriminate|]. destruct (IH _ _ _ E Ia) as [-> F]. split; [reflexivity|]. constructor; assumption.
  Qed.
  Lemma query_chain_intro a0 : forall ivs q l, snd (chain ivs a0) = true -> Forall2 (fun x iv => forall t, accept x (fst iv, snd iv, t) = true) q ivs ->
    query iter accept q (Level (fst (chain ivs a0))) = Some l -> In a0 l.
  Proof.
    induction ivs as [|[b e] rest IH]; intros q l Ok F H; [discriminate|]. inversion F as [|x ? q' ? Ax F']; subst. cbn [fst snd] in Ax.
    apply chain_ok in Ok. destruct Ok as [_ Ok]. inversion Ok as [|? ? L Ok']; subst. cbn [fst snd] in L.
    assert (E : fst (chain ((b, e) :: rest) a0) = [(b, e, match rest with [] => Leaf a0 | _ => Level (fst (chain rest a0)) end)]).
    { destruct (chain_nil_or ((b, e) :: rest) a0) as [N|(b' & e' & rest' & Eq & _ & N)]; [|injection Eq as <- <- <-; exact N]. cbn [chain] in N. apply Qle_bool_false in L. rewrite L in N. destruct rest; [discriminate|]. destruct (chain (p :: rest) a0); discriminate. }
    rewrite E in H. eapply query_intro; [exact H|left; reflexivity|apply Ax|]. cbn [snd]. destruct q' as [|x' q']; [inversion F'; subst; reflexivity|]. inversion F' as [|? p ? rest' A1 A2]; subst. intros l' E'. eapply IH; [|exact F'|exact E']. apply chain_ok. split; [discriminate|exact Ok'].
  Qed.
  (** Queries through entries of the right depth do not raise. *)
  Lemma query_total_entries : forall (srcs : list (list (Q * Q) * nat)) q, q <> [] -> (forall s, In s srcs -> length (fst s) = length q) ->
    exists l, query iter accept q (Level (flat_map (fun s => fst (chain (fst s) (snd s))) srcs)) = Some l.
  Proof.
    intros srcs q. revert srcs. induction q as [|x q IH]; intros srcs N D; [congruence|]. cbn [query].
    assert (Nx : forall t, In t (map snd (iter (filter (accept x) (flat_map (fun s => fst (chain (fst s) (snd s))) srcs)))) ->
      exists a, match q with [] => t = Leaf a | _ => exists rest, length rest = length q /\ t = Level (fst (chain rest a)) end).
    { intros t It. apply in_map_iff in It. destruct It as (e & <- & Ie). apply (proj1 (@iter_In iter iter_perm _ _)) in Ie. apply filter_In in Ie. destruct Ie as [Ie _]. apply in_flat_map in Ie. destruct Ie as ((ivs & a) & Is & Ie). cbn [fst snd] in Ie. specialize (D _ Is). cbn [fst] in D.
      destruct (chain_nil_or ivs a) as [E|(b & en & rest & -> & _ & E)]; rewrite E in Ie; [destruct Ie|]. destruct Ie as [<-|[]]. exists a. cbn [snd]. cbn in D. destruct q; destruct rest; try discriminate; [reflexivity|]. eexists. split; [|reflexivity]. cbn in D |- *. lia. }
    destruct q as [|x' q].
    - apply mapM_some. intros t It. destruct (Nx t It) as (a & ->). discriminate.
    - destruct (@mapM_some _ _ (query iter accept (x' :: q)) (map snd (iter (filter (accept x) (flat_map (fun s => fst (chain (fst s) (snd s))) srcs))))) as (r & ->); [|eexists; reflexivity].
      intros t It. destruct (Nx t It) as (a & rest & L & ->). destruct (IH [(rest, a)]) as (l & E); [discriminate|intros s [<-|[]]; exact L|]. cbn [flat_map fst snd] in E. rewrite app_nil_r in E. rewrite E. discriminate.
  Qed.

  Lemma most_In num : forall l b, In (most num b l) (b :: l).
  Proof. induction l as [|a l IH]; intros b; [left; reflexivity|]. cbn [most]. destruct (IH (if num b <? num a then a else b)) as [E|E]; [destruct (num b <? num a); rewrite <- E; [right; left; reflexivity|left; reflexivity]|right; right; exact E]. Qed.
  Lemma most_max num : forall l b a, In a (b :: l) -> num a <= num (most num b l).
  Proof.
    induction l as [|c l IH]; intros b a [<-|I]; [apply Nat.le_refl|destruct I| |]; cbn [most].
    - etransitivity; [|apply IH; left; reflexivity]. destruct (num b <? num c) eqn:E; [apply Nat.ltb_lt in E; lia|lia].
    - destruct I as [<-|I]; [|apply IH; right; exact I]. etransitivity; [|apply IH; left; reflexivity]. destruct (num b <? num c) eqn:E; [lia|apply Nat.ltb_ge in E; lia].
  Qed.

  Lemma trans_hit_inv c ag md q num a : trans_hit iter accept c ag md q num = Hit a ->
    exists es l, dget key_eqb (ag :: md) c = Some es /\ query iter accept q (Level es) = Some l /\ In a l /\
      forall a', In a' l -> exists n n', num a' = Some n' /\ num a = Some n /\ n' <= n.
  Proof.
    unfold trans_hit. intros H. destruct (dget key_eqb (ag :: md) c) as [es|]; [|discriminate]. destruct (query iter accept q (Level es)) as [l|] eqn:E; [|discriminate]. exists es, l. split; [reflexivity|]. split; [exact E|].
    destruct (mapM num l) as [ns|] eqn:M; [|discriminate]. destruct l as [|a0 l]; [discriminate|]. injection H as <-. set (f := fun a => match num a with Some n => n | None => 0 end). split; [apply most_In|].
    intros a' I. destruct (@mapM_In_l _ _ _ _ _ _ M I) as (n' & _ & E'). destruct (@mapM_In_l _ _ _ _ _ _ M (most_In f l a0)) as (n & _ & En). exists n, n'. split; [exact E'|]. split; [exact En|].
    pose proof (@most_max f l a0 _ I) as Mx. unfold f in Mx at 1. rewrite E' in Mx. unfold f in Mx at 1. rewrite En in Mx. exact Mx.
  Qed.
End Q.

(** ** The simulation cache *)
Lemma at_point_spec x b e t : at_point x (b, e, t) = true <-> (b <= x)%Q /\ (x < e)%Q.
Proof. unfold at_point. rewrite andb_true_iff, negb_le, Qle_bool_iff. reflexivity. Qed.
Lemma Qabs_le_intro x y : (- y <= x)%Q -> (x <= y)%Q -> (Qabs x <= y)%Q.
Proof. intros. apply Qabs_case; intros; lra. Qed.
Lemma Qabs_lt_elim x y : (Qabs x < y)%Q -> (- y < x)%Q /\ (x < y)%Q.
Proof. apply Qabs_case; intros; split; lra. Qed.
Lemma at_near init q : Forall2 (fun x iv => (fst iv <= x)%Q /\ (x < snd iv)%Q) q (sim_ivs init) -> near q init.
Proof.
  unfold near. remember (sim_ivs init) as ivs eqn:E. intros F. revert init E. induction F as [|x iv q ivs [A B] F IH]; intros [|v init] E; try discriminate; [constructor|]. injection E as -> ->. cbn [fst snd] in *. constructor; [|apply IH; reflexivity]. unfold eps in *. apply Qabs_le_intro; lra.
Qed.
Lemma near_at q init : strictly_near q init -> Forall2 (fun x iv => forall t, at_point x (fst iv, snd iv, t) = true) q (sim_ivs init).
Proof.
  unfold strictly_near. induction 1 as [|x v q init H F IH]; [constructor|]. cbn [sim_ivs map]. constructor; [|exact IH]. intros t. cbn [fst snd]. apply (proj2 (at_point_spec x (v - eps) (v + eps) t)). apply Qabs_lt_elim in H. unfold eps. split; lra.
Qed.
Lemma sim_chain_ok init a : init <> [] -> snd (chain (sim_ivs init) a) = true.
Proof. intros N. apply chain_ok. split; [destruct init; [congruence|discriminate]|]. unfold sim_ivs. apply Forall_forall. intros p I. apply in_map_iff in I. destruct I as (v & <- & _). cbn [fst snd]. pose proof eps_pos. lra. Qed.

Section SimCache.
  Variable iter : list entry -> list entry.
  Hypothesis iter_perm : forall l, Permutation l (iter l).

  (** What the cache holds: the stored updates with their addresses. *)
  Record origin := mk_origin { o_upd : update; o_init : vec }.
  Definition o_key (o : origin) : key := u_agent (o_upd o) :: u_mode (o_upd o).
  Definition srcs (k : key) (n : nat) (os : list origin) : list (list (Q * Q) * nat) :=
    flat_map (fun p => if key_eqb k (o_key (snd p)) then [(sim_ivs (o_init (snd p)), fst p)] else []) (combine (seq n (length os)) os).
  Definition holds (l : list update) (c : sim_cache) (os : list origin) : Prop :=
    length os = length (sc_heap c) /\
    (forall k, at_key k (sc_index c) = flat_map (fun s => fst (chain (fst s) (snd s))) (srcs k 0 os)) /\
    (forall k, dget key_eqb k (sc_index c) = None -> at_key k (sc_index c) = []) /\
    (forall a o, nth_error os a = Some o -> In (o_upd o) l /\ u_new (o_upd o) = true /\ dget Nat.eqb (u_agent (o_upd o)) (u_inits (o_upd o)) = Some (o_init o) /\ o_init o <> [] /\
       exists s, nth_error (sc_heap c) a = Some s /\ g_trace s = u_trace (o_upd o) /\
         forall t, In t (g_trans s) -> exists u i, In u l /\ u_agent u = u_agent (o_upd o) /\ u_mode u = u_mode (o_upd o) /\ dget Nat.eqb (u_agent u) (u_inits u) = Some i /\ near i (o_init o) /\ In t (u_trans u)).

  Lemma srcs_snoc k : forall os n o, srcs k n (os ++ [o]) = srcs k n os ++ (if key_eqb k (o_key o) then [(sim_ivs (o_init o), n + length os)] else []).
  Proof.
    unfold srcs. induction os as [|o' os IH]; intros n o.
    - cbn. rewrite Nat.add_0_r. rewrite app_nil_r. reflexivity.
    - cbn [length app seq combine flat_map]. rewrite IH, app_assoc. replace (S n + length os) with (n + S (length os)) by lia. reflexivity.
  Qed.
  Lemma srcs_In k : forall os n ivs a, In (ivs, a) (srcs k n os) -> exists j o, a = n + j /\ nth_error os j = Some o /\ o_key o = k /\ ivs = sim_ivs (o_init o).
  Proof.
    unfold srcs. induction os as [|o os IH]; intros n ivs a I; [destruct I|]. cbn [length seq combine flat_map] in I. apply in_app_or in I. destruct I as [I|I].
    - cbn [fst snd] in I. destruct (key_eqb k (o_key o)) eqn:K; [|destruct I]. apply key_eqb_eq in K. destruct I as [I|[]]. injection I as <- <-. exists 0, o. rewrite Nat.add_0_r. auto.
    - destruct (IH _ _ _ I) as (j & o' & -> & E & K & ->). exists (S j), o'. split; [lia|]. auto.
  Qed.
  Lemma In_srcs : forall os n j o, nth_error os j = Some o -> In (sim_ivs (o_init o), n + j) (srcs (o_key o) n os).
  Proof.
    unfold srcs. induction os as [|o' os IH]; intros n [|j] o E; try discriminate; cbn [length seq combine flat_map]; apply in_or_app.
    - injection E as ->. left. cbn [fst snd]. rewrite key_eqb_refl, Nat.add_0_r. left. reflexivity.
    - right. replace (n + S j) with (S n + j) by lia. apply IH. exact E.
  Qed.

  Lemma sim_hit_origin l c os ag md init inits a : holds l c os -> sim_hit iter c ag md init inits = Hit a ->
    exists o, nth_error os a = Some o /\ u_agent (o_upd o) = ag /\ u_mode (o_upd o) = md /\ near init (o_init o).
  Proof.
    intros (_ & Hk & _ & _) H. unfold sim_hit in H. destruct (trans_hit_inv _ _ _ _ _ _ _ H) as (es & lq & D & Q & I & _).
    assert (E : es = at_key (ag :: md) (sc_index c)) by (unfold at_key; rewrite D; reflexivity). rewrite Hk in E. subst es.
    destruct init as [|x q]; [discriminate|]. destruct (@query_inv iter iter_perm _ _ _ _ _ _ _ Q I) as (e & Ie & Ae & C). apply in_flat_map in Ie. destruct Ie as ((ivs & a') & Is & Ie). destruct (srcs_In _ _ _ _ _ Is) as (j & o & Ea & Eo & K & Ei). cbn [Nat.add] in Ea. subst a' ivs.
    assert (R : exists lq', query iter at_point (x :: q) (Level (fst (chain (sim_ivs (o_init o)) j))) = Some lq' /\ In a lq').
    { cbn [fst snd] in Ie. destruct (chain_nil_or (sim_ivs (o_init o)) j) as [N|(b & en & rest & _ & _ & N)]; rewrite N in *; [destruct Ie|]. destruct Ie as [<-|[]]. cbn [query filter]. rewrite Ae, (@iter_one iter iter_perm). cbn [map snd mapM] in *. destruct q as [|x' q].
      - rewrite C. eexists. split; [reflexivity|left; reflexivity].
      - destruct C as (l' & -> & Ia). eexists. split; [reflexivity|]. cbn [concat]. rewrite app_nil_r. exact Ia. }
    destruct R as (lq' & R1 & R2). destruct (@query_chain_inv iter iter_perm _ at_point (fun x iv => (fst iv <= x)%Q /\ (x < snd iv)%Q) (fun x b e t => proj1 (at_point_spec x b e t)) _ _ _ _ _ R1 R2) as [-> F].
    exists o. split; [exact Eo|]. injection K as <- <-. split; [reflexivity|]. split; [reflexivity|]. apply at_near. exact F.
  Qed.

  Lemma sim_update_holds l c os u c' : holds l c os -> sim_update iter c u = Some c' ->
    exists os', holds (l ++ [u]) c' os' /\ (forall a o, nth_error os a = Some o -> nth_error os' a = Some o) /\
      (forall init, dget Nat.eqb (u_agent u) (u_inits u) = Some init -> sim_hit iter c (u_agent u) (u_mode u) init (u_inits u) = Miss -> exists a, nth_error os' a = Some (mk_origin u init)).
  Proof.
    intros Hh H. pose proof Hh as (Hn & Hk & Hd & Ho). unfold sim_update in H. destruct (dget Nat.eqb (u_agent u) (u_inits u)) as [init|] eqn:Ei; [|discriminate]. cbn [obind] in H.
    destruct (sim_hit iter c (u_agent u) (u_mode u) init (u_inits u)) as [|a|] eqn:Hit; [| |discriminate].
    - destruct (u_new u) eqn:Nw; [|discriminate]. destruct (chain (sim_ivs init) (length (sc_heap c))) as [es ok] eqn:Ch. destruct ok; [|discriminate]. injection H as <-. exists (os ++ [mk_origin u init]).
      assert (Ni : init <> []) by (intros ->; discriminate). split; [|split].
      + split; [|split; [|split]]; cbn [sc_index sc_heap].
        * rewrite !app_length. cbn. lia.
        * intros k. rewrite at_key_insert, Hk, srcs_snoc, flat_map_app. f_equal. cbn [o_init]. unfold o_key. cbn [o_upd Nat.add]. destruct (key_eqb k (u_agent u :: u_mode u)); [|reflexivity]. cbn [flat_map fst snd]. rewrite app_nil_r, Hn, Ch. reflexivity.
        * intros k D. unfold at_key. rewrite D. reflexivity.
        * intros a o E. destruct (lt_dec a (length os)) as [L|L].
          -- rewrite nth_error_app1 in E by exact L. destruct (Ho a o E) as (A & B & C & D & s & E1 & E2 & E3). split; [apply in_or_app; left; exact A|]. split; [exact B|]. split; [exact C|]. split; [exact D|]. exists s. split; [rewrite nth_error_app1 by lia; exact E1|]. split; [exact E2|].
             intros t It. destruct (E3 t It) as (u' & i & I' & R). exists u', i. split; [apply in_or_app; left; exact I'|exact R].
          -- rewrite nth_error_app2 in E by lia. destruct (a - length os) as [|m] eqn:Ea; [|destruct m; discriminate]. injection E as <-. cbn [o_upd o_init]. split; [apply in_or_app; right; left; reflexivity|]. split; [exact Nw|]. split; [exact Ei|]. split; [exact Ni|].
             exists (mk_segment (u_trace u) (u_trans u)). rewrite nth_error_app2 by lia. replace (a - length (sc_heap c)) with 0 by lia. split; [reflexivity|]. split; [reflexivity|]. intros t It. exists u, init. split; [apply in_or_app; right; left; reflexivity|]. split; [reflexivity|]. split; [reflexivity|]. split; [exact Ei|]. split; [|exact It].
             unfold near. clear. induction init as [|x l IH]; [constructor|]. constructor; [|exact IH]. apply Qabs_le_intro; lra.
      + intros a o E. rewrite nth_error_app1; [exact E|]. apply nth_error_Some. congruence.
      + intros i Ei' _. injection Ei' as <-. exists (length os). rewrite nth_error_app2, Nat.sub_diag by lia. reflexivity.
    - destruct (nth_error (sc_heap c) a) as [sg|] eqn:Sg; [|discriminate]. cbn [obind] in H. injection H as <-. exists os. split; [|split; [auto|intros i Ei' M; congruence]].
      destruct (sim_hit_origin _ _ _ _ Hh Hit) as (oa & Eoa & Ag & Md & Nr).
      split; [|split; [|split]]; cbn [sc_index sc_heap]; [rewrite set_nth_length; exact Hn|exact Hk|exact Hd|].
      intros b o E. destruct (Ho b o E) as (A & B & C & D & s & E1 & E2 & E3). split; [apply in_or_app; left; exact A|]. split; [exact B|]. split; [exact C|]. split; [exact D|]. destruct (Nat.eq_dec a b) as [->|Nab].
      + eexists. split; [apply nth_error_set_nth_same; apply nth_error_Some; congruence|]. cbn [g_trace g_trans]. rewrite E1 in Sg. injection Sg as <-. split; [exact E2|]. intros t It. unfold dedup_trans in It. apply dedup_In in It. apply in_app_or in It. destruct It as [It|It].
        * destruct (E3 t It) as (u' & i & I' & R). exists u', i. split; [apply in_or_app; left; exact I'|exact R].
        * rewrite E in Eoa. injection Eoa as ->. exists u, init. split; [apply in_or_app; right; left; reflexivity|]. split; [congruence|]. split; [congruence|]. split; [exact Ei|]. split; [exact Nr|exact It].
      + exists s. split; [rewrite nth_error_set_nth_other by exact Nab; exact E1|]. split; [exact E2|]. intros t It. destruct (E3 t It) as (u' & i & I' & R). exists u', i. split; [apply in_or_app; left; exact I'|exact R].
  Qed.

  Definition empty_sim : sim_cache := mk_sim [] [].
  Lemma sim_updates_holds : forall l2 l1 c os c', holds l1 c os -> sim_updates iter c l2 = Some c' ->
    exists os', holds (l1 ++ l2) c' os' /\ (forall a o, nth_error os a = Some o -> nth_error os' a = Some o).
  Proof.
    induction l2 as [|u l2 IH]; intros l1 c os c' Hh H; [injection H as <-; exists os; rewrite app_nil_r; auto|]. cbn [sim_updates] in H. destruct (sim_update iter c u) as [c1|] eqn:U; [|discriminate]. cbn [obind] in H.
    destruct (sim_update_holds _ Hh U) as (os1 & H1 & P1 & _). destruct (IH _ _ _ _ H1 H) as (os2 & H2 & P2). rewrite <- app_assoc in H2. exists os2. split; [exact H2|]. auto.
  Qed.
  Lemma sim_updates_app : forall l1 l2 c, sim_updates iter c (l1 ++ l2) = obind (sim_updates iter c l1) (fun c' => sim_updates iter c' l2).
  Proof. induction l1 as [|u l1 IH]; intros l2 c; [reflexivity|]. cbn [sim_updates app]. destruct (sim_update iter c u); [apply IH|reflexivity]. Qed.
  Lemma empty_holds : holds [] empty_sim [].
  Proof. split; [reflexivity|]. split; [intros k; reflexivity|]. split; [reflexivity|]. intros [|a] o E; discriminate. Qed.

  (** Totality of the count of suitable transitions. *)
  Lemma suit_total (a b : dict nat vec) : same_keys a b = true -> sim_trans_suit a b <> None.
  Proof.
    intros S. unfold sim_trans_suit. rewrite S.
    destruct (@mapM_some _ _ (fun p => do bv <- dget Nat.eqb (fst p) b; Some (forallb (fun xy => close (fst xy) (snd xy)) (combine (snd p) bv))) a) as (r & ->); [|discriminate].
    intros p I. unfold same_keys in S. apply andb_prop in S. destruct S as [S _]. rewrite forallb_forall in S. specialize (S p I). apply existsb_exists in S. destruct S as (k & Ik & E). apply Nat.eqb_eq in E. subst k.
    destruct (dget Nat.eqb (fst p) b) eqn:D; [discriminate|]. apply (dget_None Nat.eqb Nat.eqb_eq) in D. contradiction.
  Qed.

  Lemma sim_hit_stored l c os ag md init inits a o : holds l c os -> nth_error os a = Some o -> u_agent (o_upd o) = ag -> u_mode (o_upd o) = md ->
    strictly_near init (o_init o) ->
    (forall u i, In u l -> u_agent u = ag -> u_mode u = md -> dget Nat.eqb ag (u_inits u) = Some i -> length i = length init) ->
    (forall u t, In u l -> In t (u_trans u) -> same_keys (t_inits t) inits = true) ->
    exists a' s s', sim_hit iter c ag md init inits = Hit a' /\ nth_error (sc_heap c) a' = Some s' /\ nth_error (sc_heap c) a = Some s /\
      forall n n', count_suit (fun t => sim_trans_suit (t_inits t) inits) (g_trans s) = Some n -> count_suit (fun t => sim_trans_suit (t_inits t) inits) (g_trans s') = Some n' -> n <= n'.
  Proof.
    intros Hh Eo Ag Md Nr Len Keys. pose proof Hh as (Hn & Hk & Hd & Ho).
    assert (Ko : o_key o = ag :: md) by (unfold o_key; congruence).
    assert (Ni : init <> []) by (intros ->; inversion Nr as [E0|]; destruct (Ho a o Eo) as (_ & _ & _ & N & _); congruence).
    assert (D : exists es, dget key_eqb (ag :: md) (sc_index c) = Some es).
    { destruct (dget key_eqb (ag :: md) (sc_index c)) eqn:D; [eexists; reflexivity|]. apply Hd in D. rewrite Hk in D. exfalso. pose proof (In_srcs _ 0 _ Eo) as I. rewrite Ko in I.
      destruct (chain_nil_or (sim_ivs (o_init o)) a) as [N|(b & e & rest & _ & _ & N)].
      - destruct (Ho a o Eo) as (_ & _ & _ & N' & _). destruct (o_init o) as [|v i]; [congruence|]. cbn [sim_ivs map chain] in N. assert (L : Qle_bool (v + eps) (v - eps) = false) by (apply Qle_bool_false; pose proof eps_pos; lra). rewrite L in N. destruct (map _ i); [discriminate|]. destruct (chain (p :: l0) a); discriminate.
      - assert (X : forall e0, In e0 (fst (chain (sim_ivs (o_init o)) a)) -> False).
        { intros e0 Ie. assert (X : In e0 (flat_map (fun s => fst (chain (fst s) (snd s))) (srcs (ag :: md) 0 os))) by (apply in_flat_map; eexists; split; [exact I|exact Ie]). rewrite D in X. exact X. }
        rewrite N in X. apply (X _ (or_introl eq_refl)). }
    destruct D as (es & D). assert (Ees : es = flat_map (fun s => fst (chain (fst s) (snd s))) (srcs (ag :: md) 0 os)) by (rewrite <- Hk; unfold at_key; rewrite D; reflexivity).
    destruct (@query_total_entries iter iter_perm _ at_point (srcs (ag :: md) 0 os) init Ni) as (lq & Q).
    { intros (ivs & a') I. destruct (srcs_In _ _ _ _ _ I) as (j & o' & _ & Eo' & K & ->). cbn [fst]. unfold sim_ivs. rewrite map_length. destruct (Ho j o' Eo') as (A & _ & B & _). injection K as K1 K2. eapply Len; [exact A|exact K1|exact K2|]. rewrite <- K1. exact B. }
    rewrite <- Ees in Q.
    assert (I : In a lq).
    { destruct init as [|x q]; [congruence|]. pose proof (In_srcs _ 0 _ Eo) as Is. rewrite Ko in Is. cbn [Nat.add] in Is.
      assert (Ok : snd (chain (sim_ivs (o_init o)) a) = true) by (apply sim_chain_ok; destruct (Ho a o Eo) as (_ & _ & _ & N & _); exact N).
      destruct (@query_total_entries iter iter_perm _ at_point [(sim_ivs (o_init o), a)] (x :: q)) as (l1 & Q1); [discriminate| |].
      { intros s [<-|[]]. cbn [fst]. unfold sim_ivs. rewrite map_length. symmetry. eapply Forall2_len. exact Nr. }
      cbn [flat_map fst snd] in Q1. rewrite app_nil_r in Q1. pose proof (@query_chain_intro iter iter_perm _ at_point _ _ _ _ Ok (near_at Nr) Q1) as I1.
      destruct (@query_inv iter iter_perm _ _ _ _ _ _ _ Q1 I1) as (e & Ie & Ae & C). eapply (@query_intro iter iter_perm); [exact Q|rewrite Ees; apply in_flat_map; eexists; split; [exact Is|exact Ie]|exact Ae|].
      destruct q as [|x' q]; [exact C|]. destruct C as (l' & E' & Ia). intros l'' E''. congruence. }
    assert (Num : forall a', In a' lq -> sim_num (sc_heap c) inits a' <> None).
    { intros a' I'. destruct init as [|x q]; [congruence|]. destruct (@query_inv iter iter_perm _ _ _ _ _ _ _ Q I') as (e & Ie & Ae & C). rewrite Ees in Ie. apply in_flat_map in Ie. destruct Ie as ((ivs & a2) & Is & Ie). destruct (srcs_In _ _ _ _ _ Is) as (j & o' & Ej & Eo' & K & ->). cbn [Nat.add] in Ej. subst a2. cbn [fst snd] in Ie.
      assert (Ea : a' = j).
      { assert (R : exists l', query iter at_point (x :: q) (Level (fst (chain (sim_ivs (o_init o')) j))) = Some l' /\ In a' l').
        { destruct (chain_nil_or (sim_ivs (o_init o')) j) as [N|(b & en & rest & _ & _ & N)]; rewrite N in *; [destruct Ie|]. destruct Ie as [<-|[]]. cbn [query filter]. rewrite Ae, (@iter_one iter iter_perm). cbn [map snd mapM] in *. destruct q as [|x' q].
          - rewrite C. eexists. split; [reflexivity|left; reflexivity].
          - destruct C as (l' & -> & Ia). eexists. split; [reflexivity|]. cbn [concat]. rewrite app_nil_r. exact Ia. }
        destruct R as (l' & R1 & R2). destruct (@query_chain_inv iter iter_perm _ at_point (fun x iv => (fst iv <= x)%Q /\ (x < snd iv)%Q) (fun x b e t => proj1 (at_point_spec x b e t)) _ _ _ _ _ R1 R2) as [-> _]. reflexivity. }
      subst j. destruct (Ho a' o' Eo') as (_ & _ & _ & _ & s & Es & _ & Ts). unfold sim_num. rewrite Es. cbn [obind]. unfold count_suit. destruct (@mapM_some _ _ (fun t => sim_trans_suit (t_inits t) inits) (g_trans s)) as (r & ->); [|discriminate].
      intros t It. destruct (Ts t It) as (u' & i' & Iu & _ & _ & _ & _ & It'). apply suit_total. eapply Keys; eassumption. }
    destruct (@mapM_some _ _ _ _ Num) as (ns & Mn).
    assert (H : exists a', sim_hit iter c ag md init inits = Hit a').
    { unfold sim_hit, trans_hit. rewrite D, Q, Mn. destruct lq as [|a0 lq]; [destruct I|]. eexists. reflexivity. }
    destruct H as (a' & H). exists a'. destruct (trans_hit_inv _ _ _ _ _ _ _ H) as (es' & lq' & D' & Q' & I' & Mx). rewrite D in D'. injection D' as <-. rewrite Q in Q'. injection Q' as <-.
    destruct (Mx a I) as (n & n' & N1 & N2 & Le). unfold sim_num in N1, N2. destruct (nth_error (sc_heap c) a) as [s|] eqn:Es; [|discriminate]. destruct (nth_error (sc_heap c) a') as [s'|] eqn:Es'; [|discriminate]. cbn [obind] in N1, N2.
    exists s, s'. split; [exact H|]. split; [reflexivity|]. split; [reflexivity|]. intros m m' M1 M2. rewrite N1 in M1. rewrite N2 in M2. injection M1 as <-. injection M2 as <-. exact Le.
  Qed.
End SimCache.
