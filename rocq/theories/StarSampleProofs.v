(** Proofs about sampled stars. *)
From Coq Require Import Ascii String Qround Lqa.
From Verif Require Import Base BaseFacts PyText Star StarSpec StarProofs StarMain StarProps Runs StarSample StarSampleSpec PlotProofs.
Set Implicit Arguments.
Open Scope nat_scope.

Lemma uniform_length {rng} (draw : rng -> Q * rng) rect : forall g, length (fst (uniform draw rect g)) = length rect.
Proof.
  induction rect as [|[a b] rect IH]; intros g; [reflexivity|]. cbn [uniform]. destruct (draw g) as [u g1]. specialize (IH g1). destruct (uniform draw rect g1) as [r g2]. cbn [fst length] in *. congruence.
Qed.
Lemma uniform_box {rng} (draw : rng -> Q * rng) : (forall g, 0 <= fst (draw g) <= 1)%Q -> forall lo hi g, length lo = length hi -> Forall2 Qle lo hi -> in_box lo hi (fst (uniform draw (combine lo hi) g)).
Proof.
  intros U. induction lo as [|a lo IH]; intros [|b hi] g L F; try discriminate; [exact I|]. inversion F; subst. cbn [combine uniform]. specialize (U g). destruct (draw g) as [u g1]. cbn [fst] in U.
  specialize (IH hi g1 ltac:(cbn in L; lia) ltac:(assumption)). destruct (uniform draw (combine lo hi) g1) as [r g2]. cbn [fst in_box] in *. split; [|exact IH]. nra.
Qed.

Lemma drawn_S {rng} (draw : rng -> Q * rng) rect g k : drawn draw rect g (S k) = drawn draw rect (snd (uniform draw rect g)) k.
Proof. reflexivity. Qed.

Lemma contained sat s x : decides sat s -> length x = dim s -> exists r, containment_poly sat s x = Some r /\ (r = true <-> in_star s x).
Proof. intros [W D] L. unfold containment_poly. rewrite L, Nat.eqb_refl. apply C49_contains_point; auto. Qed.

Lemma increasing_S l : increasing l -> increasing (map S l).
Proof.
  induction l as [|a l IH]; intros H; [exact I|]. destruct H as [H1 H2]. split; [|apply IH; exact H2]. intros b Hb. apply in_map_iff in Hb. destruct Hb as (c & <- & Hc). specialize (H1 c Hc). lia.
Qed.

Lemma loop_spec sat rng (draw : rng -> Q * rng) s rect N limit : decides sat s -> length rect = dim s -> forall fuel points misses g,
  misses <= limit -> length points <= N -> (N - length points) * (limit + 1) - misses <= fuel ->
  match sample_loop sat draw fuel s rect N limit points misses g with
  | Points pts g' => exists n ks, pts = points ++ map (drawn draw rect g) ks /\ g' = after draw rect n g /\ length pts = N /\ increasing ks /\
      (forall k, In k ks <-> k < n /\ in_star s (drawn draw rect g k))
  | Misses => (forall j, j + misses <= limit -> ~ in_star s (drawn draw rect g j)) \/ exists k, forall j, j <= limit -> ~ in_star s (drawn draw rect g (k + j))
  | Failure | Unfinished => False
  end.
Proof.
  intros D Lr. induction fuel as [|f IH]; intros points misses g Hm Hp Hf.
  - cbn [sample_loop]. destruct (Nat.ltb_spec (length points) N) as [H|H].
    + assert (1 * (limit + 1) <= (N - length points) * (limit + 1)) by (apply Nat.mul_le_mono_r; lia). lia.
    + exists 0, []. cbn [map after]. rewrite app_nil_r. split; [reflexivity|]. split; [reflexivity|]. split; [lia|]. split; [exact I|]. intros k. split; [intros []|intros [? _]; lia].
  - cbn [sample_loop]. destruct (Nat.ltb_spec (length points) N) as [H|H].
    2:{ exists 0, []. cbn [map after]. rewrite app_nil_r. split; [reflexivity|]. split; [reflexivity|]. split; [lia|]. split; [exact I|]. intros k. split; [intros []|intros [? _]; lia]. }
    pose proof (drawn_S draw rect g) as DS. assert (D0 : drawn draw rect g 0 = fst (uniform draw rect g)) by reflexivity.
    pose proof (uniform_length draw rect g) as Lu. destruct (uniform draw rect g) as [point g1] eqn:Eu. cbn [fst snd] in Lu, DS, D0.
    assert (A : forall n, after draw rect (S n) g = after draw rect n g1) by (intros n; cbn [after]; rewrite Eu; reflexivity).
    assert (M : N - length points = S (N - S (length points))) by lia. rewrite M in Hf. cbn [Nat.mul] in Hf.
    destruct (@contained sat s point D) as ([|] & -> & R); [congruence| |].
    + assert (I0 : in_star s point) by (apply R; reflexivity). specialize (IH (points ++ [point]) 0 g1 ltac:(lia)). rewrite app_length in IH. cbn [length] in IH. specialize (IH ltac:(lia)). replace (length points + 1) with (S (length points)) in IH by lia. specialize (IH ltac:(lia)).
      destruct (sample_loop sat draw f s rect N limit (points ++ [point]) 0 g1) as [pts g'| | |]; [| |exact IH|exact IH].
      * destruct IH as (n & ks & E1 & E2 & E3 & E4 & E5). exists (S n), (0 :: map S ks). split; [|split; [rewrite A; exact E2|split; [exact E3|split]]].
        -- rewrite E1, <- app_assoc. cbn [map app]. rewrite D0, map_map. do 2 f_equal. apply map_ext. intros k. symmetry. apply DS.
        -- split; [|apply increasing_S; exact E4]. intros b Hb. apply in_map_iff in Hb. destruct Hb as (c & <- & _). lia.
        -- intros [|k].
           ++ rewrite D0. split; [intros _; split; [lia|exact I0]|intros _; cbn; auto].
           ++ rewrite DS. split.
              ** intros [X|X]; [discriminate|]. apply in_map_iff in X. destruct X as (c & X & Hc). injection X as ->. apply E5 in Hc. split; [lia|tauto].
              ** intros [X1 X2]. right. apply in_map. apply E5. split; [lia|exact X2].
      * right. destruct IH as [IH|(k & IH)].
        -- exists 1. intros j Hj. cbn [Nat.add]. rewrite DS. apply IH. lia.
        -- exists (S k). intros j Hj. cbn [Nat.add]. rewrite DS. apply IH. lia.
    + assert (I0 : ~ in_star s point) by (intros X; apply R in X; discriminate). destruct (Nat.ltb_spec limit (misses + 1)) as [H1|H1].
      * left. intros j Hj. assert (j = 0) as -> by lia. rewrite D0. exact I0.
      * specialize (IH points (misses + 1) g1 ltac:(lia) ltac:(lia)). rewrite M in IH. cbn [Nat.mul] in IH. specialize (IH ltac:(lia)).
        destruct (sample_loop sat draw f s rect N limit points (misses + 1) g1) as [pts g'| | |]; [| |exact IH|exact IH].
        -- destruct IH as (n & ks & E1 & E2 & E3 & E4 & E5). exists (S n), (map S ks). split; [|split; [rewrite A; exact E2|split; [exact E3|split; [apply increasing_S; exact E4|]]]].
           ++ rewrite E1, map_map. f_equal. apply map_ext. intros k. symmetry. apply DS.
           ++ intros [|k].
              ** rewrite D0. split; [intros X; apply in_map_iff in X; destruct X as (c & X & _); discriminate|intros [_ X]; contradiction].
              ** rewrite DS. split.
                 --- intros X. apply in_map_iff in X. destruct X as (c & X & Hc). injection X as ->. apply E5 in Hc. split; [lia|tauto].
                 --- intros [X1 X2]. apply in_map. apply E5. split; [lia|exact X2].
        -- destruct IH as [IH|(k & IH)].
           ++ left. intros [|j] Hj; [rewrite D0; exact I0|]. rewrite DS. apply IH. lia.
           ++ right. exists (S k). intros j Hj. cbn [Nat.add]. rewrite DS. apply IH. lia.
Qed.

(** All draws are hits. *)
Lemma loop_hits sat rng (draw : rng -> Q * rng) s rect N limit : decides sat s -> length rect = dim s -> (forall g, in_star s (fst (uniform draw rect g))) ->
  forall n fuel points g, length points + n = N -> n <= fuel ->
  sample_loop sat draw fuel s rect N limit points 0 g = Points (points ++ map (drawn draw rect g) (seq 0 n)) (after draw rect n g).
Proof.
  intros D Lr Hin. induction n as [|n IH]; intros fuel points g Hn Hf.
  - assert (E : (length points <? N) = false) by (apply Nat.ltb_ge; lia). destruct fuel; cbn [sample_loop]; rewrite E; cbn [seq map after]; rewrite app_nil_r; reflexivity.
  - destruct fuel as [|f]; [lia|]. cbn [sample_loop]. assert (E : (length points <? N) = true) by (apply Nat.ltb_lt; lia). rewrite E.
    pose proof (drawn_S draw rect g) as DS. assert (D0 : drawn draw rect g 0 = fst (uniform draw rect g)) by reflexivity. cbn [seq map after]. rewrite <- seq_shift, map_map.
    pose proof (uniform_length draw rect g) as Lu. specialize (Hin g). destruct (uniform draw rect g) as [point g1] eqn:Eu. cbn [fst snd] in *.
    destruct (@contained sat s point D) as (r & -> & R); [congruence|]. apply R in Hin. rewrite Hin. rewrite (IH f (points ++ [point]) g1) by (rewrite ?app_length; cbn [length]; lia).
    rewrite <- app_assoc. cbn [app]. rewrite D0. do 3 f_equal. apply map_ext. intros k. symmetry. apply DS.
Qed.

Section Fitted.
  Variable linprog : bool -> vec -> list vec -> vec -> lp.
  Variable sat : nat -> list (Q * vec * Q) -> list (vec * Q) -> bool.
  Variable rng : Type.
  Variable draw : rng -> Q * rng.
  Variable pca : list vec -> option (list vec).
  Variable optimise : list vec -> vec -> list vec -> list vec -> option (vec * Q).
  Variable sim : option word -> vec -> Q -> Q -> option (list vec).

  (** Returned points are in the star, whatever the rounds given. *)
  Lemma loop_points s rect N limit : decides sat s -> forall fuel points misses g pts g', length points <= N ->
    (forall p, In p points -> in_star s p) -> sample_loop sat draw fuel s rect N limit points misses g = Points pts g' ->
    length pts = N /\ forall p, In p pts -> in_star s p.
  Proof.
    intros D. induction fuel as [|f IH]; intros points misses g pts g' L Hp; cbn [sample_loop]; destruct (Nat.ltb_spec (length points) N) as [H|H]; try discriminate.
    - intros E. injection E as <- _. split; [lia|exact Hp].
    - destruct (uniform draw rect g) as [point g1]. destruct (containment_poly sat s point) as [[|]|] eqn:Ec; [| |discriminate].
      + apply IH; [rewrite app_length; cbn [length]; lia|]. intros p Hin. apply in_app_iff in Hin. destruct Hin as [Hin|[<-|[]]]; [auto|].
        assert (Lp : length point = dim s) by (unfold containment_poly in Ec; destruct (Nat.eqb_spec (dim s) (length point)); [congruence|discriminate]).
        destruct (@contained sat s point D Lp) as (r & E & R). rewrite E in Ec. injection Ec as ->. apply R. reflexivity.
      + destruct (limit <? misses + 1); [discriminate|]. apply IH; auto.
    - intros E. injection E as <- _. split; [lia|exact Hp].
  Qed.

  Lemma sample_points fuel s N tol g pts g' : decides sat s -> sample_star linprog sat draw fuel s N tol g = Points pts g' -> length pts = N /\ forall p, In p pts -> in_star s p.
  Proof.
    intros D. unfold sample_star. destruct (overapprox_rectangle linprog s) as [[lo hi]|]; [|discriminate]. destruct (broadcast lo hi) as [rect|]; [|discriminate].
    apply loop_points; [exact D|cbn; lia|intros p []].
  Qed.

  Lemma post_sim_spec fuel old T ts N no_init ml g stars g' : decides sat old -> model_ok optimise (dim old) ->
    gen_starsets_post_sim linprog sat draw pca optimise sim fuel old T ts N no_init ml g = Some (stars, g') ->
    exists points runs, length points = N /\ (forall p, In p points -> in_star old p) /\
      Forall2 (fun p rows => sim ml p T ts = Some rows) points runs /\
      (forall rows, In rows runs -> length (if no_init then tl rows else rows) = length stars) /\
      (forall i st, nth_error stars i = Some st -> wf_star st /\ dim st = dim old /\
        forall rows, In rows runs -> exists row, nth_error (if no_init then tl rows else rows) i = Some row /\ in_star st (tl row)).
  Proof.
    intros D Ok. unfold gen_starsets_post_sim. destruct (sample_star linprog sat draw fuel old N (1 # 5) g) as [points g1| | |] eqn:Es; try discriminate. destruct (sample_points fuel N _ g D Es) as [LN Hin].
    destruct (mapM (fun point => do rows <- sim ml point T ts; Some (if no_init then tl rows else rows)) points) as [cut|] eqn:Er; [|discriminate]. cbn [obind].
    destruct (hd_error cut) as [first|] eqn:Ef; [|discriminate]. cbn [obind]. destruct (forallb (fun rows => length rows =? length first) cut) eqn:Eb; [|discriminate].
    destruct (mapM (fun t => do states <- mapM (fun rows => do row <- nth_error rows t; Some (tl row)) cut; gen_starset pca optimise states old) (seq 0 (length first))) as [sts|] eqn:Em; [|discriminate].
    cbn [obind]. intros E. injection E as <- <-.
    assert (R : exists runs, Forall2 (fun p rows => sim ml p T ts = Some rows) points runs /\ cut = map (fun rows => if no_init then tl rows else rows) runs).
    { clear - Er. revert cut Er. induction points as [|p points IH]; intros cut Er; cbn [mapM] in Er.
      - injection Er as <-. exists []. split; [constructor|reflexivity].
      - destruct (sim ml p T ts) as [rows|] eqn:E; [|discriminate]. cbn [obind] in Er. destruct (mapM _ points) as [rest|] eqn:Er'; [|discriminate]. cbn [obind] in Er. injection Er as <-. destruct (IH rest eq_refl) as (runs & F & ->). exists (rows :: runs). split; [constructor; assumption|reflexivity]. }
    destruct R as (runs & F & ->). exists points, runs. pose proof (mapM_length _ _ Em) as Lm. rewrite seq_length in Lm. split; [exact LN|]. split; [exact Hin|]. split; [exact F|]. split.
    - intros rows Hr. rewrite forallb_forall in Eb. specialize (Eb _ (in_map (fun rows => if no_init then tl rows else rows) _ _ Hr)). apply Nat.eqb_eq in Eb. congruence.
    - intros i st Hi. assert (Hl : i < length first) by (rewrite <- Lm; apply nth_error_Some; congruence).
      destruct (@mapM_nth _ _ _ _ _ i i Em) as (st' & E1 & E2); [rewrite (nth_error_nth' _ 0) by (rewrite seq_length; exact Hl); rewrite seq_nth by exact Hl; reflexivity|].
      rewrite Hi in E1. injection E1 as <-. destruct (mapM (fun rows => do row <- nth_error rows i; Some (tl row)) (map (fun rows => if no_init then tl rows else rows) runs)) as [states|] eqn:Ess; [|discriminate]. cbn [obind] in E2.
      unfold gen_starset in E2. destruct (pca states) as [db|]; [|discriminate]. cbn [obind] in E2. destruct (@C70_fitted _ _ _ _ _ Ok E2) as (W & Dm & Hp). split; [exact W|]. split; [exact Dm|].
      intros rows Hr. apply (in_map (fun rows => if no_init then tl rows else rows)) in Hr. destruct (In_nth_error _ _ Hr) as [k Hk]. destruct (@mapM_nth _ _ _ _ _ k _ Ess Hk) as (x & Ex & Ey).
      destruct (nth_error (if no_init then tl rows else rows) i) as [row|]; [|discriminate]. cbn [obind] in Ey. injection Ey as <-. exists row. split; [reflexivity|]. apply Hp. eapply nth_error_In. exact Ex.
  Qed.
End Fitted.
