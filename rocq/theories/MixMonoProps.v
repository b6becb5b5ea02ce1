(** Discrete mixed-monotone tubes: property C47.

    [compute_reachtube_mixmono_disc decomposition w what dt inits T] is the tube for the uncertain box [w, what]. *)
From Coq Require Import Qround Lqa.
From Verif Require Import Base BaseFacts Boxes Round MixMono MixMonoSpec MixMonoProofs.
Set Implicit Arguments.
Open Scope nat_scope.

(** Row times: step [k] starts at [row_time k] and ends at [row_time (k+1)]. *)
Definition row_time (dt : Q) (k : nat) : Q :=
  match k with 0 => 0%Q | S j => py_round 10 (py_round 10 (inject_Z (Z.of_nat j) * dt) + dt) end.

(** C47.  With a mixed-monotone decomposition the tube from the box [lo, hi] has [ceil(T/dt)] steps, at the times of the
    sampling grid, and step [k] contains the states [k] and [k+1] of every trajectory from the box under every
    disturbance sequence in the uncertain box. *)
Theorem C47_mixed_monotone d e f g w what dt lo hi rest T :
  mixed_monotone d e f g -> length w = e -> vle w what -> length lo = d -> vle lo hi ->
  let n := Z.to_nat (Qceiling (T / dt)) in
  exists tube, compute_reachtube_mixmono_disc (fun x w y v _ => Some (g x w y v)) w what dt ((lo, hi) :: rest) T = Some tube /\
    length tube = 2 * n /\
    (forall k, k < n -> exists a b, nth_error tube (2 * k) = Some (row_time dt k :: a) /\ nth_error tube (2 * k + 1) = Some (row_time dt (S k) :: b)) /\
    forall ws x k, (forall j, in_box w what (ws j)) -> in_box lo hi x -> k < n ->
      in_step tube k (trajectory f ws x k) /\ in_step tube k (trajectory f ws x (S k)).
Proof.
  intros Hg Lw Hw Ll Hle n. apply (@tube_spec d f _ w what dt (mixed_bounding dt Hg Lw Hw) Hw n lo hi rest T Ll Hle eq_refl).
Qed.
Print Assumptions C47_mixed_monotone.

(** C47, for agents that give only their dynamics (and its Jacobian, or symbolic source): the decomposition found by
    optimisation is as good, provided the optimiser returns the true extremes. *)
Theorem C47_optimised d e f find_min find_max w what dt lo hi rest T :
  (forall x w, length x = d -> length w = e -> length (f x w) = d) ->
  (forall x x' w w', veq x x' -> veq w w' -> veq (f x w) (f x' w')) ->
  (forall i b v, i < d -> length (fst b) = d -> length (fst v) = e -> vle (fst b) (snd b) -> vle (fst v) (snd v) -> is_min f i b v (find_min i b v dt)) ->
  (forall i b v, i < d -> length (fst b) = d -> length (fst v) = e -> vle (fst b) (snd b) -> vle (fst v) (snd v) -> is_max f i b v (find_max i b v dt)) ->
  length w = e -> vle w what -> length lo = d -> vle lo hi ->
  let n := Z.to_nat (Qceiling (T / dt)) in
  exists tube, compute_reachtube_mixmono_disc (optimised find_min find_max) w what dt ((lo, hi) :: rest) T = Some tube /\
    length tube = 2 * n /\
    (forall k, k < n -> exists a b, nth_error tube (2 * k) = Some (row_time dt k :: a) /\ nth_error tube (2 * k + 1) = Some (row_time dt (S k) :: b)) /\
    forall ws x k, (forall j, in_box w what (ws j)) -> in_box lo hi x -> k < n ->
      in_step tube k (trajectory f ws x k) /\ in_step tube k (trajectory f ws x (S k)).
Proof.
  intros FL FE Hmin Hmax Lw Hw Ll Hle n. apply (@tube_spec d f _ w what dt (@optimised_bounding d e f find_min find_max w what dt FL FE Hmin Hmax Lw Hw) Hw n lo hi rest T Ll Hle eq_refl).
Qed.
Print Assumptions C47_optimised.

(** The dynamics [x+ = w - x] and its decomposition meet the hypotheses of both theorems. *)
Module Example_mixmono.
  Definition f (x w : vec) : vec := zipw (fun a b => b - a)%Q x w.
  Definition g (x w y v : vec) : vec := zipw (fun a b => b - a)%Q y w.

  Example ex_mixed : mixed_monotone 1 1 f g.
  Proof.
    split; [|split].
    - intros x w y v H1 H2 H3 H4. unfold g. rewrite zipw_length. lia.
    - intros x w H1 H2. unfold f, g. induction (zipw (fun a b => b - a)%Q x w); constructor; [reflexivity|assumption].
    - intros x w y v x' w' y' v' H1 H2 H3 H4 A B C D. unfold vle, g in *. clear - B C. revert y y' C. induction B as [|a b w w' Hab B IH]; intros y y' C; inversion C; subst; cbn; constructor; [lra|auto].
  Qed.
  Example ex_tube :
    option_map (map (map Qred)) (compute_reachtube_mixmono_disc (fun x w y v _ => Some (g x w y v)) [0%Q] [1 # 2] (1 # 2) [([1%Q], [2%Q])] 1) =
    Some [[0%Q; - 2 # 1]; [1 # 2; 2%Q]; [1 # 2; - 2 # 1]; [1%Q; 5 # 2]].
  Proof. vm_compute. reflexivity. Qed.
  Example ex_C47 : exists tube, compute_reachtube_mixmono_disc (fun x w y v _ => Some (g x w y v)) [0%Q] [1 # 2] (1 # 2) [([1%Q], [2%Q])] 1 = Some tube /\
    in_step tube 1 (trajectory f (fun _ => [1 # 4]) [3 # 2] 1) /\ in_step tube 1 (trajectory f (fun _ => [1 # 4]) [3 # 2] 2).
  Proof.
    destruct (@C47_mixed_monotone 1 1 f g [0%Q] [1 # 2] (1 # 2) [1%Q] [2%Q] [] 1 ex_mixed) as (tube & E & _ & _ & H); try reflexivity; try (repeat constructor; vm_compute; discriminate).
    exists tube. split; [exact E|]. apply H; [intros j| |vm_compute; lia]; (split; [split; vm_compute; discriminate|exact I]).
  Qed.

  Definition least (i : nat) (b v : box) (_ : Q) : Q := (nth i (fst v) 0 - nth i (snd b) 0)%Q.
  Definition most (i : nat) (b v : box) (_ : Q) : Q := (nth i (snd v) 0 - nth i (fst b) 0)%Q.
  Example ex_optimised : exists tube, compute_reachtube_mixmono_disc (optimised least most) [0%Q] [1 # 2] (1 # 2) [([1%Q], [2%Q])] 1 = Some tube /\
    in_step tube 1 (trajectory f (fun _ => [1 # 4]) [3 # 2] 1) /\ in_step tube 1 (trajectory f (fun _ => [1 # 4]) [3 # 2] 2).
  Proof.
    destruct (@C47_optimised 1 1 f least most [0%Q] [1 # 2] (1 # 2) [1%Q] [2%Q] [] 1) as (tube & E & _ & _ & H); try reflexivity; try (repeat constructor; vm_compute; discriminate).
    - intros x w H1 H2. unfold f. rewrite zipw_length. lia.
    - intros x x' w w' A. unfold f, veq in *. revert w w'. induction A as [|a b x x' Hab A IH]; intros w w' B; inversion B; subst; cbn; constructor; [lra|auto].
    - intros i [lo hi] [vl vh] Hi L1 L2 A B. cbn [fst snd] in *. destruct i as [|i]; [|lia]. destruct lo as [|l [|? ?]], vl as [|u [|? ?]]; try discriminate.
      inversion A as [|? h ? ? Hlh A' E1]; subst. inversion A'; subst. inversion B as [|? h' ? ? Hlh' B' E2]; subst. inversion B'; subst. split; cbn [fst snd].
      + intros x w Hx Hw. destruct x as [|x [|? ?]]; cbn in Hx; try tauto. destruct w as [|w [|? ?]]; cbn in Hw; try tauto. unfold least, most, f; cbn; lra.
      + exists [h], [u]. split; [cbn; lra|]. split; [cbn; lra|]. unfold least, most, f; cbn; lra.
    - intros i [lo hi] [vl vh] Hi L1 L2 A B. cbn [fst snd] in *. destruct i as [|i]; [|lia]. destruct lo as [|l [|? ?]], vl as [|u [|? ?]]; try discriminate.
      inversion A as [|? h ? ? Hlh A' E1]; subst. inversion A'; subst. inversion B as [|? h' ? ? Hlh' B' E2]; subst. inversion B'; subst. split; cbn [fst snd].
      + intros x w Hx Hw. destruct x as [|x [|? ?]]; cbn in Hx; try tauto. destruct w as [|w [|? ?]]; cbn in Hw; try tauto. unfold least, most, f; cbn; lra.
      + exists [l], [h']. split; [cbn; lra|]. split; [cbn; lra|]. unfold least, most, f; cbn; lra.
    - exists tube. split; [exact E|]. apply H; [intros j| |vm_compute; lia]; (split; [split; vm_compute; discriminate|exact I]).
  Qed.
End Example_mixmono.

(** scipy's L-BFGS-B, which the code calls, only finds local optima.  [m] is a value of component [i] of [f] that is
    least (greatest) near some point of the boxes. *)
Definition near (eps : Q) (x y : vec) : Prop := Forall2 (fun a b => (a - eps <= b <= a + eps)%Q) x y.
Definition is_local_min (f : vec -> vec -> vec) (i : nat) (b v : vec * vec) (m : Q) : Prop :=
  exists x w eps, in_box (fst b) (snd b) x /\ in_box (fst v) (snd v) w /\ (0 < eps)%Q /\ (m == nth i (f x w) 0)%Q /\
    forall x' w', in_box (fst b) (snd b) x' -> in_box (fst v) (snd v) w' -> near eps x x' -> near eps w w' -> (m <= nth i (f x' w') 0)%Q.

(** For the dynamics [x+ = -x^2] on the box [-1, 2] a descent from the lower bound stays there: the tube then misses the
    trajectory from [2]. *)
Theorem C47_local_optima_refuted : exists f find_min find_max tube,
  (forall b v, length (fst b) = 1 -> length (fst v) = 0 -> vle (fst b) (snd b) -> vle (fst v) (snd v) -> is_local_min f 0 b v (find_min 0 b v 1%Q)) /\
  (forall b v, length (fst b) = 1 -> length (fst v) = 0 -> vle (fst b) (snd b) -> vle (fst v) (snd v) -> is_max f 0 b v (find_max 0 b v 1%Q)) /\
  compute_reachtube_mixmono_disc (optimised find_min find_max) [] [] 1%Q [([- 1 # 1], [2%Q])] 1%Q = Some tube /\
  in_box [- 1 # 1] [2%Q] [2%Q] /\ ~ in_step tube 0 (trajectory f (fun _ => []) [2%Q] 1).
Proof.
  exists (fun x _ => map (fun a => - (a * a))%Q x).
  exists (fun _ b _ _ => let l := nth 0 (fst b) 0%Q in let h := nth 0 (snd b) 0%Q in if Qlt_le_dec l 0 then (- (l * l))%Q else (- (h * h))%Q).
  exists (fun _ b _ _ => let l := nth 0 (fst b) 0%Q in let h := nth 0 (snd b) 0%Q in if Qlt_le_dec l 0 then (if Qlt_le_dec h 0 then (- (h * h))%Q else 0%Q) else (- (l * l))%Q).
  eexists. split; [|split; [|split; [vm_compute; reflexivity|split; [cbn; split; [split; vm_compute; discriminate|exact I]|]]]].
  - intros [lo hi] [vl vh] L1 L2 A B. cbn [fst snd] in *. destruct lo as [|l [|? ?]], vl as [|? ?]; try discriminate. inversion A as [|? h ? ? Hlh A' E1]; subst. inversion A'; subst. inversion B; subst. cbn [nth].
    destruct (Qlt_le_dec l 0) as [Hl|Hl].
    + exists [l], [], (- l)%Q. split; [cbn; lra|]. split; [exact I|]. split; [lra|]. split; [cbn; lra|]. intros x' w' Hx _ Hn _. cbn [fst snd] in Hx. destruct x' as [|x [|? ?]]; cbn in Hx; try tauto.
      inversion Hn as [|? ? ? ? Hn1 _]; subst. cbn. nra.
    + exists [h], [], 1%Q. split; [cbn; lra|]. split; [exact I|]. split; [lra|]. split; [cbn; lra|]. intros x' w' Hx _ _ _. cbn [fst snd] in Hx. destruct x' as [|x [|? ?]]; cbn in Hx; try tauto. cbn. nra.
  - intros [lo hi] [vl vh] L1 L2 A B. cbn [fst snd] in *. destruct lo as [|l [|? ?]], vl as [|? ?]; try discriminate. inversion A as [|? h ? ? Hlh A' E1]; subst. inversion A'; subst. inversion B; subst. cbn [nth]. split; cbn [fst snd].
    + intros x w Hx _. destruct x as [|x [|? ?]]; cbn in Hx; try tauto. cbn. destruct (Qlt_le_dec l 0); [destruct (Qlt_le_dec h 0)|]; nra.
    + destruct (Qlt_le_dec l 0); [destruct (Qlt_le_dec h 0)|].
      * exists [h], []. split; [cbn; lra|]. split; [exact I|]. cbn. lra.
      * exists [0%Q], []. split; [cbn; lra|]. split; [exact I|]. cbn. lra.
      * exists [l], []. split; [cbn; lra|]. split; [exact I|]. cbn. lra.
  - intros (t1 & lo & t2 & hi & E1 & E2 & H). cbn in E1, E2. injection E1 as <- <-. injection E2 as <- <-. cbn in H. destruct H as [[H _] _]. vm_compute in H. exact (H eq_refl).
Qed.
Print Assumptions C47_local_optima_refuted.

(** Only the first initial set is used: when a node has more than one, trajectories from the others are not covered. *)
Theorem C47_other_inits_refuted : exists d e f g w what dt b1 b2 T tube,
  mixed_monotone d e f g /\ compute_reachtube_mixmono_disc (fun x w y v _ => Some (g x w y v)) w what dt [b1; b2] T = Some tube /\
  exists x ws, in_box (fst b2) (snd b2) x /\ (forall j, in_box w what (ws j)) /\ ~ in_step tube 0 (trajectory f ws x 0).
Proof.
  exists 1, 1, Example_mixmono.f, Example_mixmono.g, [0%Q], [1 # 2], (1 # 2), ([1%Q], [2%Q]), ([3%Q], [4%Q]), 1%Q. eexists. split; [exact Example_mixmono.ex_mixed|]. split; [vm_compute; reflexivity|].
  exists [3%Q], (fun _ => [0%Q]). split; [cbn; repeat split; vm_compute; discriminate|]. split; [intros _; cbn; repeat split; vm_compute; discriminate|].
  intros (t1 & lo & t2 & hi & E1 & E2 & H). cbn in E1, E2. injection E1 as <- <-. injection E2 as <- <-. cbn in H. destruct H as [[_ H] _]. vm_compute in H. exact (H eq_refl).
Qed.
Print Assumptions C47_other_inits_refuted.
