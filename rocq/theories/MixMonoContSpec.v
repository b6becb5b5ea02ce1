(** What MixMonoContProps.v states. *)
From Coq Require Import Reals Qreals.
From Verif Require Import Base.
Set Implicit Arguments.
Open Scope R_scope.

(** Component by component. *)
Definition rle (a b : list R) : Prop := length a = length b /\ forall i, nth i a 0 <= nth i b 0.
Definition within (lo hi s : list R) : Prop := rle lo s /\ rle s hi.

(** From time 0 on, [y] is a curve of states of dimension [n] whose speed is [v]. *)
Definition moves (n : nat) (y v : R -> list R) : Prop :=
  (forall t, length (y t) = n) /\
  forall i t, (i < n)%nat -> 0 <= t -> derivable_pt_lim (fun u => nth i (y u) 0) t (nth i (v t) 0).

(** A run of the system x' = f x w from the box, for some disturbance that stays between its bounds. *)
Definition run_of (n : nat) (f : list R -> list R -> list R) (w what lo hi : list R) (s : R -> list R) : Prop :=
  within lo hi (s 0) /\ exists dist, (forall t, 0 <= t -> within w what (dist t)) /\ moves n s (fun t => f (s t) (dist t)).

(** [d] is a decomposition function of the system: it agrees with [f] on the diagonal; component [i] does not decrease with the other components of
    the state and the disturbance, and does not increase with the components of their second copies; and it is locally Lipschitz in the states. *)
Definition decomposes (n m : nat) (f : list R -> list R -> list R) (d : list R -> list R -> list R -> list R -> list R) : Prop :=
  (forall x w, length x = n -> length w = m -> d x w x w = f x w) /\
  (forall i x x' xh xh' w w' wh wh', (i < n)%nat -> length x = n -> length xh = n -> length w = m -> length wh = m ->
    rle x x' -> nth i x 0 = nth i x' 0 -> rle w w' -> rle xh' xh -> rle wh' wh ->
    nth i (d x w xh wh) 0 <= nth i (d x' w' xh' wh') 0) /\
  (forall B, exists K, forall i x x' xh xh' w wh r, (i < n)%nat -> length x = n -> length x' = n -> length xh = n -> length xh' = n -> length w = m -> length wh = m ->
    (forall j, Rabs (nth j x 0) <= B /\ Rabs (nth j x' 0) <= B /\ Rabs (nth j xh 0) <= B /\ Rabs (nth j xh' 0) <= B /\ Rabs (nth j w 0) <= B /\ Rabs (nth j wh 0) <= B) ->
    (forall j, Rabs (nth j x 0 - nth j x' 0) <= r /\ Rabs (nth j xh 0 - nth j xh' 0) <= r) ->
    Rabs (nth i (d x w xh wh) 0 - nth i (d x' w xh' wh) 0) <= K * r).

(** The integrator is exact on this problem. *)
Definition exact (n : nat) (solve : (list R * list R -> list R * list R) -> list R * list R -> R -> list R * list R) (F : list R * list R -> list R * list R) (y0 : list R * list R) : Prop :=
  solve F y0 0 = y0 /\
  moves n (fun t => fst (solve F y0 t)) (fun t => fst (F (solve F y0 t))) /\
  moves n (fun t => snd (solve F y0 t)) (fun t => snd (F (solve F y0 t))).

(** State [s] is in step [k] of a tube: rows [2k] and [2k+1]. *)
Definition cont_step (tb : list (Q * list R)) (k : nat) (s : list R) : Prop :=
  exists lo hi, nth_error tb (2 * k) = Some lo /\ nth_error tb (2 * k + 1) = Some hi /\ within (snd lo) (snd hi) s.

(** Every component only rises or only falls between the two times. *)
Definition one_way (y : R -> list R) (a b : R) : Prop :=
  forall i, (forall u v, a <= u -> u <= v -> v <= b -> nth i (y u) 0 <= nth i (y v) 0) \/
            (forall u v, a <= u -> u <= v -> v <= b -> nth i (y v) 0 <= nth i (y u) 0).
