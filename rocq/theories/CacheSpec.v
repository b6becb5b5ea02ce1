(** What the caches promise, for CacheProps.v. *)
From Verif Require Import Base Dict Cache.
From Coq Require Import Qabs.
Set Implicit Arguments.
Open Scope nat_scope.

(** The box raised by 1e-6 at its upper bounds. *)
Definition widened (hi : vec) : vec := map (fun h => h + (1 # 1000000))%Q hi.
(** Box [lo, hi] contains box [qlo, qhi] up to 1e-6 at the upper bounds. *)
Definition nearly_contains (lo hi qlo qhi : vec) : Prop := box_le qlo qhi lo (widened hi).
Definition contains_box (lo hi qlo qhi : vec) : Prop := box_le qlo qhi lo hi.
(** A non-empty box of at least one variable. *)
Definition proper (lo hi : vec) : Prop := lo <> [] /\ Forall2 Qle lo hi.
(** Two states within 1e-6 of each other in every entry, or strictly so. *)
Definition near (x y : vec) : Prop := Forall2 (fun a b => Qabs (a - b) <= 1 # 1000000)%Q x y.
Definition strictly_near (x y : vec) : Prop := Forall2 (fun a b => Qabs (a - b) < 1 # 1000000)%Q x y.

(** The paths of a decision logic that assign variable [v], in order. *)
Definition paths_for (v : nat) (ps : list mpath) : list mpath := filter (fun p => Nat.eqb v (m_var p)) ps.
(** The [i]-th path for [v] is [o] in the old logic; in the new logic it is missing or has another condition. *)
Definition path_gone (old new : list mpath) (o : mpath) : Prop :=
  exists v i, nth_error (paths_for v old) i = Some o /\ forall n, nth_error (paths_for v new) i = Some n -> m_cond_veri n <> m_cond_veri o.
(** The [i]-th path for [v] is [n] in the new logic and had another condition in the old one. *)
Definition path_new (old new : list mpath) (n : mpath) : Prop :=
  exists v i, nth_error (paths_for v new) i = Some n /\ forall o, nth_error (paths_for v old) i = Some o -> m_cond_veri n <> m_cond_veri o.
