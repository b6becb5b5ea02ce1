(** What callers of the split sensor analysis rely on. *)
From Coq Require Import Reals Qreals.
From Verif Require Import Base PyText Dict ParseArray ParseArraySpec SplitSensor.
Set Implicit Arguments.
Open Scope nat_scope.

(** The outputs lie between the two arrays. *)
Definition inside (outs : list R) (b : vec * vec) : Prop :=
  length (fst b) = length outs /\ length (snd b) = length outs
  /\ forall j, j < length outs -> (Q2R (nth j (fst b) 0%Q) <= nth j outs 0 <= Q2R (nth j (snd b) 0%Q))%R.

Section Spec.
  Variable F : Type.
  (** The function the code computes. *)
  Variable run : F -> list R -> list R.
  Variable crown : F -> list (Q * Q) -> vec * vec.
  (** CROWN's bounds of one box are right, and have one entry per output. *)
  Definition sound_crown : Prop :=
    (forall code box vs, in_box vs box -> inside (run code vs) (crown code box))
    /\ forall code, exists m, forall box, length (fst (crown code box)) = m /\ length (snd (crown code box)) = m.

  (** The box after conversion of its bounds. *)
  Definition converted (f32 : Q -> Q) (bs : list (Q * Q)) : list (Q * Q) := map (fun b => (f32 (fst b), f32 (snd b))) bs.
  (** Equal numbers are converted to equal numbers. *)
  Definition respects (f32 : Q -> Q) : Prop := forall a b, (a == b)%Q -> (f32 a == f32 b)%Q.

  (** A piece: in each coordinate one of the [n] equal parts, or all of it if it is a point. *)
  Definition is_part (n : nat) (b c : Q * Q) : Prop :=
    ((fst b == snd b)%Q /\ (fst c == fst b)%Q /\ (snd c == fst b)%Q)
    \/ (~ (fst b == snd b)%Q /\ exists i, i < n /\ (fst c == fst b + inject_Z (Z.of_nat i) * (snd b - fst b) / inject_Z (Z.of_nat n))%Q
          /\ (snd c == fst b + inject_Z (Z.of_nat (i + 1)) * (snd b - fst b) / inject_Z (Z.of_nat n))%Q).
  Definition is_piece (n : nat) (bs p : list (Q * Q)) : Prop := Forall2 (is_part n) bs p.

  (** A file name tells the bounds, the name and the number of splits. *)
  Definition tells_apart {K} (key : list (Q * Q) -> word -> nat -> K) : Prop :=
    forall bs bs' x x' n n', key bs x n = key bs' x' n' -> same_intervals bs bs' /\ x = x' /\ n = n'.

  (** Functions of the same name have the same code. *)
  Definition asked (rs : list (request F)) (fn : sensor F) : Prop := exists bs n, In (Ask fn bs n) rs.
  Definition names_differ (rs : list (request F)) : Prop :=
    forall f g, asked rs f -> asked rs g -> sensor_name f = sensor_name g -> sensor_code f = sensor_code g.
  (** The code, box and number of splits a request is about. *)
  Definition about (r : request F) (code : F) (bs : list (Q * Q)) (n : nat) : Prop :=
    match r with Ask fn bs' n' => sensor_code fn = code /\ bs' = bs /\ n' = n | AskExpr c bs' n' => c = code /\ bs' = bs /\ n' = n | ClearCache _ => False end.
End Spec.
